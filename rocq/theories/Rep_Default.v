(** rmtools_calcRMSF without options. *)
From Coq Require Import Reals List Arith ZArith Bool Lra Lia Psatz Permutation Sorting.Sorted.
Set Warnings "-ambiguous-paths".
From Coquelicot Require Import Coquelicot.
From Verif Require Import CBase PyRes PyList PyList_Proofs NdArray Synth_Model Synth_Spec Synth_Proofs Synth_Laws Measure_Model Median_Proofs Setup_Model Setup_Proofs Rmsf_Proofs
  Clean_Spec Clean_Grid Rmsf_Peak Ref_Spec Ref_Width Mp_Model Lobe_Spec Lobe_Model Lobe_Proofs Lobe_Fit Rep_Spec Rep_Model Rep_Proofs Rep_Report.
Import ListNotations.
Local Open Scope R_scope.

Section Default.
  Variables (freq : column) (w l2 : list R) (s lo : R) (j1 j2 : nat).
  Hypothesis El : all_some (lambda2 freq) = Some l2.
  Hypothesis HL : length w = length l2.
  Hypothesis HW : forall v, In v w -> 0 <= v.
  Hypothesis B1 : (j1 < length l2)%nat.
  Hypothesis B2 : (j2 < length l2)%nat.
  Hypothesis W1 : 0 < nth j1 w 0.
  Hypothesis W2 : 0 < nth j2 w 0.
  Hypothesis SP : span l2 s.
  Hypothesis Hs : 0 < s <= 100000.
  Hypothesis Ilo : In lo l2.
  Hypothesis Hlo : forall x, In x l2 -> lo <= x.
  Hypothesis Nlo : lo <> 0.
  Let d : R := 2 * sqrt 3 / (10 * s).
  Hypothesis NA : 0 < 101 * d * Rabs (nth j1 l2 0 - nth j2 l2 0) < PI.
  Let Y : list R := spread (weighted l2 w) d.

  Lemma d_pos : 1 / 1000000 <= d.
  Proof.
    unfold d. assert (17 / 10 <= sqrt 3). { apply Rsqr_incr_0_var; [|apply sqrt_pos]. rewrite Rsqr_sqrt by lra. unfold Rsqr. lra. }
    apply Rmult_le_reg_r with (10 * s); [lra|]. unfold Rdiv at 2. rewrite Rmult_assoc, Rinv_l by lra. lra.
  Qed.

  Lemma wpos : 0 < rsum w.
  Proof.
    rewrite <- (weighted_sum l2 w HL). unfold wsum.
    assert (IN : In (nth j1 w 0) (map c_w (weighted l2 w))).
    { unfold weighted. rewrite map_map. cbn [c_w]. rewrite combine_seq by exact HL. rewrite map_map. cbn [snd]. apply in_map_iff. exists j1. split; [reflexivity|]. apply in_seq. lia. }
    assert (NN : forall v, In v (map c_w (weighted l2 w)) -> 0 <= v).
    { intros v Hv. unfold weighted in Hv. rewrite map_map in Hv. cbn [c_w] in Hv. apply in_map_iff in Hv. destruct Hv as ((a & b) & <- & Hv). apply HW. now apply in_combine_r in Hv. }
    revert IN NN. generalize (map c_w (weighted l2 w)) as l. induction l as [|x l IH]; intros IN NN; [destruct IN|]. rewrite rsum_cons.
    assert (0 <= rsum l) by (apply rsum_nonneg; intros; apply NN; now right). destruct IN as [->|IN]; [lra|].
    assert (0 < rsum l) by (apply IH; [exact IN|intros; apply NN; now right]). pose proof (NN x ltac:(now left)). lra.
  Qed.

  Lemma d_eq : d = 10 * (2 * sqrt 3) / s / 100.
  Proof. unfold d. field. lra. Qed.

  Lemma axis_eq : padded_axis (- (10 * (2 * sqrt 3) / s) / 2) d 101 51 = map (fun k => (INR k - 101) * d) (seq 0 203).
  Proof.
    unfold padded_axis. change (2 * 51 + 101)%nat with 203%nat. apply map_ext. intros k. unfold d.
    replace (INR 51) with 51 by (rewrite INR_IZR_INZ; reflexivity). field. lra.
  Qed.

  Lemma Y_eq : Y = map Cmod (map (RMSF_spec (weighted l2 w) (mean_l2 (weighted l2 w))) (map (fun k => (INR k - 101) * d) (seq 0 203))).
  Proof. unfold Y, spread. now rewrite !map_map. Qed.

  Theorem default_report : forall fuel rest, exists rep,
    determine_RMSF_parameters (rmsf_fit fuel rest) freq w None None false = Some (POk rep) /\
    p_theory rep = Some (38 / 10 / s) /\ p_scale rep = Some (PI / lo) /\
    match p_lobe rep with
    | Some (x, a) => exists i, highest_max (skipn 101 Y) i /\ x = INR i * d /\ 0 < x /\ a = 100 * nth i (skipn 101 Y) 0 /\ a < 100
    | None => forall i, ~ sharp_max (skipn 101 Y) i
    end.
  Proof.
    intros fuel rest. pose proof d_pos as D0. pose proof wpos as WP.
    destruct (report_values (rmsf_fit fuel rest) freq w None None false l2 s lo (10 * (2 * sqrt 3) / s) d El HL ltac:(lra) SP Ilo Hlo Nlo) as (n & rep & E & N & T & _ & SC & _ & LB).
    { split; [lra|reflexivity]. } { split; [lra|]. unfold d. field. lra. } { lra. } { rewrite d_eq in D0 |- *. lra. }
    assert (n = 101)%nat as ->.
    { assert (A : (100 < n)%nat). { apply N. rewrite d_eq. replace (INR 100) with 100 by (rewrite INR_IZR_INZ; reflexivity). lra. }
      assert (B : ~ (101 < n)%nat). { intros B. apply N in B. replace (INR 101) with 101 in B by (rewrite INR_IZR_INZ; reflexivity). rewrite d_eq in B, D0. lra. }
      lia. }
    exists rep. split; [exact E|]. split; [rewrite T; destruct (Req_EM_T s 0); [lra|reflexivity]|]. split; [exact SC|].
    cbv zeta in LB. change (Nat.div2 (101 + 1)) with 51%nat in LB. rewrite axis_eq in LB.
    set (rm := map (RMSF_spec (weighted l2 w) (mean_l2 (weighted l2 w))) (map (fun k => (INR k - 101) * d) (seq 0 203))) in *.
    assert (LR : length rm = 203%nat) by (unfold rm; now rewrite !map_length, seq_length). rewrite LR in LB. change (203 / 2)%nat with 101%nat in LB.
    assert (YE : map Cmod (skipn 101 rm) = skipn 101 Y) by (rewrite Y_eq; fold rm; now rewrite skipn_map).
    rewrite YE in LB. destruct (p_lobe rep) as [(x, a)|]; [|exact LB]. destruct LB as (i & HM & -> & ->). exists i. split; [exact HM|].
    assert (LY : length (skipn 101 Y) = 102%nat) by (rewrite <- YE, map_length, skipn_length, LR; reflexivity).
    destruct HM as ((I1 & I2 & I3 & I4) & _).
    assert (XE : nth (101 + i) (map (fun k => (INR k - 101) * d) (seq 0 203)) 0 = INR i * d).
    { rewrite nth_map_seq by lia. rewrite Nat.add_0_l, plus_INR. replace (INR 101) with 101 by (rewrite INR_IZR_INZ; reflexivity). ring. }
    split; [exact XE|]. split; [rewrite XE; apply Rmult_lt_0_compat; [apply lt_0_INR; lia|lra]|]. split; [reflexivity|].
    (* below the peak *)
    destruct (default_grid (10 * (2 * sqrt 3) / s)) as (phi & EA & G). { rewrite <- d_eq. exact D0. } rewrite <- d_eq in G.
    destruct (open_rmsf (fun _ _ => None) l2 w (- (10 * (2 * sqrt 3) / s) / 2) d 101 false ltac:(intros ->; destruct Ilo) HL ltac:(lra) ltac:(lia)) as (r & fw0 & Er & Ep & Ec & El0 & _).
    change (Nat.div2 (101 + 1)) with 51%nat in *. rewrite axis_eq in *. fold rm in Ec.
    assert (GP : map (fun k => - (10 * (2 * sqrt 3) / s) / 2 + INR k * d) (seq 0 101) = phi).
    { destruct G as (_ & LP & NP). apply nth_ext with (d := 0) (d' := 0); [rewrite map_length, seq_length, LP; reflexivity|].
      intros k Hk. rewrite map_length, seq_length in Hk. rewrite nth_map_seq by exact Hk. rewrite NP by (rewrite LP; lia). rewrite Nat.add_0_l.
      replace (INR 50) with 50 by (rewrite INR_IZR_INZ; reflexivity). rewrite d_eq. field. lra. }
    rewrite GP in Er.
    assert (UP : unit_peak rm (length phi)).
    { apply (rmsf_unit_peak (fun _ _ => None) l2 phi 50 d (Some (map Some w)) (open_mask (length l2)) None true r 0 (mean_l2 (weighted l2 w)) rm j1 j2); auto.
      - split; [intros ->; destruct Ilo|]. split; [cbn; lia|]. split; [reflexivity|]. now rewrite map_length.
      - lra.
      - cbn. intros x Hx. apply in_map_iff in Hx. destruct Hx as (v & [= <-] & Hv). now apply HW.
      - rewrite Ep, LR. now rewrite map_length, seq_length.
      - intros k Hk. change (mpix (open_mask (length l2))) with 1%nat. rewrite Nat.mul_1_r, Nat.add_0_r, Ec. now apply (nth_map_lt Some rm k None czero).
      - change (mpix (open_mask (length l2))) with 1%nat. apply open_cell.
      - change (mpix (open_mask (length l2))) with 1%nat. apply open_cell.
      - change weights_of with prep_weights. now rewrite prep_some.
      - change weights_of with prep_weights. now rewrite prep_some.
      - destruct G as (_ & LP & _). rewrite LP. replace (INR (2 * 50 + 1)) with 101 by (rewrite INR_IZR_INZ; reflexivity). exact NA. }
    destruct UP as (_ & _ & UP). destruct G as (_ & LP & _).
    specialize (UP (101 + i)%nat ltac:(lia) ltac:(rewrite LP; lia)).
    rewrite <- YE. rewrite (nth_map_lt Cmod (skipn 101 rm) i 0 czero) by (rewrite skipn_length; lia). rewrite nth_skip. lra.
  Qed.

  (** The measured width: the fit of the main lobe, or the analytic width. *)
  Theorem default_width :
    let answer fuel rest := match determine_RMSF_parameters (rmsf_fit fuel rest) freq w None None false with
                            | Some (POk rep) => Some (p_fwhm rep) | _ => None end in
    ((forall i, (101 <= i < 203)%nat -> 4 / 10 <= nth i Y 0) \/ falls_after (4 / 10) Y 101 1 ->
       forall fuel rest, answer fuel rest = Some (Some (38 / 10 / s))) /\
    (forall m, (2 <= m)%nat -> falls_after (4 / 10) Y 101 m ->
       (forall j, (j < m)%nat -> 1 - 6 / 10 * (INR j / INR (m - 1)) <= nth (101 + j) Y 0) ->
       exists N a b wd,
         distance (lobe_axis 101 m d) (take (around 101 m) Y) a b wd <= distance (lobe_axis 101 m d) (take (around 101 m) Y) 1 0 (2 * (INR (m - 1) * d)) /\
         forall fuel rest, (N <= fuel)%nat -> answer fuel rest = Some (Some wd)).
  Proof.
    intros answer. pose proof d_pos as D0. pose proof wpos as WP.
    destruct (default_grid (10 * (2 * sqrt 3) / s)) as (phi & EA & G). { rewrite <- d_eq. exact D0. } rewrite <- d_eq in G, EA.
    assert (H0 : l2 <> []) by (intros ->; destruct Ilo).
    set (rm := map (RMSF_spec (weighted l2 w) (mean_l2 (weighted l2 w))) (map (fun k => (INR k - 101) * d) (seq 0 203))).
    assert (YE : Y = map Cmod rm) by apply Y_eq.
    assert (LR : length rm = 203%nat) by (unfold rm; now rewrite !map_length, seq_length).
    assert (GP : map (fun k => - (10 * (2 * sqrt 3) / s) / 2 + INR k * d) (seq 0 101) = phi).
    { destruct G as (_ & LP & NP). apply nth_ext with (d := 0) (d' := 0); [rewrite map_length, seq_length, LP; reflexivity|].
      intros k Hk. rewrite map_length, seq_length in Hk. rewrite nth_map_seq by exact Hk. rewrite NP by (rewrite LP; lia). rewrite Nat.add_0_l.
      replace (INR 50) with 50 by (rewrite INR_IZR_INZ; reflexivity). rewrite d_eq. field. lra. }
    assert (LP : length phi = 101%nat) by (destruct G as (_ & LP & _); exact LP).
    destruct (open_rmsf (fun _ _ => None) l2 w (- (10 * (2 * sqrt 3) / s) / 2) d 101 false H0 HL ltac:(lra) ltac:(lia)) as (r & fw0 & Er & Ep & Ec & El0 & _).
    change (Nat.div2 (101 + 1)) with 51%nat in *. rewrite axis_eq in *. fold rm in Ec. rewrite GP in Er.
    assert (V : valid_rmsf l2 (Some (map Some w)) (open_mask (length l2))).
    { split; [exact H0|]. split; [cbn; lia|]. split; [reflexivity|]. now rewrite map_length. }
    destruct (lobe_width l2 phi 50 d (Some (map Some w)) (open_mask (length l2)) None 0 j1 j2 V G ltac:(lra)) with (fit := fun (_ : list R) (_ : list (option C)) => @None (Z * R)) (ft := true) (r := r) (l0 := mean_l2 (weighted l2 w)) (rm := rm)
      as (fw & RW & P1 & P2); auto.
    { cbn. intros x Hx. apply in_map_iff in Hx. destruct Hx as (v & [= <-] & Hv). now apply HW. }
    { apply open_cell. } { apply open_cell. }
    { change weights_of with prep_weights. now rewrite prep_some. } { change weights_of with prep_weights. now rewrite prep_some. }
    { rewrite LP. replace (INR 101) with 101 by (rewrite INR_IZR_INZ; reflexivity). exact NA. }
    { rewrite Ep, LR. now rewrite map_length, seq_length. }
    { intros k Hk. change (mpix (open_mask (length l2))) with 1%nat. rewrite Nat.mul_1_r, Nat.add_0_r, Ec. now apply (nth_map_lt Some rm k None czero). }
    rewrite LP, LR, <- YE in P1. rewrite LP, <- YE in P2.
    assert (FW : fw = Some (38 / 10 / s)). { rewrite (range_span l2 s fw SP RW). destruct (Req_EM_T s 0); [lra|reflexivity]. }
    assert (AN : forall fuel rest st x, match get_rmsf_planes (rmsf_fit fuel rest false) l2 phi (Some (map Some w)) (Some (open_mask (length l2))) None true true with
               | RetOk r' => Some (nth 0 (flat (statArr r')) 0%Z, nth 0 (flat (fwhmRMSFArr r')) None)
               | _ => None end = Some (st, x) -> answer fuel rest = Some x).
    { intros fuel rest st x H. unfold answer, determine_RMSF_parameters. rewrite El.
      destruct (rmin_list l2) as [mn|] eqn:Emn; [|destruct l2; [congruence|discriminate]].
      destruct (rmax_list l2) as [mx|] eqn:Emx; [|destruct l2; [congruence|discriminate]].
      pose proof (rmin_list_spec _ _ Emn) as (M1 & M2). pose proof (rmax_list_spec _ _ Emx) as (X1 & X2).
      assert (mx - mn = s) as Es.
      { destruct SP as (h1 & l1 & A1 & A2 & A3 & ->). pose proof (A3 mx X1). pose proof (A3 mn M1). pose proof (M2 l1 A2). pose proof (X2 h1 A1). lra. }
      rewrite !Es. cbv zeta. destruct (Req_EM_T s 0) as [Z|_]; [lra|].
      replace (10 * 2 * sqrt 3 / s) with (10 * (2 * sqrt 3) / s) by (field; lra). replace (1 / 10 * 2 * sqrt 3 / s) with d by (unfold d; field; lra).
      rewrite EA. cbn [pybind]. rewrite none_mask.
      destruct (get_rmsf_planes (rmsf_fit fuel rest false) _ _ _ _ _ _ _); try discriminate. injection H as <- <-. cbn [p_fwhm]. reflexivity. }
    split.
    - intros H fuel rest. rewrite <- FW. apply (AN fuel rest (-1)%Z). now apply P1.
    - intros m Hm F CH. destruct (P2 m Hm F CH) as (N & st & a & b & wd & _ & DD & A). exists N, a, b, wd. split; [exact DD|].
      intros fuel rest Hf. apply (AN fuel rest st). now apply A.
  Qed.
End Default.
