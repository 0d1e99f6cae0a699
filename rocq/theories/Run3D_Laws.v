(** The 3-D tool, step by step. *)
From Coq Require Import Reals List Arith ZArith Bool Ascii String Lra Lia.
Set Warnings "-ambiguous-paths".
From Coquelicot Require Import Coquelicot.
From Verif Require Import CBase PyRes PyStr PyStr_Proofs PyList PyList_Proofs NdArray NdIndex Synth_Model Synth_Spec Synth_Proofs Rmsf_Proofs CleanTop_Model StokesI_Model
  Setup_Model Setup_Spec Setup_Proofs Cube_Model Cube_Spec Cube_Proofs Cube_Laws Peak_Proofs Measure_Model Clean_Grid Run1D_Model Run1D_Spec Run1D_Proofs Run1D_Laws Run1D_Total
  Pixfit_Model Pixfit_Spec Pixfit_Proofs Pixfit_Laws Run3D_Model Run3D_Spec Run3D_Proofs.
Import ListNotations.
Local Open Scope R_scope.

(** ** Weights *)
Lemma inv_var_total : forall r, ~ In (Some 0) r -> exists w, inv_var r = POk w.
Proof.
  induction r as [|[x|] r IH]; intros H; cbn; [eauto| |].
  - destruct (Req_EM_T x 0) as [->|]; [destruct H; now left|]. destruct IH as [w ->]; [intros E; apply H; now right|]. cbn. eauto.
  - destruct IH as [w ->]; [intros E; apply H; now right|]. cbn. eauto.
Qed.

Lemma weights3 : forall o rms n, good_rms o rms n -> exists wA,
  (match rms with Some r => weights_1D (g_variance o) n r | None => weights_1D false n [] end) = POk wA /\
  List.length wA = n /\ forall j, (j < n)%nat -> nth j (weights_of n (Some wA)) 0 = weight3 o rms j.
Proof.
  intros o rms n G.
  assert (K : exists wA, weights_1D false n [] = POk wA /\ List.length wA = n /\ forall j, (j < n)%nat -> nth j (weights_of n (Some wA)) 0 = 1).
  { exists (repeat (Some 1) n). split; [reflexivity|]. split; [apply repeat_length|]. intros j Hj. unfold weights_of.
    rewrite (nth_map_lt _ _ _ _ None) by (now rewrite repeat_length). rewrite nth_error_nth with (x := Some 1); [reflexivity|]. now apply nth_error_repeat. }
  unfold weight3. destruct rms as [r|]; [|exact K]. cbn in G. destruct (g_variance o); [|exact K].
  destruct G as [L Z]; [reflexivity|]. destruct (inv_var_total r Z) as [w Ew]. exists w. split; [exact Ew|].
  destruct (inv_var_len _ _ Ew) as [L1 V]. split; [lia|]. intros j Hj. unfold weights_of. rewrite (nth_map_lt _ _ _ _ None) by lia.
  destruct (V j) as [N ->]. destruct (nth j r None) as [x|]; [|reflexivity]. unfold Rdiv. ring.
Qed.

Lemma weight3_nonneg : forall o rms n j, good_rms o rms n -> 0 <= weight3 o rms j.
Proof.
  intros o rms n j G. unfold weight3. destruct rms as [r|]; [|lra]. cbn in G. destruct (g_variance o); [|lra]. destruct (nth j r None) as [v|] eqn:E; [|lra].
  destruct (Req_EM_T v 0) as [->|Hv].
  - destruct G as [_ Z]; [reflexivity|]. exfalso. apply Z. rewrite <- E. apply nth_In.
    destruct (lt_dec j (List.length r)); [auto|]. rewrite nth_overflow in E by lia. discriminate.
  - apply Rlt_le, Rinv_0_lt_compat. rewrite <- Rsqr_pow2. now apply Rsqr_pos_lt.
Qed.

(** ** Depths *)
Lemma grid_exists : forall o freq, (forall f, In f freq -> 0 < f) -> (exists f g, In f freq /\ In g freq /\ f <> g) -> good_opts3 o freq ->
  exists dp phi h, grid_params (map (fun f => (c_light / f) ^ 2) freq) (g_super o) (g_dPhi o) (g_phiMax o) (g_nSamples o) = POk dp /\
    depth_grid_3D (snd dp) (fst dp) = POk phi /\ grid3 o freq phi h (fst dp) /\ (1 <= h)%nat /\ List.length phi = (2 * h + 1)%nat /\ antisym phi.
Proof.
  intros o freq Hf H2 (_ & G).
  set (o1 := mk_opts 0 (g_phiMax o) (g_dPhi o) (g_nSamples o) (g_variance o) (g_fitRMSF o) true None Linear (g_super o)).
  destruct (grid_total o1 freq Hf H2) as (dp & E). cbn in E. change (@List.length) with (@List.length) in E.
  pose proof (grid_choice o1 freq dp E) as CG. change (chosen_grid3 o freq (fst dp) (snd dp)) in CG.
  destruct (G _ _ CG) as [S1 S2]. destruct (depth_grid_1D_spec (snd dp) (fst dp) S1) as (phi & h & EP & O & B).
  exists dp, phi, h. split; [exact E|]. split; [now rewrite depth_grid_same|]. split; [exists (snd dp); auto|].
  assert (1 <= h)%nat.
  { destruct h; [|lia]. exfalso. cbn [INR] in B. rewrite Rmult_0_l in B. unfold Rminus in B. rewrite Rplus_0_l, Rabs_Ropp, Rabs_Rabsolu in B. lra. }
  split; [assumption|]. split; [apply O|now apply (odd_centred_antisym phi h (fst dp))].
Qed.

(** ** The reference *)
Lemma mean_over_range : forall D freq w l0, (forall f, In f freq -> 0 < f) -> (forall j, 0 <= w j) -> mean_over D freq w l0 ->
  l0 = 0 \/ (0 < l0 /\ forall lo hi, (forall f, In f freq -> lo <= f <= hi) -> 0 < lo -> lsq hi <= l0 <= lsq lo).
Proof.
  intros D freq w l0 Hf Hw (L & ND & HL & H0 & H1). destruct (Req_EM_T (rsum (map w L)) 0) as [Z|Z]; [left; auto|right]. specialize (H1 Z).
  set (chs := map (fun j => mk_chan (lsq (nth j freq 0)) (w j) (RtoC 0)) L).
  assert (E1 : wsum chs = rsum (map w L)) by (unfold wsum, chs; rewrite map_map; reflexivity).
  assert (E2 : mean_l2 chs = l0) by (rewrite H1; unfold mean_l2; rewrite E1; unfold chs; rewrite map_map; reflexivity).
  assert (P : forall c, In c chs -> 0 <= c_w c /\ exists j, (j < List.length freq)%nat /\ c_l2 c = lsq (nth j freq 0)).
  { intros c Ic. unfold chs in Ic. apply in_map_iff in Ic. destruct Ic as (j & <- & Ij). split; [apply Hw|]. exists j. split; [now apply HL|reflexivity]. }
  destruct (wsum_mean_pos chs) as [P1 P2].
  { intros c Ic. destruct (P c Ic) as (A & j & Hj & ->). split; [exact A|]. apply pow_lt, Rdiv_lt_0_compat; [lra|]. apply Hf, nth_In, Hj. }
  { congruence. }
  rewrite E2 in P2. split; [exact P2|]. intros lo hi B Hlo. rewrite <- E2. apply mean_between; [intros c Ic; apply (P c Ic)|exact P1|].
  intros c Ic _. destruct (P c Ic) as (_ & j & Hj & ->). specialize (B (nth j freq 0) (nth_In _ _ Hj)). specialize (Hf (nth j freq 0) (nth_In _ _ Hj)).
  unfold lsq. split; apply pow_incr; (split; [apply Rlt_le, Rdiv_lt_0_compat; lra|]); apply Rmult_le_compat_l; try lra; apply Rinv_le_contravar; lra.
Qed.

Lemma ascending_ends : forall freq, ascending freq -> forall f, In f freq -> nth 0 freq 0 <= f <= nth (List.length freq - 1) freq 0.
Proof.
  intros freq A f If. apply (In_nth _ _ 0) in If. destruct If as (j & Hj & <-). split.
  - destruct j; [lra|]. apply Rlt_le, A. lia.
  - destruct (Nat.eq_dec j (List.length freq - 1)) as [->|]; [lra|]. apply Rlt_le, A. lia.
Qed.

Lemma mean_in : forall freq lo hi, freq <> [] -> (forall f, In f freq -> lo <= f <= hi) -> lo <= rsum freq / INR (List.length freq) <= hi.
Proof.
  intros freq lo hi Hn B. assert (G : lo * INR (List.length freq) <= rsum freq <= hi * INR (List.length freq)).
  { clear Hn. induction freq as [|f l IH]; [cbn; rewrite rsum_nil; lra|]. rewrite rsum_cons. cbn [List.length]. rewrite S_INR. pose proof (B f (or_introl eq_refl)).
    destruct IH; [intros; apply B; now right|]. lra. }
  assert (0 < INR (List.length freq)) by (apply lt_0_INR; destruct freq; [now destruct Hn|cbn; lia]).
  split; [apply Rle_div_r|apply Rle_div_l]; lra.
Qed.

Lemma freq0_range : forall freq l0, (forall f, In f freq -> 0 < f) -> freq <> [] -> ascending freq ->
  (l0 = 0 \/ (0 < l0 /\ forall lo hi, (forall f, In f freq -> lo <= f <= hi) -> 0 < lo -> lsq hi <= l0 <= lsq lo)) ->
  let f0 := freq0_3D freq (Some l0) in ref_freq3 freq l0 f0 /\ 0 < f0 /\ nth 0 freq 0 <= f0 <= nth (List.length freq - 1) freq 0.
Proof.
  intros freq l0 Hf Hn A H f0. pose proof (ascending_ends freq A) as E.
  assert (Hlo : 0 < nth 0 freq 0) by (apply Hf, nth_In; destruct freq; [now destruct Hn|cbn; lia]).
  assert (G : nth 0 freq 0 <= f0 <= nth (List.length freq - 1) freq 0).
  { unfold f0, freq0_3D. destruct (Rlt_dec 0 l0) as [P|P]; [|apply mean_in; auto]. destruct H as [->|[_ H]]; [lra|].
    destruct (H _ _ E Hlo) as [H1 H2]. set (lo := nth 0 freq 0) in *. set (hi := nth (List.length freq - 1) freq 0) in *.
    assert (Hhi : 0 < hi). { apply Rlt_le_trans with lo; auto. apply (E lo). apply nth_In. destruct freq; [now destruct Hn|cbn; lia]. }
    assert (S0 : 0 < sqrt l0) by now apply sqrt_lt_R0. change c_light with 299792458.
    assert (S1 : 299792458 / hi <= sqrt l0).
    { rewrite <- (sqrt_pow2 (299792458 / hi)) by (apply Rlt_le, Rdiv_lt_0_compat; lra). apply sqrt_le_1_alt. exact H1. }
    assert (S2 : sqrt l0 <= 299792458 / lo).
    { rewrite <- (sqrt_pow2 (299792458 / lo)) by (apply Rlt_le, Rdiv_lt_0_compat; lra). apply sqrt_le_1_alt. exact H2. }
    split.
    - apply Rle_div_r; [lra|]. apply Rmult_le_compat_l with (r := lo) in S2; [|lra]. replace (lo * (299792458 / lo)) with 299792458 in S2 by (field; lra). exact S2.
    - apply Rle_div_l; [lra|]. apply Rmult_le_compat_l with (r := hi) in S1; [|lra]. replace (hi * (299792458 / hi)) with 299792458 in S1 by (field; lra). exact S1. }
  split; [|split; [lra|exact G]]. split.
  - intros P. unfold f0, freq0_3D. destruct (Rlt_dec 0 l0); [reflexivity|contradiction].
  - intros ->. unfold f0, freq0_3D. destruct (Rlt_dec 0 0); [lra|reflexivity].
Qed.

Lemma Ifreq0_ok : forall freq cube f0 ny nx, (forall f, In f freq -> 0 < f) -> freq <> [] -> ascending freq -> shape cube = [List.length freq; ny; nx] ->
  0 < f0 -> nth 0 freq 0 <= f0 <= nth (List.length freq - 1) freq 0 ->
  exists i0, Ifreq0Arr freq cube f0 = POk i0 /\ shape i0 = [ny; nx] /\
    forall x y, (x < ny)%nat -> (y < nx)%nat -> ref_value freq f0 (fun j => at_nd None cube [j; x; y]) (at_nd None i0 [x; y]).
Proof.
  intros freq cube f0 ny nx Hf Hn A S P B.
  assert (E : c_light / sqrt ((c_light / f0) ^ 2) = f0).
  { change c_light with 299792458. rewrite sqrt_pow2 by (apply Rlt_le, Rdiv_lt_0_compat; lra). field. lra. }
  assert (PL : 0 < (c_light / f0) ^ 2) by (apply pow_lt, Rdiv_lt_0_compat; [unfold c_light; lra|exact P]).
  destruct (I_map_ok freq ((c_light / f0) ^ 2) (Some cube) ny nx Hf Hn) as (i0 & EI & SI & VI).
  { repeat split; auto; change 299792458 with c_light; rewrite E; tauto. }
  exists i0. split; [|split; [exact SI|]].
  - unfold I_map in EI. rewrite (freqs_lsq freq Hf) in EI. destruct freq as [|f1 fr]; [now destruct Hn|].
    unfold freq_ref in EI. destruct (Rlt_dec 0 ((c_light / f0) ^ 2)); [|contradiction]. rewrite E in EI. exact EI.
  - intros x y Hx Hy. specialize (VI x y Hx Hy). unfold ref_at in VI. change 299792458 with c_light in VI. rewrite E in VI. exact VI.
Qed.

(** ** In-place multiplication *)
Lemma imul_ok : forall naxis k x y (c : nd (option C)) (i0 : nd (option R)) nphi, (1 <= k <= List.length naxis)%nat ->
  sky_axes naxis k = [x; y] -> len naxis x <> 1%nat ->
  wf_nd c -> shape c = nphi :: map (len naxis) (long_axes naxis (os naxis k)) -> shape i0 = [len naxis y; len naxis x] ->
  exists F, imul c i0 = POk F /\ wf_nd F /\ shape F = shape c /\
    forall p j, in_image naxis p -> (j < nphi)%nat ->
      at2 (m naxis k) None (flat F) j (sky naxis k p) =
      match at2 (m naxis k) None (flat c) j (sky naxis k p), at_nd None i0 [p y; p x] with Some z, Some r => Some (z * RtoC r)%C | _, _ => None end.
Proof.
  intros naxis k x y c i0 nphi Hk Es Hx W S Si.
  assert (EK : kept naxis k = [y; x]) by (unfold kept; rewrite Es; reflexivity).
  assert (EL : long_axes naxis (os naxis k) = if (len naxis y =? 1)%nat then [x] else [y; x]).
  { rewrite <- kept_long by exact Hk. rewrite EK. unfold long_axes. cbn [filter]. apply Nat.eqb_neq in Hx. rewrite Hx. destruct (len naxis y =? 1)%nat; reflexivity. }
  assert (F1 : fits_in (shape i0) (shape c) = true).
  { rewrite Si, S, EL. apply Nat.eqb_neq in Hx. unfold fits_in. destruct (Nat.eqb_spec (len naxis y) 1) as [Hy|Hy]; cbn; rewrite ?Hy, ?Nat.eqb_refl, ?orb_true_r; reflexivity. }
  unfold imul. rewrite F1. eexists. split; [reflexivity|]. split; [apply wf_tab_nd|]. split; [reflexivity|]. intros p j Hp Hj.
  assert (Kin : forall a, In a [y; x] -> (p a < len naxis a)%nat).
  { intros a Ia. apply Hp. rewrite <- EK in Ia. now apply kept_in in Ia. }
  assert (V : valid (shape c) (j :: map p (long_axes naxis (os naxis k)))).
  { rewrite S. constructor; [exact Hj|]. apply valid_map. intros a Ia. apply Kin. rewrite EL in Ia. destruct (len naxis y =? 1)%nat; [|exact Ia].
    destruct Ia as [<-|[]]. right. now left. }
  rewrite <- (squeezed_cell naxis k Hk None (tab_nd _ _) nphi p Hp (wf_tab_nd _ _) S j).
  rewrite at_tab_nd by exact V. rewrite (squeezed_cell naxis k Hk None c nphi p Hp W S j).
  destruct (at2 (m naxis k) None (flat c) j (sky naxis k p)) as [z|]; [|reflexivity].
  replace (bc_index (shape i0) (j :: map p (long_axes naxis (os naxis k)))) with [p y; p x]; [reflexivity|].
  rewrite Si, EL. apply Nat.eqb_neq in Hx. unfold bc_index. specialize (Kin y (or_introl eq_refl)).
  destruct (Nat.eqb_spec (len naxis y) 1) as [Hy|Hy]; cbn; rewrite ?Hy, ?Hx; cbn; [f_equal; lia|].
  apply Nat.eqb_neq in Hy. rewrite Hy. reflexivity.
Qed.

(** ** The spread function *)
Lemma forallb_false_ex : forall {A} (f : A -> bool) l, forallb f l = false -> exists x, In x l /\ f x = false.
Proof. intros A f l. induction l as [|a l IH]; cbn; [discriminate|]. destruct (f a) eqn:E; [|eauto]. intros H. destruct (IH H) as (x & Ix & Ex). eauto. Qed.

Lemma phi2_centred : forall phi h step, odd_centred phi h step -> (1 <= h)%nat ->
  exists phi2, phi2_grid true phi = Some phi2 /\ odd_centred phi2 (2 * h + 1) step.
Proof.
  intros phi h step [L V] Hh. rewrite phi2_double by lia. cbv zeta. eexists. split; [reflexivity|].
  assert (E : Nat.div2 (List.length phi + 1) = (h + 1)%nat) by (rewrite L; replace (2 * h + 1 + 1)%nat with (2 * (h + 1))%nat by lia; apply Nat.div2_double).
  rewrite E. split; [rewrite map_length, seq_length; lia|]. intros j Hj. rewrite map_length, seq_length in Hj. rewrite nth_map_seq by exact Hj. cbn [Nat.add].
  unfold ext_index. rewrite !plus_INR, mult_INR. cbn [INR].
  destruct (Z.ltb_spec (Z.of_nat j - Z.of_nat (h + 1)) 0) as [Hz|Hz].
  - rewrite !V by lia. rewrite minus_IZR, <- !INR_IZR_INZ, plus_INR. cbn [INR]. ring.
  - destruct (Z.ltb_spec (Z.of_nat j - Z.of_nat (h + 1)) (Z.of_nat (List.length phi))) as [Hy|Hy].
    + replace (Z.to_nat (Z.of_nat j - Z.of_nat (h + 1))) with (j - (h + 1))%nat by lia. rewrite V by lia. rewrite minus_INR, plus_INR by lia. cbn [INR]. ring.
    + rewrite !V by lia. rewrite minus_IZR, <- !INR_IZR_INZ. rewrite L. rewrite !minus_INR by lia. rewrite !plus_INR, mult_INR. cbn [INR]. ring.
Qed.

Section Rmsf3.
  Variables (naxis : list nat) (k n : nat).
  Notation N := (List.length naxis).
  Hypothesis Hk : (1 <= k <= N)%nat.
  Hypothesis Hlen : len naxis k = n.
  Hypothesis Hn : (2 <= n)%nat.
  Hypothesis Hpos : forall a, (1 <= a <= N)%nat -> (0 < len naxis a)%nat.
  Hypothesis Hsky : (List.length (sky_axes naxis k) <= 2)%nat.
  Variables (Q : image (option R)) (freq : list R) (w : nat -> R) (wA : list (option R)) (q : nd (option R)) (phi : list R) (h : nat) (step : R).
  Hypothesis Lf : List.length freq = n.
  Hypothesis Lw : List.length wA = n.
  Hypothesis Ew : forall j, (j < n)%nat -> nth j (weights_of n (Some wA)) 0 = w j.
  Hypothesis Nw : forall j, 0 <= w j.
  Hypothesis Sq : shows naxis k n None q (vox None Q).
  Hypothesis OC : odd_centred phi h step.
  Hypothesis Hh : (1 <= h)%nat.

  Let msk := mk_nd (shape q) (map is_none (flat q)).
  Notation M := (m naxis k).
  Notation sk := (sky naxis k).

  Lemma mpix_M : mpix msk = M.
  Proof. destruct Sq as (_ & S & _). unfold mpix, msk. cbn [shape]. rewrite S. reflexivity. Qed.
  Lemma flat_q_len : List.length (flat q) = (n * M)%nat.
  Proof. destruct Sq as (W & S & _). unfold wf_nd in W. rewrite W, S. reflexivity. Qed.
  Lemma msk_at : forall j p, (j < n)%nat -> (p < M)%nat -> nth (j * M + p) (flat msk) false = is_none (nth (j * M + p) (flat q) None).
  Proof. intros j p Hj Hp. unfold msk. cbn [flat]. rewrite (nth_map_lt _ _ _ _ None); [reflexivity|]. rewrite flat_q_len. nia. Qed.

  Lemma mask_chans_eq : forall p, in_image naxis p ->
    mask_chans n M (flat msk) (map lsq freq) (weights_of n (Some wA)) (sk p) = sky_q_chans Q k freq w p.
  Proof.
    intros p Hp. unfold mask_chans, sky_q_chans. rewrite Lf, !flat_map_concat_map. f_equal. apply map_ext_in. intros j Hj. apply in_seq in Hj.
    rewrite msk_at by (try lia; now apply sky_lt). change (nth (j * M + sk p) (flat q) None) with (at2 M None (flat q) j (sk p)).
    rewrite (shows_at2 naxis k n Hk Hlen Hn Hsky None q (vox None Q)) by (auto; lia). rewrite (nth_map_lt _ _ _ _ 0), Ew by lia.
    destruct (vox None Q (at_chan p k j)); reflexivity.
  Qed.

  Lemma q_chans_weight : forall p, 0 <= wsum (sky_q_chans Q k freq w p).
  Proof.
    intros p. unfold wsum. apply rsum_nonneg. intros x Ix. apply in_map_iff in Ix. destruct Ix as (c & <- & Ic). unfold sky_q_chans in Ic. apply in_flat_map in Ic.
    destruct Ic as (j & _ & Ic). destruct (vox None Q (at_chan p k j)); [|destruct Ic]. destruct Ic as [<-|[]]. apply Nw.
  Qed.

  (** channels flagged everywhere *)
  Lemma xySum_iff : forall j, (j < n)%nat -> xySum M (flat msk) j <> M <-> exists p, in_image naxis (at_chan p k j) /\ vox None Q (at_chan p k j) <> None.
  Proof.
    intros j Hj. assert (X : forall p, in_image naxis p -> mskd M (flat msk) j (sk p) = is_none (vox None Q (at_chan p k j))).
    { intros p Hp. unfold mskd, at2. rewrite msk_at by (auto; now apply sky_lt). change (nth (j * M + sk p) (flat q) None) with (at2 M None (flat q) j (sk p)).
      rewrite (shows_at2 naxis k n Hk Hlen Hn Hsky None q (vox None Q)) by auto. reflexivity. }
    split.
    - intros H. assert (E : exists p0, (p0 < M)%nat /\ mskd M (flat msk) j p0 = false).
      { destruct (forallb (fun p => mskd M (flat msk) j p) (seq 0 M)) eqn:E.
        - exfalso. apply H. unfold xySum. rewrite forallb_forall in E. replace (filter (fun p => mskd M (flat msk) j p) (seq 0 M)) with (seq 0 M); [apply seq_length|].
          symmetry. clear -E. induction (seq 0 M) as [|a l IH]; [reflexivity|]. cbn [filter]. rewrite E by now left. f_equal. apply IH. intros; apply E. now right.
        - apply forallb_false_ex in E. destruct E as (p0 & Ip & Ep). apply in_seq in Ip. exists p0. split; [lia|exact Ep]. }
      destruct E as (p0 & Hp0 & E). destruct (point_of naxis k Hk Hpos p0 Hp0) as (p & Hp & <-). exists p. split.
      + intros a Ha. unfold at_chan. destruct (Nat.eqb_spec a k) as [->|]; [lia|now apply Hp].
      + rewrite X in E by exact Hp. destruct (vox None Q (at_chan p k j)); [discriminate|discriminate E].
    - intros (p & Hp & Hv) E. pose proof (xySum_full n M (flat msk) freq (eq_sym Lf) j E (sk (at_chan p k j)) (sky_lt naxis k Hk _ Hp)) as F.
      rewrite X in F by exact Hp. apply Hv. destruct Sq as (_ & _ & Vq).
      assert (Eq1 : vox None Q (at_chan (at_chan p k j) k j) = vox None Q (at_chan p k j)).
      { rewrite <- !Vq; [f_equal; apply map_ext; intros a; unfold at_chan; destruct (a =? k)%nat; reflexivity|exact Hp|].
        intros a Ha. unfold at_chan. specialize (Hp a Ha). unfold at_chan in Hp. destruct (a =? k)%nat; exact Hp. }
      rewrite Eq1 in F. destruct (vox None Q (at_chan p k j)); [discriminate|reflexivity].
  Qed.

  (** the reference of the spread function *)
  Lemma rlam0_mean : forall rl, rl = rlam0 n M (flat msk) (map lsq freq) (weights_of n (Some wA)) None ->
    mean_over (fun j => exists p, in_image naxis (at_chan p k j) /\ vox None Q (at_chan p k j) <> None) freq w (lamsq0_key rl) /\
    ((exists p, in_image naxis p /\ wsum (sky_q_chans Q k freq w p) <> 0) -> rl = Some (lamsq0_key rl)).
  Proof.
    intros rl E. set (B := fun j => negb (xySum M (flat msk) j =? M)%nat).
    set (wt := weights_of n (Some wA)) in *.
    assert (LL : forall j, In j (filter B (seq 0 n)) <-> (j < n)%nat /\ exists p, in_image naxis (at_chan p k j) /\ vox None Q (at_chan p k j) <> None).
    { intros j. rewrite filter_In, in_seq. unfold B. destruct (Nat.eqb_spec (xySum M (flat msk) j) M) as [H|H]; cbn [negb].
      - split; [intros [_ ?]; discriminate|]. intros [Hj Hp]. exfalso. apply (xySum_iff j Hj) in Hp. contradiction.
      - split; intros [Hj Hp]; [split; [lia|]; apply xySum_iff; [lia|exact H]|split; [lia|reflexivity]]. }
    assert (E1 : forall g : R -> R -> R, (forall l, g 0 l = 0) ->
      rsum (map (fun wl => g (fst wl) (snd wl)) (combine (rw_eff n M (flat msk) wt) (map lsq freq))) = rsum (map (fun j => g (w j) (lsq (nth j freq 0))) (filter B (seq 0 n)))).
    { intros g G0. unfold rw_eff. assert (EF : map lsq freq = map (fun j => lsq (nth j freq 0)) (seq 0 n)).
      { rewrite (list_as_seq freq 0) at 1. rewrite map_map, Lf. reflexivity. }
      rewrite EF, combine_map_same, map_map. assert (KK : forall j, In j (seq 0 n) -> nth j wt 0 = w j) by (intros j Ij; apply in_seq in Ij; apply Ew; lia).
      clear -G0 KK. induction (seq 0 n) as [|j l IH]; [reflexivity|]. cbn [map filter]. rewrite rsum_cons, IH by (intros; apply KK; now right). cbn [fst snd]. unfold B at 2.
      destruct (xySum M (flat msk) j =? M)%nat; cbn [negb]; [rewrite G0; ring|]. cbn [map]. rewrite rsum_cons, KK by now left. reflexivity. }
    assert (ES : rsum (rw_eff n M (flat msk) wt) = rsum (map w (filter B (seq 0 n)))).
    { pose proof (E1 (fun a _ => a) (fun _ => eq_refl)) as X. cbn beta in X. symmetry. refine (eq_trans (eq_sym X) _). f_equal.
      assert (LR : List.length (rw_eff n M (flat msk) wt) = List.length (map lsq freq)) by (unfold rw_eff; rewrite !map_length, seq_length; lia).
      clear -LR. revert LR. generalize (map lsq freq) (rw_eff n M (flat msk) wt). intros l2 l1. revert l2. induction l1 as [|a l1 IH]; intros [|b l2] L; try discriminate; [reflexivity|].
      cbn. f_equal. apply IH. cbn in L. lia. }
    pose proof (E1 Rmult Rmult_0_l) as EM.
    unfold rlam0, rmsf_lam0_of in E. cbv zeta in E. rewrite EM, ES in E. split.
    - exists (filter B (seq 0 n)). split; [apply NoDup_filter, seq_NoDup|]. split; [rewrite Lf; exact LL|]. cbv zeta.
      destruct (Req_EM_T (rsum (map w (filter B (seq 0 n)))) 0) as [Z|Z]; subst rl; cbn [lamsq0_key]; split; intros H; try contradiction; try reflexivity. field. exact Z.
    - intros (p & Hp & Hw). destruct (Req_EM_T (rsum (map w (filter B (seq 0 n)))) 0) as [Z|Z]; [|subst rl; reflexivity]. exfalso. apply Hw.
      assert (Zj : forall j, In j (filter B (seq 0 n)) -> w j = 0).
      { clear -Z Nw. revert Z. generalize (filter B (seq 0 n)). intros l. induction l as [|a l IH]; intros Z j Ij; [destruct Ij|]. cbn [map] in Z. rewrite rsum_cons in Z.
        assert (0 <= rsum (map w l)) by (apply rsum_nonneg; intros x Ix; apply in_map_iff in Ix; destruct Ix as (c & <- & _); apply Nw). pose proof (Nw a).
        destruct Ij as [<-|Ij]; [lra|]. apply IH; [lra|exact Ij]. }
      unfold wsum, sky_q_chans. rewrite Lf. assert (GG : forall l, (forall j, In j l -> (j < n)%nat) -> rsum (map c_w (flat_map (fun j => match vox None Q (at_chan p k j) with
        | Some _ => [mk_chan (lsq (nth j freq 0)) (w j) (RtoC 0)] | None => [] end) l)) = 0).
      { induction l as [|j l IH]; intros Hl; [apply rsum_nil|]. cbn [flat_map]. rewrite map_app, rsum_app, IH by (intros; apply Hl; now right).
        destruct (vox None Q (at_chan p k j)) as [v|] eqn:Ev; cbn [map]; rewrite ?rsum_nil; [|ring]. rewrite rsum_cons, rsum_nil. cbn [c_w].
        rewrite (Zj j); [ring|]. apply LL. split; [apply Hl; now left|]. exists p. rewrite Ev. split; [|discriminate].
        intros a Ha. unfold at_chan. destruct (Nat.eqb_spec a k) as [->|]; [rewrite Hlen; apply Hl; now left|now apply Hp]. }
      apply GG. intros j Ij. apply in_seq in Ij. lia.
  Qed.

  Lemma rmsf_cells : forall fit lam0in (fb : bool), exists s phi2 K,
    get_rmsf_planes fit (map lsq freq) phi (Some wA) (Some msk) lam0in true fb = RetOk s /\
    phi2Arr s = phi2 /\ odd_centred phi2 (2 * h + 1) step /\
    (K = os naxis k \/ K = long_axes naxis (os naxis k)) /\
    wf_nd (RMSFcube s) /\ shape (RMSFcube s) = List.length phi2 :: map (len naxis) K /\
    (forall p j, in_image naxis p -> at_nd None (RMSFcube s) (j :: map p K) = at2 M None (flat (RMSFcube s)) j (sk p)) /\
    match lam0in with
    | Some l => rmsf_lam0 s = Some l
    | None => mean_over (fun j => exists p, in_image naxis (at_chan p k j) /\ vox None Q (at_chan p k j) <> None) freq w (lamsq0_key (rmsf_lam0 s))
    end /\
    (forall p j, in_image naxis p -> (j < List.length phi2)%nat -> let chs := sky_q_chans Q k freq w p in wsum chs <> 0 ->
      at2 M None (flat (RMSFcube s)) j (sk p) = Some (RMSF_spec chs (lamsq0_key (rmsf_lam0 s)) (nth j phi2 0))) /\
    (forall p, in_image naxis p -> nth (sk p) (flat (fwhmRMSFArr s)) None =
      match (if fb then fit phi2 (map (fun j => at2 M None (flat (RMSFcube s)) j (sk p)) (seq 0 (List.length phi2))) else None) with
      | Some (st, v) => if (1 <=? st)%Z then Some v else fwhm_analytic (map lsq freq)
      | None => fwhm_analytic (map lsq freq)
      end) /\
    sky_map naxis k (fwhmRMSFArr s).
  Proof.
    intros fit lam0in fb. destruct (phi2_centred phi h step OC Hh) as (phi2 & E2 & O2).
    assert (Nl : map lsq freq <> []) by (destruct freq; [cbn in Lf; lia|discriminate]).
    assert (Sm : shape msk = n :: map (len naxis) (kept naxis k)) by (unfold msk; cbn [shape]; apply Sq).
    pose proof (kept_short naxis k Hsky) as Lk.
    assert (V : valid_rmsf (map lsq freq) (Some wA) msk).
    { split; [exact Nl|]. rewrite Sm, map_length, Lf. split; [cbn [List.length]; rewrite map_length; lia|]. split; [reflexivity|exact Lw]. }
    destruct (rmsf_refines fit (map lsq freq) phi (Some wA) msk lam0in true fb phi2 V E2) as (s & ES & EP & EC).
    pose proof (rmsf_lam0_ret _ _ _ _ _ _ _ _ _ ES) as EL. rewrite mpix_M, map_length, Lf in EL, EC.
    change (prep_weights n (Some wA)) with (weights_of n (Some wA)) in EL.
    set (K := if (List.length (shape msk) =? 3)%nat then kept naxis k else long_axes naxis (os naxis k)).
    exists s, phi2, K. split; [exact ES|]. split; [exact EP|]. split; [exact O2|].
    split. { unfold K. rewrite kept_eq. destruct (List.length (shape msk) =? 3)%nat; [destruct (4 <=? N)%nat; auto|auto]. }
    assert (L2 : List.length phi2 = (2 * (2 * h + 1) + 1)%nat) by apply O2.
    assert (GS : flat (RMSFcube s) = tab2 (List.length phi2) M (fun j p => nth j (if do1Dcalc n M (flat msk) then rmsf_1d n M (flat msk) (map lsq freq) phi2 (weights_of n (Some wA)) lam0in
        else rmsf_pix n M (flat msk) (map lsq freq) phi2 (weights_of n (Some wA)) lam0in p) None) /\
      shape (RMSFcube s) = List.length phi2 :: map (len naxis) K /\
      flat (fwhmRMSFArr s) = map (fun p => match (if fb then fit phi2 (if do1Dcalc n M (flat msk) then rmsf_1d n M (flat msk) (map lsq freq) phi2 (weights_of n (Some wA)) lam0in
        else rmsf_pix n M (flat msk) (map lsq freq) phi2 (weights_of n (Some wA)) lam0in p) else None) with
        | Some (st, v) => if (1 <=? st)%Z then Some v else fwhm_analytic (map lsq freq)
        | None => fwhm_analytic (map lsq freq) end) (seq 0 M) /\
      sky_map naxis k (fwhmRMSFArr s)).
    { assert (X := ES). unfold get_rmsf_planes in X. rewrite E2 in X. rewrite Sm in X.
      repeat match type of X with (if negb ?b then _ else _) = _ => destruct b; [cbn [negb] in X|discriminate] end.
      destruct (map lsq freq) as [|l ll] eqn:EQ; [congruence|]. rewrite <- EQ in *. clear EQ l ll. injection X as <-. cbn [RMSFcube fwhmRMSFArr].
      replace (List.length (map lsq freq)) with n by (rewrite map_length; now rewrite Lf).
      unfold K. rewrite Sm. cbn [List.length Nat.eqb]. rewrite (map_length (len naxis) (kept naxis k)).
      assert (WW : forall l : list nat, map (fun p => snd (if fb then match fit phi2 (if do1Dcalc n M (flat msk) then rmsf_1d n M (flat msk) (map lsq freq) phi2 (weights_of n (Some wA)) lam0in
        else rmsf_pix n M (flat msk) (map lsq freq) phi2 (weights_of n (Some wA)) lam0in p) with Some (st, fw) => if (st <? 1)%Z then ((-1)%Z, fwhm_analytic (map lsq freq)) else (st, Some fw)
          | None => ((-1)%Z, fwhm_analytic (map lsq freq)) end else ((-1)%Z, fwhm_analytic (map lsq freq)))) l =
        map (fun p => match (if fb then fit phi2 (if do1Dcalc n M (flat msk) then rmsf_1d n M (flat msk) (map lsq freq) phi2 (weights_of n (Some wA)) lam0in
        else rmsf_pix n M (flat msk) (map lsq freq) phi2 (weights_of n (Some wA)) lam0in p) else None) with
        | Some (st, v) => if (1 <=? st)%Z then Some v else fwhm_analytic (map lsq freq)
        | None => fwhm_analytic (map lsq freq) end) l).
      { intros l. apply map_ext. intros p. destruct fb; [|reflexivity]. destruct (fit phi2 _) as [[st v]|]; [|reflexivity].
        destruct (Z.ltb_spec st 1), (Z.leb_spec 1 st); try lia; reflexivity. }
      assert (SL : filter (fun n0 => negb (n0 =? 1)%nat) [M] = map (len naxis) (long_axes naxis (os naxis k)) \/ List.length (kept naxis k) = 2%nat).
      { destruct (Nat.eq_dec (List.length (kept naxis k)) 2) as [|Hne]; [now right|left]. rewrite <- kept_long by exact Hk. unfold m.
        assert (EE : map (len naxis) (long_axes naxis (kept naxis k)) = filter (fun n => negb (n =? 1)%nat) (map (len naxis) (kept naxis k))).
        { symmetry. apply (proj2 (squeeze_map (len naxis) (fun a => a) (kept naxis k))). }
        rewrite EE. destruct (kept naxis k) as [|x1 [|x2 kk]]; cbn [map List.length] in *; [reflexivity| |lia]. cbn [prodn fold_right]. rewrite Nat.mul_1_r. reflexivity. }
      destruct (Nat.eqb_spec (List.length (kept naxis k)) 2) as [H3|H3]; cbn [flat shape squeeze app].
      - split; [reflexivity|]. split; [reflexivity|]. split; [apply WW|]. unfold sky_map. cbn [shape tl]. fold (os naxis k). rewrite <- kept_long by exact Hk.
        apply (proj2 (squeeze_map (len naxis) (fun a => a) (kept naxis k))).
      - split; [reflexivity|]. destruct SL as [SL|]; [|lia]. split; [|split; [apply WW|]]; [|unfold sky_map; fold (os naxis k); rewrite <- SL;
        match goal with |- filter ?f _ = filter _ ?l => transitivity (filter f (filter f l)); [reflexivity|]; cbn [filter]; destruct (f M) eqn:EM; cbn [filter]; rewrite ?EM; reflexivity end]. cbn [filter] in SL |- *. replace (List.length phi2 =? 1)%nat with false by (symmetry; apply Nat.eqb_neq; lia).
        cbn [negb]. f_equal. exact SL. }
    destruct GS as (G1 & G2 & G3 & G4).
    assert (WR : wf_nd (RMSFcube s)).
    { unfold wf_nd. rewrite G2, G1, length_tab2. change (prodn (?a :: ?l)) with (a * prodn l)%nat. f_equal. unfold K, m.
      destruct (List.length (shape msk) =? 3)%nat; [reflexivity|]. rewrite <- kept_long by exact Hk. unfold long_axes.
      rewrite <- (proj2 (squeeze_map (len naxis) (fun a => a) (kept naxis k))). symmetry. apply prodn_squeeze. }
    split; [exact WR|]. split; [exact G2|]. split.
    { intros p j Hp. unfold K in G2 |- *. destruct (List.length (shape msk) =? 3)%nat.
      - now apply (full_cell naxis k None (RMSFcube s) (List.length phi2)).
      - now apply (squeezed_cell naxis k Hk None (RMSFcube s) (List.length phi2)). }
    assert (RL : match lam0in with Some l => rmsf_lam0 s = Some l | None =>
       mean_over (fun j => exists p, in_image naxis (at_chan p k j) /\ vox None Q (at_chan p k j) <> None) freq w (lamsq0_key (rmsf_lam0 s)) end /\
       forall p, in_image naxis p -> wsum (sky_q_chans Q k freq w p) <> 0 -> rmsf_lam0 s = Some (lamsq0_key (rmsf_lam0 s))).
    { destruct lam0in as [l|]; [|destruct (rlam0_mean _ EL) as [A B]; split; [exact A|]; intros p Hp Hw; apply B; eauto].
      rewrite EL. unfold rlam0, rmsf_lam0_of. split; [reflexivity|]. intros. reflexivity. }
    destruct RL as [RL1 RL2]. split; [exact RL1|]. split.
    - intros p j Hp Hj chs Hw. specialize (EC j (sk p) (lamsq0_key (rmsf_lam0 s)) Hj (sky_lt naxis k Hk p Hp) (RL2 p Hp Hw)).
      cbv zeta in EC. rewrite mask_chans_eq in EC by exact Hp. apply EC; [exact Hw|]. left. now apply (odd_centred_antisym phi h step).
    - split; [|exact G4]. intros p Hp. rewrite G3. rewrite (nth_map_seq _ _ _ _) by now apply sky_lt. cbn [Nat.add].
      assert (ESP : (if do1Dcalc n M (flat msk) then rmsf_1d n M (flat msk) (map lsq freq) phi2 (weights_of n (Some wA)) lam0in
        else rmsf_pix n M (flat msk) (map lsq freq) phi2 (weights_of n (Some wA)) lam0in (sk p)) =
        map (fun j => at2 M None (flat (RMSFcube s)) j (sk p)) (seq 0 (List.length phi2))).
      { rewrite G1. set (sp := if do1Dcalc n M (flat msk) then _ else _). rewrite (list_as_seq sp None). assert (Lsp : List.length sp = List.length phi2).
        { unfold sp. destruct (do1Dcalc n M (flat msk)); [unfold rmsf_1d; apply map_length|]. unfold rmsf_pix. destruct (rlam0 _ _ _ _ _ _); [|apply map_length].
          unfold nufft1d3. rewrite !map_length. apply rev_length. }
        rewrite Lsp. apply map_ext_in. intros j Ij. apply in_seq in Ij. rewrite at2_tab2 by (try lia; now apply sky_lt). reflexivity. }
      rewrite ESP. reflexivity.
  Qed.
End Rmsf3.
