(** Laws of the 1-D tool. *)
From Coq Require Import Reals List Arith ZArith Bool Lra Lia.
Set Warnings "-ambiguous-paths".
From Coquelicot Require Import Coquelicot.
From Verif Require Import CBase NdArray PyRes PyList PyList_Proofs Peak_Proofs Interp_Model Synth_Model Synth_Spec Synth_Proofs Synth_Laws Rmsf_Proofs CleanTop_Model
  Setup_Model Setup_Spec Setup_Proofs StokesI_Model StokesI_Spec StokesI_Proofs StokesI_Fit Measure_Model Measure_Spec Measure_Proofs Measure_Laws QU_Model Rmsf_Peak
  Clean_Grid Run1D_Model Run1D_Spec Run1D_Proofs.
Import ListNotations.
Local Open Scope R_scope.

Lemma flat_map_ext_in : forall {A B} (f g : A -> list B) l, (forall x, In x l -> f x = g x) -> flat_map f l = flat_map g l.
Proof. intros A B f g l H. rewrite !flat_map_concat_map. f_equal. now apply map_ext_in. Qed.

Lemma map_combine_seq : forall {A B C} (f : list A) (w : list B) (q : list C) P a b c, length w = length f -> length q = length f ->
  map fst (filter P (combine f (combine w q))) = map (fun j => nth j f a) (filter (fun j => P (nth j f a, (nth j w b, nth j q c))) (seq 0 (length f))).
Proof.
  intros A B C f. induction f as [|x f IH]; intros w q P a b c L1 L2; [reflexivity|]. destruct w as [|y w]; [discriminate|]. destruct q as [|z q]; [discriminate|].
  cbn [combine length seq filter]. rewrite <- seq_shift.
  assert (E : forall l, map (fun j => nth j (x :: f) a) (filter (fun j => P (nth j (x :: f) a, (nth j (y :: w) b, nth j (z :: q) c))) (map S l)) =
    map (fun j => nth j f a) (filter (fun j => P (nth j f a, (nth j w b, nth j q c))) l)).
  { induction l as [|n l IHl]; [reflexivity|]. cbn [map filter]. change (nth (S n) (x :: f) a) with (nth n f a). change (nth (S n) (y :: w) b) with (nth n w b).
    change (nth (S n) (z :: q) c) with (nth n q c). destruct (P (nth n f a, (nth n w b, nth n q c))); cbn [map]; now rewrite IHl. }
  change (nth 0 (x :: f) a, (nth 0 (y :: w) b, nth 0 (z :: q) c)) with (x, (y, z)).
  destruct (P (x, (y, z))); cbn [map fst]; rewrite E, (IH w q P a b c); auto.
Qed.

Lemma filter_flat_map : forall {A B} (P : A -> bool) (f : A -> B) l, map f (filter P l) = flat_map (fun x => if P x then [f x] else []) l.
Proof. intros A B P f l. induction l as [|x l IH]; [reflexivity|]. cbn. destruct (P x); cbn; now rewrite IH. Qed.

Lemma mean_between : forall chs lo hi, (forall c, In c chs -> 0 <= c_w c) -> 0 < wsum chs ->
  (forall c, In c chs -> c_w c <> 0 -> lo <= c_l2 c <= hi) -> lo <= mean_l2 chs <= hi.
Proof.
  intros chs lo hi NN W H. unfold mean_l2.
  assert (G : lo * wsum chs <= rsum (map (fun c => c_w c * c_l2 c) chs) <= hi * wsum chs).
  { unfold wsum. clear W. induction chs as [|c l IH]; cbn [map]; rewrite ?rsum_nil, ?rsum_cons; [lra|].
    destruct IH as [I1 I2]; [intros; apply NN; now right|intros; apply H; auto; now right|].
    pose proof (NN c (or_introl eq_refl)) as N0. destruct (Req_EM_T (c_w c) 0) as [Z|Z].
    - rewrite Z. lra.
    - destruct (H c (or_introl eq_refl) Z) as [H1 H2].
      assert (lo * c_w c <= c_w c * c_l2 c) by (rewrite (Rmult_comm lo); apply Rmult_le_compat_l; lra).
      assert (c_w c * c_l2 c <= hi * c_w c) by (rewrite (Rmult_comm hi); apply Rmult_le_compat_l; lra). lra. }
  split; apply (Rmult_le_reg_r (wsum chs)); auto; unfold Rdiv; rewrite ?Rmult_assoc, ?Rinv_l, ?Rmult_1_r by lra; lra.
Qed.

Section Laws.
  Variables (mpfit : mpin -> pyres mpres) (fit : bool -> list R -> list (option C) -> option (Z * R)).
  Variables (d : synth_data) (o : run_opts) (freq : list R) (iA Q U dI dQ dU : list (option R)) (out : synth_out).
  Hypothesis GI : good_input d (o_noStokesI o) freq iA Q U dI dQ dU.
  Hypothesis GO : good_opts mpfit o (length freq).
  Hypothesis RUN : run_rmsynth mpfit fit d o = POk out.

  Let mdl := stokes_model o (r_fit out) freq.
  Let chs := used_chans freq Q U mdl (r_weight out).
  Let qch := q_chans freq Q mdl (r_weight out).

  Lemma weight_nonneg : forall j, (j < length freq)%nat -> 0 <= nth j (r_weight out) 0.
  Proof.
    intros j Hj. destruct (run_refines _ _ _ _ _ _ _ _ _ _ _ _ GI GO RUN) as (h & step & pm & I0 & _ & _ & _ & _ & _ & W & _). rewrite W by auto.
    unfold chan_weight. destruct (o_variance o); [|lra]. destruct (nth j dQ None), (nth j dU None); try lra. apply pow2_ge_0.
  Qed.

  Lemma used_in : forall c, In c chs -> exists j q u, (j < length freq)%nat /\ nth j Q None = Some q /\ nth j U None = Some u /\ mdl j <> 0 /\
    c = mk_chan (lsq (nth j freq 0)) (nth j (r_weight out) 0) (q / mdl j, u / mdl j).
  Proof.
    intros c I. unfold chs, used_chans in I. apply in_flat_map in I. destruct I as (j & J & I). apply in_seq in J.
    destruct (nth j Q None) as [q|] eqn:E1; [|destruct I]. destruct (nth j U None) as [u|] eqn:E2; [|destruct I].
    destruct (Req_EM_T (mdl j) 0) as [Z|Z]; [destruct I|]. destruct I as [<-|[]]. exists j, q, u. repeat split; auto. lia.
  Qed.

  Lemma q_in : forall c, In c qch -> exists j q, (j < length freq)%nat /\ nth j Q None = Some q /\ mdl j <> 0 /\
    c = mk_chan (lsq (nth j freq 0)) (nth j (r_weight out) 0) (RtoC 0).
  Proof.
    intros c I. unfold qch, q_chans in I. apply in_flat_map in I. destruct I as (j & J & I). apply in_seq in J.
    destruct (nth j Q None) as [q|] eqn:E1; [|destruct I].
    destruct (Req_EM_T (mdl j) 0) as [Z|Z]; [destruct I|]. destruct I as [<-|[]]. exists j, q. repeat split; auto. lia.
  Qed.

  Lemma qch_pos : 0 < wsum qch.
  Proof.
    destruct (run_refines _ _ _ _ _ _ _ _ _ _ _ _ GI GO RUN) as (h & step & pm & I0 & _ & _ & _ & _ & _ & _ & WP & _).
    apply Rlt_le_trans with (wsum chs); [exact WP|]. unfold wsum, chs, qch, used_chans, q_chans. rewrite !rsum_flat_map. apply rsum_le.
    intros j J. apply in_seq in J. pose proof (weight_nonneg j ltac:(lia)). fold mdl.
    destruct (nth j Q None); [|cbn [map]; lra]. destruct (nth j U None); destruct (Req_EM_T (mdl j) 0); cbn [map c_w]; rewrite ?rsum_cons, ?rsum_nil; lra.
  Qed.

  Lemma counted_eq : forall IM q w, length q = length freq -> length w = length freq -> (forall j, (j < length freq)%nat -> nth j IM 0 = mdl j) ->
    (forall j, (j < length freq)%nat -> fraction (nth j Q None) (nth j IM 0) (nth j q None)) ->
    good_freqs freq w q = counted freq Q mdl (map nan0 w).
  Proof.
    intros IM q w Lq Lw HM HF. unfold good_freqs, counted. rewrite (map_combine_seq freq w q _ 0 None None) by congruence. rewrite filter_flat_map.
    apply flat_map_ext_in. intros j J. apply in_seq in J. cbn [fst snd]. pose proof (HF j ltac:(lia)) as F. rewrite HM in F by lia.
    rewrite (nth_map_lt _ _ _ _ None) by lia. unfold fraction in F. destruct (nth j q None) as [v|] eqn:Ev.
    - destruct F as (X & -> & N & _). destruct (Req_EM_T (mdl j) 0); [contradiction|]. destruct (Req_EM_T (nan0 (nth j w None)) 0); reflexivity.
    - rewrite Bool.andb_false_r. destruct F as [->| ->]; [reflexivity|]. destruct (nth j Q None); [|reflexivity]. destruct (Req_EM_T 0 0); [reflexivity|contradiction].
  Qed.

  (** channels counted, lowest and highest frequency, and the reference frequency between them *)
  Theorem run_channels : r_N_channels out = length (counted freq Q mdl (r_weight out)) /\
    exists lo hi, r_min_freq out = Some lo /\ r_max_freq out = Some hi /\
      is_min (counted freq Q mdl (r_weight out)) lo /\ is_max (counted freq Q mdl (r_weight out)) hi /\
      (o_super o = false -> lo <= r_freq0 out <= hi).
  Proof.
    pose proof GI as (_ & _ & _ & _ & _ & _ & _ & Hf).
    destruct (run_inv _ _ _ _ _ _ _ _ _ _ _ _ GI GO RUN) as (h & step & pm & I0 & _ & _ & _ & _ & _ & _ & WP & _ & _ & FR0 & _ & _ & _ & _ & _ & _ &
      IM & q & u & dq & du & w & s & _ & Lq & _ & _ & _ & Lw & HM & HF & EW & _ & _ & _ & _ & _ & _ & _ & GN & EMI & EMX & EN & _).
    rewrite EW. assert (CE : good_freqs freq w q = counted freq Q mdl (map nan0 w)).
    { apply (counted_eq IM); auto. intros j Hj. destruct (HF j Hj) as (X & _). exact X. }
    rewrite CE in *. split; [exact EN|].
    destruct (counted freq Q mdl (map nan0 w)) as [|x t] eqn:EC; [congruence|]. rewrite <- EC in *.
    assert (exists lo, rmin_list (counted freq Q mdl (map nan0 w)) = Some lo) as [lo El] by (rewrite EC; cbn; eauto).
    assert (exists hi, rmax_list (counted freq Q mdl (map nan0 w)) = Some hi) as [hi Eh] by (rewrite EC; cbn; eauto).
    exists lo, hi. rewrite EMI, EMX. split; [exact El|]. split; [exact Eh|]. apply rmin_list_spec in El. apply rmax_list_spec in Eh. split; [auto|]. split; [auto|].
    intros SF. rewrite (FR0 SF). fold mdl. fold chs in WP |- *.
    assert (CI : forall x, In x (counted freq Q mdl (map nan0 w)) -> 0 < x).
    { intros y Y. unfold counted in Y. apply in_flat_map in Y. destruct Y as (j & J & Y). apply in_seq in J. destruct (nth j Q None); [|destruct Y].
      destruct (Req_EM_T (mdl j) 0); [destruct Y|]. destruct (Req_EM_T _ 0); [destruct Y|]. destruct Y as [<-|[]]. apply Hf, nth_In. lia. }
    pose proof (CI lo (proj1 El)) as LP. pose proof (CI hi (proj1 Eh)) as HP.
    destruct (mean_between chs (lsq hi) (lsq lo)) as [M1 M2]; [|exact WP| |].
    - intros c Ic. destruct (used_in c Ic) as (j & a & b & Hj & _ & _ & _ & ->). cbn. now apply weight_nonneg.
    - intros c Ic Hw. destruct (used_in c Ic) as (j & a & b & Hj & E1 & E2 & E3 & ->). cbn [c_w c_l2] in Hw |- *. rewrite EW in Hw.
      assert (Ij : In (nth j freq 0) (counted freq Q mdl (map nan0 w))).
      { unfold counted. apply in_flat_map. exists j. split; [apply in_seq; lia|]. rewrite E1. destruct (Req_EM_T (mdl j) 0); [contradiction|].
        destruct (Req_EM_T (nth j (map nan0 w) 0) 0); [contradiction|]. now left. }
      pose proof (proj2 El _ Ij) as B1. pose proof (proj2 Eh _ Ij) as B2. pose proof (CI _ Ij) as B0. unfold lsq.
      split; apply pow_incr; split.
      + left. apply Rdiv_lt_0_compat; lra.
      + apply Rmult_le_compat_l; [lra|]. apply Rinv_le_contravar; lra.
      + left. apply Rdiv_lt_0_compat; lra.
      + apply Rmult_le_compat_l; [lra|]. apply Rinv_le_contravar; lra.
    - unfold lsq in M1, M2. assert (PH : 0 < 299792458 / hi) by (apply Rdiv_lt_0_compat; lra). assert (PL : 0 < 299792458 / lo) by (apply Rdiv_lt_0_compat; lra).
      assert (S1 : 299792458 / hi <= sqrt (mean_l2 chs)).
      { rewrite <- (sqrt_pow2 (299792458 / hi)) by lra. apply sqrt_le_1_alt. exact M1. }
      assert (S2 : sqrt (mean_l2 chs) <= 299792458 / lo).
      { rewrite <- (sqrt_pow2 (299792458 / lo)) by lra. apply sqrt_le_1_alt. exact M2. }
      assert (SP : 0 < sqrt (mean_l2 chs)) by lra.
      split; apply (Rmult_le_reg_r (sqrt (mean_l2 chs))); auto; unfold Rdiv; rewrite ?Rmult_assoc, ?Rinv_l, ?Rmult_1_r by lra.
      + apply (Rmult_le_compat_l lo) in S2; [|lra]. unfold Rdiv in S2. rewrite <- Rmult_assoc in S2. replace (lo * 299792458 * / lo) with 299792458 in S2 by (field; lra). lra.
      + apply (Rmult_le_compat_l hi) in S1; [|lra]. replace (hi * (299792458 / hi)) with 299792458 in S1 by (field; lra). lra.
  Qed.

  (** the spread function *)
  Theorem run_rmsf : exists h step, odd_centred (r_phi out) h step /\ odd_centred (r_phi2 out) (2 * h + 1) step /\
    length (r_RMSF out) = length (r_phi2 out) /\ 0 < wsum qch /\
    forall k, (k < length (r_phi2 out))%nat -> nth k (r_RMSF out) None = Some (RMSF_spec qch (r_lam0 out) (nth k (r_phi2 out) 0)).
  Proof.
    destruct (run_inv _ _ _ _ _ _ _ _ _ _ _ _ GI GO RUN) as (h & step & pm & I0 & _ & OC & _ & _ & LW & _ & _ & _ & _ & _ & _ & _ & _ & _ & LF & _ &
      IM & q & u & dq & du & w & s & _ & Lq & _ & _ & _ & Lw & HM & HF & EW & _ & ER & E2 & E3 & _ & _ & EM & GN & _).
    exists h, step. split; [exact OC|].
    assert (H3 : (3 <= length (r_phi out))%nat).
    { destruct (measure_shape _ _ _ _ _ _ _ LF _ EM) as (ip & zp & (Hip & _) & _). lia. }
    pose proof (phi2_double (r_phi out) ltac:(lia)) as PD. cbv zeta in PD.
    assert (HN : (0 < length freq)%nat).
    { destruct freq; [|cbn; lia]. exfalso. apply GN. reflexivity. }
    assert (VR : valid_rmsf (map lsq freq) (Some w) (mk_nd [length q] (map is_none q))).
    { split; [destruct freq; [cbn in HN; lia|discriminate]|]. cbn. rewrite map_length. repeat split; lia. }
    destruct (rmsf_refines (fit (o_super o)) _ _ (Some w) _ (Some (r_lam0 out)) true (o_fitRMSF o || o_super o) _ VR PD) as (s' & ER' & EP2 & F).
    rewrite ER in ER'. injection ER' as <-.
    destruct OC as [OL OC]. assert (DV : Nat.div2 (length (r_phi out) + 1) = (h + 1)%nat).
    { rewrite OL. replace (2 * h + 1 + 1)%nat with (2 * (h + 1))%nat by lia. apply Nat.div2_double. }
    rewrite DV in EP2, F. assert (L2 : length (r_phi2 out) = (2 * (2 * h + 1) + 1)%nat) by (rewrite E2, EP2, map_length, seq_length, OL; lia).
    split; [split; [exact L2|]|].
    { intros k Hk. rewrite E2, EP2. rewrite nth_map_seq by lia. rewrite Nat.add_0_l. unfold ext_index.
      destruct (Z.ltb_spec (Z.of_nat k - Z.of_nat (h + 1)) 0) as [C|C].
      - rewrite !OC by lia. rewrite minus_IZR, <- !INR_IZR_INZ. rewrite !plus_INR, mult_INR. cbn [INR]. ring.
      - destruct (Z.ltb_spec (Z.of_nat k - Z.of_nat (h + 1)) (Z.of_nat (length (r_phi out)))) as [C'|C'].
        + rewrite OC by lia. replace (Z.to_nat (Z.of_nat k - Z.of_nat (h + 1))) with (k - (h + 1))%nat by lia.
          rewrite minus_INR by lia. rewrite !plus_INR, mult_INR. cbn [INR]. ring.
        + rewrite !OC by lia. rewrite minus_IZR, <- !INR_IZR_INZ. rewrite OL. replace (2 * h + 1 - 1)%nat with (2 * h)%nat by lia.
          replace (2 * h + 1 - 2)%nat with (2 * h - 1)%nat by lia. rewrite minus_INR by lia. rewrite !plus_INR, !mult_INR. cbn [INR]. ring. }
    assert (LR : length (r_RMSF out) = length (r_phi2 out)).
    { rewrite E3, E2. clear -ER. unfold get_rmsf_planes in ER. destruct (phi2_grid true (r_phi out)); [|discriminate]. cbv zeta in ER.
      repeat match type of ER with (if ?b then _ else _) = _ => destruct b; [discriminate|] end.
      cbn [shape length Nat.eqb] in ER. injection ER as <-. cbn [RMSFcube phi2Arr flat squeeze]. rewrite length_tab2. cbn. lia. }
    split; [exact LR|]. split; [exact qch_pos|]. intros k Hk. pose proof (rmsf_lam0_ret _ _ _ _ _ _ _ _ _ ER) as L0. cbn [rlam0 rmsf_lam0_of] in L0.
    specialize (F k 0%nat (r_lam0 out)). change (mpix (mk_nd [length q] (map is_none q))) with 1%nat in F. cbv zeta in F. cbn [flat] in F.
    assert (EQ : mask_chans (length (map lsq freq)) 1 (map is_none q) (map lsq freq) (weights_of (length (map lsq freq)) (Some w)) 0 = qch).
    { unfold mask_chans, qch, q_chans. rewrite map_length. change (weights_of (length freq) (Some w)) with (map nan0 w). rewrite <- EW. apply flat_map_ext_in. intros j J. apply in_seq in J.
      replace (j * 1 + 0)%nat with j by lia. rewrite (nth_map_lt _ _ _ _ None) by lia. rewrite (nth_map_lt lsq _ _ _ 0) by lia.
      destruct (HF j ltac:(lia)) as (F1 & _). rewrite HM in F1 by lia. fold mdl in F1. unfold fraction in F1. destruct (nth j q None).
      - destruct F1 as (X & -> & N & _). cbn [is_none]. destruct (Req_EM_T (mdl j) 0); [contradiction|reflexivity].
      - cbn [is_none]. destruct F1 as [->| ->]; [reflexivity|]. destruct (nth j Q None); [|reflexivity]. destruct (Req_EM_T 0 0); [reflexivity|contradiction]. }
    rewrite EQ in F. rewrite E3, E2 in *. specialize (F ltac:(rewrite <- EP2; exact Hk) ltac:(lia) L0). pose proof qch_pos.
    unfold at2 in F. replace (k * 1 + 0)%nat with k in F by lia. rewrite <- EP2 in F. apply F; [lra|]. left. apply (odd_centred_antisym _ h step). split; auto.
  Qed.

  (** with Q and U flagged alike the spread function is that of the spectrum's own channels *)
  Theorem run_rmsf_alike : flagged_alike Q U -> forall l0 f, RMSF_spec qch l0 f = RMSF_spec chs l0 f.
  Proof.
    intros FA l0 f.
    assert (W : wsum qch = wsum chs).
    { unfold wsum, chs, qch, used_chans, q_chans. rewrite !rsum_flat_map. apply rsum_map_ext. intros j _. destruct (FA j) as [F1 F2].
      destruct (nth j Q None), (nth j U None); try reflexivity; [destruct (Req_EM_T (mdl j) 0); reflexivity|specialize (F2 eq_refl); discriminate]. }
    unfold RMSF_spec. rewrite W. f_equal. unfold chs, qch, used_chans, q_chans. rewrite !csum_flat_map. apply csum_map_ext. intros j _. destruct (FA j) as [F1 F2].
    destruct (nth j Q None), (nth j U None); try reflexivity; [destruct (Req_EM_T (mdl j) 0); reflexivity|specialize (F2 eq_refl); discriminate].
  Qed.

  Lemma thin_FDF : forall p psi RM, thin_columns freq Q U mdl p psi RM -> forall l0 f,
    FDF_spec chs l0 f = (RtoC p * cis (2 * (psi + RM * l0)) * RMSF_spec chs l0 (f - RM))%C.
  Proof.
    intros p psi RM T l0 f. apply FDF_thin. intros c Ic. destruct (used_in c Ic) as (j & a & b & Hj & E1 & E2 & E3 & ->). cbn [c_P c_l2].
    pose proof (T j a b Hj E1 E2) as E. unfold thin. replace (a / mdl j, b / mdl j) with ((a, b) * RtoC (/ mdl j))%C.
    2:{ unfold Cmult, RtoC, Rdiv. cbn [fst snd]. f_equal; ring. }
    rewrite E. rewrite RtoC_mult. rewrite RtoC_inv by auto. assert (RtoC (mdl j) <> 0%C) by (now apply RtoC_neq0). field. auto.
  Qed.

  (** a Faraday-thin source at a depth of the grid *)
  Theorem run_thin : forall p psi RM h step i j1 j2, thin_columns freq Q U mdl p psi RM -> 0 < p ->
    odd_centred (r_phi out) h step -> 0 < step -> (0 < i < length (r_phi out) - 1)%nat -> nth i (r_phi out) 0 = RM ->
    (j1 < length freq)%nat -> (j2 < length freq)%nat ->
    nth j1 Q None <> None -> nth j1 U None <> None -> nth j2 Q None <> None -> nth j2 U None <> None ->
    mdl j1 <> 0 -> mdl j2 <> 0 -> 0 < nth j1 (r_weight out) 0 -> 0 < nth j2 (r_weight out) 0 -> lsq (nth j1 freq 0) <> lsq (nth j2 freq 0) ->
    (forall k, (k < length (r_phi out))%nat -> Rabs (nth k (r_phi out) 0 - RM) * Rabs (lsq (nth j1 freq 0) - lsq (nth j2 freq 0)) < PI) ->
    forall I0, r_Ifreq0 out = Some I0 -> 0 < I0 ->
    let m := r_parms out in
    phiPeakPIfit m = Some RM /\ ampPeakPIfit m = Some (I0 * p) /\ indxPeakPIfit m = Some (INR i) /\
    (exists a, polAngleFit_deg m = Some a /\ 0 <= a < 180 /\ same_angle a ((psi + RM * r_lam0 out) * 180 / PI)) /\
    (exists a0, polAngle0Fit_deg m = Some a0 /\ 0 <= a0 < 180 /\ same_angle a0 (psi * 180 / PI)) /\
    (forall dF, r_dFDFth out = Some dF -> 0 < dF -> exists f, r_fracPol out = Some f /\ f <= p /\
       (I0 * p < 5 * dF -> f = p) /\ (5 * dF <= I0 * p -> 0 <= f /\ (f * I0) ^ 2 + 23 / 10 * dF ^ 2 = (p * I0) ^ 2)).
  Proof.
    intros p psi RM h step i j1 j2 T Hp OC Hs Hi HRM J1 J2 Q1 U1 Q2 U2 M1 M2 W1 W2 Hne Hal I0 EI HI m.
    destruct (run_inv _ _ _ _ _ _ _ _ _ _ _ _ GI GO RUN) as (h' & step' & pm & I0' & _ & _ & _ & _ & _ & _ & WP & _ & _ & _ & _ & _ & EI' & _ & LF & HF &
      IM & q & u & dq & du & w & s & _ & _ & _ & _ & _ & _ & _ & _ & _ & _ & _ & _ & _ & _ & EDF & EM & _ & _ & _ & _ & EFP & _).
    rewrite EI in EI'. injection EI' as <-. fold mdl in WP, HF. fold chs in WP, HF. set (l0 := r_lam0 out) in *.
    assert (NN : forall c, In c chs -> 0 <= c_w c) by (intros c Ic; destruct (used_in c Ic) as (j & a & b & Hj & _ & _ & _ & ->); cbn; now apply weight_nonneg).
    assert (IC : forall j, (j < length freq)%nat -> nth j Q None <> None -> nth j U None <> None -> mdl j <> 0 ->
      exists P, In (mk_chan (lsq (nth j freq 0)) (nth j (r_weight out) 0) P) chs).
    { intros j Hj HQ HU HM. unfold chs, used_chans. destruct (nth j Q None) as [a|] eqn:Ea; [|contradiction]. destruct (nth j U None) as [b|] eqn:Eb; [|contradiction].
      exists (a / mdl j, b / mdl j). apply in_flat_map. exists j. split; [apply in_seq; lia|]. rewrite Ea, Eb. destruct (Req_EM_T (mdl j) 0); [contradiction|now left]. }
    destruct (IC j1 J1 Q1 U1 M1) as (P1 & I1). destruct (IC j2 J2 Q2 U2 M2) as (P2 & I2).
    assert (VAL : forall k, (k < length (r_phi out))%nat -> nth k (r_FDF out) None =
      Some (RtoC (I0 * p) * cis (2 * (psi + RM * l0)) * RMSF_spec chs l0 (nth k (r_phi out) 0 - RM))%C).
    { intros k Hk. rewrite HF by auto. rewrite (thin_FDF p psi RM T). f_equal. rewrite RtoC_mult. ring. }
    assert (AP : 0 < I0 * p) by (apply Rmult_lt_0_compat; auto).
    assert (MV : forall k, Cmod (RtoC (I0 * p) * cis (2 * (psi + RM * l0)) * RMSF_spec chs l0 (nth k (r_phi out) 0 - RM))%C = I0 * p * Cmod (RMSF_spec chs l0 (nth k (r_phi out) 0 - RM))).
    { intros k. rewrite !Cmod_mult, Cmod_cis, Cmod_R, Rabs_pos_eq by lra. ring. }
    destruct OC as [OL OC].
    assert (UN : Measure_Spec.uniform (r_phi out) (- INR h * step) step) by (intros k Hk; rewrite OC by auto; ring).
    assert (LT : forall k, (k < length (r_phi out))%nat -> k <> i -> Cmod (RMSF_spec chs l0 (nth k (r_phi out) 0 - RM)) < 1).
    { intros k Hk Hki. assert (Hd1 : nth k (r_phi out) 0 - RM <> 0).
      { rewrite <- HRM, !OC by lia. intros E. apply Hki. apply INR_eq. nra. }
      apply (RMSF_lt_1 chs l0 _ _ _ NN I1 I2); auto. apply cos_lt_1.
      - cbn [c_l2]. apply Rmult_integral_contrapositive_currified; [|lra]. apply Rmult_integral_contrapositive_currified; lra.
      - cbn [c_l2]. rewrite !Rabs_mult, (Rabs_pos_eq 2) by lra. specialize (Hal k Hk). lra. }
    set (z := (RtoC (I0 * p) * cis (2 * (psi + RM * l0)))%C). assert (MZ : Cmod z = I0 * p) by (unfold z; rewrite Cmod_mult, Cmod_cis, Cmod_R, Rabs_pos_eq by lra; ring).
    assert (ZI : nth i (r_FDF out) None = Some z).
    { rewrite VAL by lia. f_equal. rewrite HRM. replace (RM - RM) with 0 by ring. rewrite RMSF_at_0 by lra. unfold z. ring. }
    assert (ES : Cmod (RMSF_spec chs l0 (nth (i - 1) (r_phi out) 0 - RM)) = Cmod (RMSF_spec chs l0 (nth (i + 1) (r_phi out) 0 - RM))).
    { rewrite <- HRM, !OC, minus_INR, plus_INR by lia. simpl (INR 1).
      replace ((INR i - 1 - INR h) * step - (INR i - INR h) * step) with (- ((INR i + 1 - INR h) * step - (INR i - INR h) * step)) by ring. apply RMSF_even. }
    assert (Z0 : z <> RtoC 0) by (intros E0; rewrite E0, Cmod_0 in MZ; lra).
    pose proof (VAL (i - 1)%nat ltac:(lia)) as V1. pose proof (VAL (i + 1)%nat ltac:(lia)) as V3.
    destruct (measure_exact (r_FDF out) (r_phi out) (r_fwhm out) (Some (r_dFDFth out)) (map lsq freq) l0 5 LF _ step Hs UN i z _ _ Hi ZI Z0 V1 V3)
      as (s' & a & M & R1 & R2 & R3 & _ & _ & R4 & R5 & R6 & a0 & R7 & R8 & R9).
    - rewrite !MV, ES. reflexivity.
    - rewrite MV, MZ. pose proof (LT (i - 1)%nat ltac:(lia) ltac:(lia)). nra.
    - intros j v Hj Hji Ev. rewrite VAL in Ev by lia. injection Ev as <-. rewrite MV, MZ. pose proof (LT j ltac:(lia) Hji). nra.
    - rewrite EM in M. injection M as <-. fold m in R1, R2, R3, R4, R7. rewrite HRM in R1, R9. rewrite MZ in R2.
      assert (SA : same_angle a ((psi + RM * l0) * 180 / PI)).
      { apply (orientation_unique z); auto.
        exists (I0 * p). split; [lra|]. unfold z. do 2 f_equal. field. apply PI_neq0. }
      split; [exact R1|]. split; [exact R2|]. split; [exact R3|]. split; [exists a; auto|]. split.
      + exists a0. split; [auto|]. split; [auto|]. eapply same_angle_trans; [exact R9|]. eapply same_angle_trans; [apply (same_angle_plus a _ (- (RM * l0 * 180 / PI)) SA)|].
        exists 0%Z. field. apply PI_neq0.
      + intros dF ED HD. destruct (measure_noise _ _ _ _ _ _ _ LF _ EM) as (MN & _ & _). pose proof (MN _ eq_refl) as DA. rewrite ED in DA.
        assert (S5 : sqrt (23 / 10) <= 5) by (replace 5 with (sqrt 25) by (replace 25 with (5 * 5) by ring; apply sqrt_square; lra); apply sqrt_le_1_alt; lra).
        destruct (measure_bias _ _ _ _ _ _ _ LF _ _ _ EM R2 DA HD S5) as (e & E1 & E2 & E3 & E4). rewrite E1 in EFP. cbn [odiv] in EFP.
        destruct (Req_EM_T I0 0) as [?|_]; [lra|]. exists (e / I0). split; [exact EFP|]. split; [|split].
        * apply (Rmult_le_reg_r I0); auto. unfold Rdiv. rewrite Rmult_assoc, Rinv_l by lra. lra.
        * intros X. rewrite (E4 X). field. lra.
        * intros X. destruct (E3 X) as [E5 E6]. split; [apply Rmult_le_pos; [auto|left; apply Rinv_0_lt_compat; auto]|].
          replace (e / I0 * I0) with e by (field; lra). rewrite E6. ring.
  Qed.
End Laws.
