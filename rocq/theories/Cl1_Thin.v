(** The synthesis tool followed by the CLEAN tool. *)
From Coq Require Import Reals List Arith ZArith Bool Lra Lia Psatz.
Set Warnings "-ambiguous-paths".
From Coquelicot Require Import Coquelicot.
From Verif Require Import CBase NdArray PyRes PyList PyList_Proofs Interp_Model Synth_Model Synth_Spec Synth_Proofs Synth_Laws Rmsf_Proofs Setup_Spec Setup_Proofs
  StokesI_Model StokesI_Spec Clean_Model Clean_Spec Clean_Proofs Clean_Laws Clean_Grid Clean_More Clean_Total CleanTop_Model Measure_Model Measure_Spec Measure_Proofs Measure_Laws
  Sigma_Proofs Rmsf_Peak Run1D_Model Run1D_Spec Run1D_Proofs Run1D_Laws Cl1_Model Cl1_Spec Cl1_Proofs.
Import ListNotations.
Local Open Scope R_scope.

Lemma beam_0 : forall fw, beam fw 0 = 1.
Proof. intros fw. unfold beam, Rdiv. rewrite Rmult_0_l, pow_i, Rmult_0_r by lia. apply exp_0. Qed.
Lemma beam_pos : forall fw x, 0 < beam fw x.
Proof. intros. apply exp_pos. Qed.
Lemma beam_even : forall fw x, beam fw (- x) = beam fw x.
Proof. intros fw x. unfold beam. f_equal. unfold Rdiv. ring. Qed.
Lemma beam_lt : forall fw x, fw <> 0 -> x <> 0 -> beam fw x < 1.
Proof.
  intros fw x Hf Hx. unfold beam. rewrite <- exp_0. apply exp_increasing. assert (0 < ln 2) by (rewrite <- ln_1; apply ln_increasing; lra).
  assert (x / fw <> 0) by (unfold Rdiv; apply Rmult_integral_contrapositive_currified; [auto|now apply Rinv_neq_0_compat]).
  assert (P : 0 < (x / fw) ^ 2) by (destruct (Rdichotomy _ _ H0); nra). nra.
Qed.

(** a spectrum with one component, restored *)
Lemma restored_one : forall fw phi comp i c, (i < length comp)%nat ->
  (forall k, (k < length comp)%nat -> nth k comp czero = if Nat.eqb k i then c else czero) ->
  forall j, restored fw phi comp j = (c * RtoC (beam fw (nth j phi 0 - nth i phi 0)))%C.
Proof.
  intros fw phi comp i c Hi H j. unfold restored. rewrite (csum_map_ext _ (fun k => if Nat.eqb k i then (c * RtoC (beam fw (nth j phi 0 - nth k phi 0)))%C else RtoC 0)).
  2:{ intros k Ik. apply in_seq in Ik. rewrite H by lia. destruct (Nat.eqb k i); [reflexivity|unfold czero; ring]. }
  clear H. revert Hi. generalize (length comp). induction n as [|n IH]; [lia|]. intros Hi. rewrite seq_S, map_app, csum_app. cbn [map]. rewrite csum_cons, csum_nil, Nat.add_0_l.
  destruct (Nat.eqb_spec n i) as [->|Hn].
  - rewrite csum_zero. 2:{ intros k Ik. apply in_seq in Ik. destruct (Nat.eqb_spec k i); [lia|reflexivity]. } ring.
  - rewrite IH by lia. ring.
Qed.

Section Clean1D.
  Variables (mpfit : mpin -> pyres mpres) (fit : bool -> list R -> list (option C) -> option (Z * R)).
  Variables (d : synth_data) (o : run_opts) (freq : list R) (iA Q U dI dQ dU : list (option R)) (out : synth_out).
  Hypothesis GI : good_input d (o_noStokesI o) freq iA Q U dI dQ dU.
  Hypothesis GO : good_opts mpfit o (length freq).
  Hypothesis RUN : run_rmsynth mpfit fit d o = POk out.

  Let mdl := stokes_model o (r_fit out) freq.
  Let chs := used_chans freq Q U mdl (r_weight out).
  Let qch := q_chans freq Q mdl (r_weight out).
  Let n := length (r_phi out).

  Variables (h : nat) (step : R) (j1 j2 : nat).
  Hypothesis OC : odd_centred (r_phi out) h step.
  Hypothesis Hs : 0 < step.
  Hypothesis J1 : (j1 < length freq)%nat.
  Hypothesis J2 : (j2 < length freq)%nat.
  Hypothesis Q1 : nth j1 Q None <> None.
  Hypothesis Q2 : nth j2 Q None <> None.
  Hypothesis M1 : mdl j1 <> 0.
  Hypothesis M2 : mdl j2 <> 0.
  Hypothesis W1 : 0 < nth j1 (r_weight out) 0.
  Hypothesis W2 : 0 < nth j2 (r_weight out) 0.
  Hypothesis Hne : lsq (nth j1 freq 0) <> lsq (nth j2 freq 0).
  Hypothesis Hal : INR n * step * Rabs (lsq (nth j1 freq 0) - lsq (nth j2 freq 0)) < PI.

  Let rm := map (RMSF_spec qch (r_lam0 out)) (r_phi2 out).

  Lemma Hh : (1 <= h)%nat.
  Proof.
    destruct (run_inv _ _ _ _ _ _ _ _ _ _ _ _ GI GO RUN) as (h' & step' & pm & I0 & _ & _ & _ & _ & LW & _ & _ & _ & _ & _ & _ & _ & _ & _ & LF & _ &
      IM & q & u & dq & du & w & s & _ & Lq & _ & _ & _ & Lw & HM & HF & EW & _ & ER & E2 & E3 & _ & _ & EM & GN & _).
    destruct (measure_shape _ _ _ _ _ _ _ LF _ EM) as (ip & zp & (Hip & _) & _). destruct OC as [OL _]. lia.
  Qed.

  Lemma grid2 : odd_centred (r_phi2 out) n step /\ r_RMSF out = map Some rm /\ length (r_phi2 out) = (2 * n + 1)%nat.
  Proof.
    destruct (run_rmsf _ _ _ _ _ _ _ _ _ _ _ _ GI GO RUN) as (h' & step' & OC' & O2 & LR & _ & F). pose proof Hh. destruct OC as [OL OV], OC' as [OL' OV'], O2 as [O1 O2].
    assert (h' = h) as -> by lia.
    assert (step' = step) as ->.
    { pose proof (OV 0%nat ltac:(lia)) as A. rewrite OV' in A by lia. cbn [INR] in A. assert (INR h <> 0) by (apply not_0_INR; lia). nra. }
    unfold n. rewrite OL in *. split; [split; auto|]. split; [|lia].
    apply nth_ext with (d := None) (d' := None); [unfold rm; now rewrite !map_length|]. intros k Hk. rewrite F by lia.
    rewrite (nth_map_lt _ _ _ _ czero) by (unfold rm; rewrite map_length; lia). unfold rm. now rewrite (nth_map_lt _ _ _ _ 0) by lia.
  Qed.

  Lemma q_chan : forall j, (j < length freq)%nat -> nth j Q None <> None -> mdl j <> 0 ->
    exists P, In (mk_chan (lsq (nth j freq 0)) (nth j (r_weight out) 0) P) qch.
  Proof.
    intros j Hj HQ HM. unfold qch, q_chans. destruct (nth j Q None) as [a|] eqn:Ea; [|contradiction].
    exists (RtoC 0). apply in_flat_map. exists j. split; [apply in_seq; lia|]. rewrite Ea. destruct (Req_EM_T (mdl j) 0); [contradiction|now left].
  Qed.

  Lemma spread_lt : forall f, f <> 0 -> Rabs f <= INR n * step -> Cmod (RMSF_spec qch (r_lam0 out) f) < 1.
  Proof.
    intros f Hf Hb. destruct (q_chan j1 J1 Q1 M1) as (P1 & I1). destruct (q_chan j2 J2 Q2 M2) as (P2 & I2).
    assert (NN : forall c, In c qch -> 0 <= c_w c).
    { intros c Ic. destruct (q_in o freq Q out c Ic) as (j & q & Hj & _ & _ & ->). cbn. now apply (weight_nonneg mpfit fit d o freq iA Q U dI dQ dU out GI GO RUN). }
    apply (RMSF_lt_1 qch _ _ _ _ NN I1 I2); auto. apply cos_lt_1.
    - cbn [c_l2]. apply Rmult_integral_contrapositive_currified; [|lra]. apply Rmult_integral_contrapositive_currified; lra.
    - cbn [c_l2]. rewrite !Rabs_mult, (Rabs_pos_eq 2) by lra. pose proof (Rabs_pos (lsq (nth j1 freq 0) - lsq (nth j2 freq 0))).
      assert (Rabs f * Rabs (lsq (nth j1 freq 0) - lsq (nth j2 freq 0)) <= INR n * step * Rabs (lsq (nth j1 freq 0) - lsq (nth j2 freq 0))) by (apply Rmult_le_compat_r; auto). lra.
  Qed.

  Lemma spread_unit : unit_peak rm n.
  Proof.
    destruct grid2 as ((_ & O2) & _ & L2). pose proof (qch_pos mpfit fit d o freq iA Q U dI dQ dU out GI GO RUN) as QP. fold mdl in QP. fold qch in QP.
    assert (V : forall k, (k < length rm)%nat -> nth k rm czero = RMSF_spec qch (r_lam0 out) ((INR k - INR n) * step)).
    { intros k Hk. unfold rm in *. rewrite map_length in Hk. rewrite (nth_map_lt _ _ _ _ 0) by auto. now rewrite O2 by auto. }
    assert (LR : length rm = (2 * n + 1)%nat) by (unfold rm; now rewrite map_length).
    split; [lia|]. split.
    - rewrite V by lia. replace ((INR n - INR n) * step) with 0 by ring. apply RMSF_at_0. lra.
    - intros k Hk Hkn. rewrite V by auto. apply spread_lt.
      + apply Rmult_integral_contrapositive_currified; [|lra]. intros E. apply Hkn. apply INR_eq. lra.
      + rewrite Rabs_mult, (Rabs_pos_eq step) by lra. apply Rmult_le_compat_r; [lra|]. pose proof (pos_INR k). apply Rabs_le.
        assert (INR k <= INR (2 * n)) by (apply le_INR; lia). rewrite mult_INR in *. cbn [INR] in *. lra.
  Qed.

  (** Whatever the synthesis tool makes, the CLEAN tool can take. *)
  Theorem saved_cleanable : forall fw, r_fwhm out = Some fw -> fw <> 0 ->
    exists D, clean_input (saved out) D rm fw n /\ forall I0, r_Ifreq0 out = Some I0 ->
      forall k, (k < n)%nat -> nth k D czero = (FDF_spec chs (r_lam0 out) (nth k (r_phi out) 0) * RtoC I0)%C.
  Proof.
    intros fw EF Hfw. destruct grid2 as (_ & ER & L2). pose proof Hh as HH. destruct OC as [OL _].
    destruct (run_inv _ _ _ _ _ _ _ _ _ _ _ _ GI GO RUN) as (h' & step' & pm & I0 & _ & _ & _ & _ & _ & _ & _ & _ & _ & _ & _ & _ & EI & _ & LF & HF & _). fold mdl in HF. fold chs in HF.
    exists (map (fun f => (FDF_spec chs (r_lam0 out) f * RtoC I0)%C) (r_phi out)). split.
    - unfold clean_input, saved. cbn [ci_FDF ci_RMSF ci_fwhm ci_phi ci_phi2]. fold n. split.
      { apply nth_ext with (d := None) (d' := None); [rewrite !map_length; exact LF|]. intros k Hk. rewrite HF by lia. rewrite map_map. now rewrite (nth_map_lt _ _ _ _ 0) by lia. }
      split; [exact ER|]. split; [exact EF|]. split; [exact Hfw|]. split; [apply map_length|]. split; [unfold rm; apply map_length|].
      split; [unfold n; lia|]. split; [lia|]. split; [apply unit_peak_at, spread_unit|]. split; [|lia]. exists (h + 1)%nat. unfold n in *. lia.
    - intros I1 EI1. rewrite EI in EI1. injection EI1 as <-. intros k Hk. now rewrite (nth_map_lt _ _ _ _ 0) by auto.
  Qed.

  (** A Faraday-thin source at a depth of the grid, synthesised and cleaned. *)
  Theorem clean_thin : forall p psi RM i, thin_columns freq Q U mdl p psi RM -> 0 < p -> flagged_alike Q U ->
    (0 < i < n - 1)%nat -> nth i (r_phi out) 0 = RM ->
    forall I0 fw, r_Ifreq0 out = Some I0 -> 0 < I0 -> r_fwhm out = Some fw -> fw <> 0 ->
    forall cutoff t maxIter gain res, threshold (r_dFDFth out) cutoff t -> 0 < t -> 0 < gain <= 1 ->
    run_rmclean (saved out) cutoff maxIter gain None = POk res ->
    let k := k_nIter res in let left := (1 - gain) ^ k in let m := k_parms res in
    let A := (RtoC (I0 * p) * cis (2 * (psi + RM * r_lam0 out)))%C in
    (k <= maxIter)%nat /\ (k = maxIter \/ left * (I0 * p) < t) /\ (forall k', (k' < k)%nat -> t <= (1 - gain) ^ k' * (I0 * p)) /\
    (forall j, (j < n)%nat -> nth j (k_cc res) None = Some (if Nat.eqb j i then (A * RtoC (1 - left))%C else RtoC 0)) /\
    (forall j z, nth j (r_FDF out) None = Some z -> nth j (k_resid res) None = Some (RtoC left * z)%C) /\
    nth i (k_clean res) None = Some A /\
    phiPeakPIfit m = Some RM /\ ampPeakPIfit m = Some (I0 * p) /\ indxPeakPIfit m = Some (INR i) /\
    (exists a, polAngleFit_deg m = Some a /\ 0 <= a < 180 /\ same_angle a ((psi + RM * r_lam0 out) * 180 / PI)) /\
    (exists a0, polAngle0Fit_deg m = Some a0 /\ 0 <= a0 < 180 /\ same_angle a0 (psi * 180 / PI)) /\
    k_mom2 res = (if Nat.eqb k 0 then None else Some 0).
  Proof.
    intros p psi RM i T Hp FA Hi HRM I0 fw EI HI EF Hfw cutoff t maxIter gain res HT Ht Hg CL k left m A.
    destruct grid2 as ((_ & O2) & ER & L2). pose proof Hh as HH. pose proof OC as [OL OV]. fold n in OL.
    destruct (saved_cleanable fw EF Hfw) as (D & CI & HD). specialize (HD I0 EI).
    set (l0 := r_lam0 out) in *.
    assert (EQR : forall f, RMSF_spec qch l0 f = RMSF_spec chs l0 f) by (intros f; exact (run_rmsf_alike o freq Q U out FA l0 f)).
    assert (VAL : forall j, (j < n)%nat -> nth j D czero = (A * RMSF_spec qch l0 (nth j (r_phi out) 0 - RM))%C).
    { intros j Hj. rewrite HD by auto. rewrite EQR. rewrite (thin_FDF o freq Q U out p psi RM T). unfold A. rewrite RtoC_mult. fold mdl. fold chs. ring. }
    assert (LR : length rm = (2 * n + 1)%nat) by (unfold rm; now rewrite map_length).
    assert (RV : forall x, (x < length rm)%nat -> nth x rm czero = RMSF_spec qch l0 ((INR x - INR n) * step)).
    { intros x Hx. unfold rm in *. rewrite map_length in Hx. rewrite (nth_map_lt _ _ _ _ 0) by auto. now rewrite O2 by auto. }
    assert (LD : length D = n) by apply CI.
    assert (SS : single_source rm n n i A D).
    { split; [exact LD|]. split; [lia|]. intros j Hj. rewrite VAL by auto. unfold zsample. destruct (Z.ltb_spec (Z.of_nat n + Z.of_nat j - Z.of_nat i) 0); [lia|].
      rewrite RV by lia. do 2 f_equal. rewrite <- HRM, !OV by lia. replace (Z.to_nat (Z.of_nat n + Z.of_nat j - Z.of_nat i)) with (n + j - i)%nat by lia.
      rewrite minus_INR, plus_INR by lia. ring. }
    pose proof CI as (C1 & C2 & C3 & _ & C4 & C5 & C6 & C7 & C8 & C9). cbn [saved ci_FDF ci_RMSF ci_fwhm ci_phi ci_phi2] in C1, C2, C3, C4, C5, C6, C7, C8, C9. fold n in C4, C6, C7, C9.
    destruct (tool_inv _ _ _ _ _ CI cutoff maxIter gain None res CL) as (r & Er & EL & EC & ERs & EN & ECut & MEAS & _ & EM & _).
    destruct (tool_finite _ _ _ _ _ CI cutoff maxIter gain None (or_introl (ex_intro _ t (conj HT Ht))) res CL) as (rs & comp & clean & R1 & R2 & R3 & S1 & S2 & S3 & F).
    cbn [saved ci_phi ci_FDF ci_RMSF ci_fwhm ci_phi2 ci_dFDFth ci_freq ci_lam0] in *. fold n in R1, R2, R3, F. rewrite (level_o_threshold _ _ _ HT) in Er.
    destruct (rmclean_single_source _ _ _ _ _ _ _ _ _ _ _ 0 D rm fw n i A Er Ht Logic.I ltac:(cbn; lia) C5) as (k0 & K1 & K2 & K3 & K4 & K5); auto.
    { cbn. rewrite C1. apply map_has_spec. } { cbn. rewrite C2. apply map_has_spec. } { apply spread_unit. }
    specialize (K2 eq_refl). rewrite <- EN in K2. fold k in K2. subst k0. cbn [shape tl prodn fold_right] in K3. fold n in K3.
    assert (MA : Cmod A = I0 * p) by (unfold A; rewrite Cmod_mult, Cmod_cis, Cmod_R, Rabs_pos_eq by nra; ring).
    assert (AP : 0 < I0 * p) by (apply Rmult_lt_0_compat; auto).
    assert (PL : forall q, 0 <= (1 - gain) ^ q <= 1).
    { intros q. split; [apply pow_le; lra|]. apply Rle_trans with (1 ^ q); [apply pow_incr; lra|rewrite pow1; lra]. }
    assert (RA : Rabs (1 - gain) = 1 - gain) by (apply Rabs_pos_eq; lra). rewrite RA in K4, K5. rewrite MA in K4, K5. fold left in K3, K5.
    assert (CC : forall j, (j < n)%nat -> nth j comp czero = if Nat.eqb j i then (A * RtoC (1 - left))%C else czero).
    { intros j Hj. destruct (K3 j Hj) as (_ & X). unfold at2 in X. replace (j * 1 + 0)%nat with j in X by lia. rewrite <- EC, S2 in X.
      rewrite (nth_map_lt _ _ _ _ czero) in X by lia. now injection X. }
    assert (RR : forall j, (j < n)%nat -> nth j rs czero = (RtoC left * nth j D czero)%C).
    { intros j Hj. destruct (K3 j Hj) as (X & _). unfold at2 in X. replace (j * 1 + 0)%nat with j in X by lia. rewrite <- ERs, S1 in X.
      rewrite (nth_map_lt _ _ _ _ czero) in X by lia. now injection X. }
    assert (PI0 : forall j, (j < n)%nat -> nth j (r_phi out) 0 - nth i (r_phi out) 0 = (INR j - INR i) * step) by (intros j Hj; rewrite !OV by lia; ring).
    assert (CV : forall j, (j < n)%nat -> nth j clean czero = (A * (RtoC (1 - left) * RtoC (beam fw ((INR j - INR i) * step)) + RtoC left * RMSF_spec qch l0 ((INR j - INR i) * step)))%C).
    { intros j Hj. destruct (F j Hj) as (_ & ->). rewrite (restored_one fw (r_phi out) comp i (A * RtoC (1 - left))%C) by (rewrite ?R2; first [lia|exact CC]).
      rewrite RR, VAL by auto. rewrite <- HRM, !PI0 by auto. ring. }
    assert (LT1 : forall j, (j < n)%nat -> j <> i -> Cmod (nth j clean czero) < I0 * p).
    { intros j Hj Hji. rewrite CV by auto. rewrite Cmod_mult, MA. assert (Hx : (INR j - INR i) * step <> 0).
      { apply Rmult_integral_contrapositive_currified; [|lra]. intros E. apply Hji. apply INR_eq. lra. }
      assert (Hb : Rabs ((INR j - INR i) * step) <= INR n * step).
      { rewrite Rabs_mult, (Rabs_pos_eq step) by lra. apply Rmult_le_compat_r; [lra|]. pose proof (pos_INR j). pose proof (pos_INR i). apply Rabs_le.
        assert (INR j <= INR n) by (apply le_INR; lia). assert (INR i <= INR n) by (apply le_INR; lia). lra. }
      pose proof (spread_lt _ Hx Hb) as B1. pose proof (beam_lt fw _ Hfw Hx) as B2. pose proof (beam_pos fw ((INR j - INR i) * step)) as B3.
      pose proof (PL k) as B4. fold left in B4. pose proof (Cmod_ge_0 (RMSF_spec qch l0 ((INR j - INR i) * step))) as B5.
      assert (Cmod (RtoC (1 - left) * RtoC (beam fw ((INR j - INR i) * step)) + RtoC left * RMSF_spec qch l0 ((INR j - INR i) * step))%C < 1).
      { eapply Rle_lt_trans; [apply Cmod_triangle|]. rewrite !Cmod_mult, !Cmod_R, !Rabs_pos_eq by lra. fold l0 in B1.
        destruct (Req_EM_T left 0) as [->|]; [lra|]. nra. }
      nra. }
    assert (AI : nth i clean czero = A).
    { rewrite CV by lia. replace ((INR i - INR i) * step) with 0 by ring. rewrite beam_0. rewrite RMSF_at_0.
      - rewrite <- !RtoC_mult, <- RtoC_plus. replace ((1 - left) * 1 + left * 1) with 1 by ring. ring.
      - pose proof (qch_pos mpfit fit d o freq iA Q U dI dQ dU out GI GO RUN) as QP. fold mdl in QP. fold qch in QP. lra. }
    assert (ES : Cmod (nth (i - 1) clean czero) = Cmod (nth (i + 1) clean czero)).
    { rewrite !CV by lia. rewrite !Cmod_mult. f_equal. rewrite minus_INR, plus_INR by lia. cbn [INR].
      replace ((INR i - 1 - INR i) * step) with (- step) by ring. replace ((INR i + 1 - INR i) * step) with step by ring. rewrite beam_even, RMSF_conj.
      set (w := RMSF_spec qch l0 step). unfold Cmod, Cplus, Cmult, Cconj, RtoC. cbn [fst snd]. f_equal. ring. }
    assert (A0 : A <> RtoC 0) by (intros E0; rewrite E0, Cmod_0 in MA; lra).
    assert (NC : forall j, (j < n)%nat -> nth j (k_clean res) None = Some (nth j clean czero)) by (intros j Hj; rewrite S3; now rewrite (nth_map_lt _ _ _ _ czero) by lia).
    assert (UN : Measure_Spec.uniform (r_phi out) (- INR h * step) step) by (intros j Hj; rewrite OV by auto; ring).
    assert (LK : length (k_clean res) = length (r_phi out)) by (rewrite S3, map_length; exact R3).
    split; [exact K1|]. split; [exact K5|]. split; [exact K4|]. split.
    { intros j Hj. rewrite S2. rewrite (nth_map_lt _ _ _ _ czero) by lia. now rewrite CC. }
    split.
    { intros j z Hz. assert (Hj : (j < n)%nat).
      { destruct (Nat.lt_ge_cases j n); auto. rewrite nth_overflow in Hz; [discriminate|]. rewrite C1, map_length. lia. }
      rewrite S1. rewrite (nth_map_lt _ _ _ _ czero) by lia. rewrite RR by auto. rewrite C1 in Hz. rewrite (nth_map_lt _ _ _ _ czero) in Hz by lia. now injection Hz as ->. }
    split; [rewrite NC by lia; now rewrite AI|].
    destruct (measure_exact (k_clean res) (r_phi out) (r_fwhm out) (Some (r_dFDFth out)) (map (fun f => (299792458 / f) ^ 2) (r_freq out)) l0 5 LK _ step Hs UN i A _ _ Hi
      ltac:(rewrite NC by lia; now rewrite AI) A0 (NC (i - 1)%nat ltac:(lia)) (NC (i + 1)%nat ltac:(lia)) ES)
      as (s' & a & M & X1 & X2 & X3 & _ & _ & X4 & X5 & X6 & a0 & X7 & X8 & X9).
    { rewrite MA. apply LT1; lia. }
    { intros j w Hj Hji Ew. fold n in Hj. rewrite NC in Ew by lia. injection Ew as <-. rewrite MA. apply LT1; [lia|auto]. }
    fold l0 in MEAS. rewrite MEAS in M. injection M as <-. fold m in X1, X2, X3, X4, X7. rewrite HRM in X1, X9. rewrite MA in X2.
    assert (SA : same_angle a ((psi + RM * l0) * 180 / PI)).
    { apply (orientation_unique A); auto. exists (I0 * p). split; [lra|]. unfold A. do 2 f_equal. field. apply PI_neq0. }
    split; [exact X1|]. split; [exact X2|]. split; [exact X3|]. split; [exists a; auto|]. split.
    { exists a0. split; [auto|]. split; [auto|]. eapply same_angle_trans; [exact X9|]. eapply same_angle_trans; [apply (same_angle_plus a _ (- (RM * l0 * 180 / PI)) SA)|].
      exists 0%Z. field. apply PI_neq0. }
    rewrite EM, S2. unfold fdf_complexity. rewrite all_some_map. destruct (mom2_zero comp (r_phi out) R2) as (Z1 & Z2).
    destruct (Nat.eqb_spec k 0) as [E0|E0].
    - apply Z1. intros z Hz. apply (In_nth _ _ czero) in Hz. destruct Hz as (j & Hj & <-). rewrite CC by lia. unfold left. rewrite E0. cbn [pow].
      destruct (Nat.eqb j i); [|reflexivity]. replace (1 - 1) with 0 by ring. ring.
    - destruct (calc_mom2_FDF comp (r_phi out)) as [v|] eqn:Ev.
      + f_equal. destruct (Z2 v eq_refl) as (_ & Z3). apply Z3. exists RM. intros j Hj Hnz. fold czero in Hnz. rewrite CC in Hnz by lia. destruct (Nat.eqb_spec j i) as [->|]; [exact HRM|now exfalso].
      + exfalso. assert (Z0 : nth i comp czero = RtoC 0) by (apply Z1; [reflexivity|apply nth_In; lia]). rewrite CC, Nat.eqb_refl in Z0 by lia.
        apply (f_equal Cmod) in Z0. rewrite Cmod_mult, Cmod_0, MA, Cmod_R in Z0. assert (left < 1).
        { unfold left. destruct k as [|k']; [contradiction|]. cbn [pow]. pose proof (PL k'). nra. }
        rewrite Rabs_pos_eq in Z0 by lra. nra.
  Qed.
End Clean1D.
