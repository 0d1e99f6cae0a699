(** One source in RM-CLEAN with rounding and noise; where the loops end. *)
From Coq Require Import Reals List Arith ZArith Bool Lia Lra Psatz.
Set Warnings "-ambiguous-paths".
From Coquelicot Require Import Coquelicot.
From Verif Require Import PyRes CBase NdArray PyList PyList_Proofs Synth_Model Clean_Model Clean_Spec Clean_Proofs Cf_Arith Cf_Model Cf_Spec Cf_Round Cf_Proofs.
Import ListNotations.
Local Open Scope R_scope.

(* --------------------------------------------------------- no exceptions *)
Lemma step_fl_ok : forall a RMSF phi fwhm gain imax i s,
  roomy (length phi) (length RMSF) imax -> (i < length phi)%nat -> length (resid s) = length phi ->
  exists s', step_fl a RMSF phi fwhm gain imax (Nat.div2 (length RMSF - length phi)) i s = POk s'.
Proof.
  intros a RMSF phi fwhm gain imax i s HR Hi HL. unfold step_fl.
  destruct (shifted_spec RMSF (length phi) imax i _ HR eq_refl Hi) as [L _]. rewrite L, HL, Nat.eqb_refl. simpl. eauto.
Qed.

Theorem fl_total : forall a ends dirty RMSF phi fwhm gain cutoff window maxIter imax,
  length dirty = length phi -> (2 <= length phi)%nat -> peak_at RMSF imax -> roomy (length phi) (length RMSF) imax ->
  exists s, cleanloop_fl a ends dirty RMSF phi fwhm gain cutoff window maxIter = POk s.
Proof.
  intros a ends dirty RMSF phi fwhm gain cutoff window maxIter imax HL Hn HP HR. unfold cleanloop_fl. rewrite (cltb_peak _ _ HP). fold (init_cst dirty).
  assert (L1 : forall rem s, wf_cst phi s -> exists s', loop1_fl a RMSF phi fwhm gain imax (Nat.div2 (length RMSF - length phi)) cutoff rem s = POk s').
  { induction rem as [|rem IH]; intros s W; simpl; [eauto|]. destruct (Rle_dec cutoff _); [|eauto].
    destruct (argmax_fl a (resid s)) as [i|] eqn:Ea.
    - apply argmax_fl_spec in Ea. destruct Ea as [Hi _]. pose proof W as [W1 _].
      assert (Hi' : (i < length phi)%nat) by lia.
      destruct (step_fl_ok a RMSF phi fwhm gain imax i s HR Hi' W1) as [s1 E]. rewrite E. apply IH.
      exact (proj1 (fl_step_spec _ _ _ _ _ _ _ _ _ _ W Hi' E)).
    - destruct W as [W _]. destruct (resid s); [|discriminate]. simpl in W. lia. }
  assert (L2 : forall mask rem s, wf_cst phi s -> length mask = length phi -> exists s', loop2_fl a RMSF phi fwhm gain imax (Nat.div2 (length RMSF - length phi)) window mask rem s = POk s').
  { intros mask. induction rem as [|rem IH]; intros s W HM; simpl; [eauto|]. destruct window as [w|]; [|eauto].
    destruct (argmax_fl a (map _ (open_chans mask))) as [k|] eqn:Ea; [|eauto]. destruct (Rle_dec w _); [|eauto].
    apply argmax_fl_spec in Ea. destruct Ea as [Ha _]. rewrite map_length in Ha.
    assert (Hin : In (nth k (open_chans mask) 0%nat) (open_chans mask)) by (apply nth_In; auto).
    apply in_open in Hin. rewrite HM in Hin. destruct Hin as [Hin _].
    destruct (step_fl_ok a RMSF phi fwhm gain imax _ s HR Hin (proj1 W)) as [s1 E]. rewrite E. apply IH; auto.
    exact (proj1 (fl_step_spec _ _ _ _ _ _ _ _ _ _ W Hin E)). }
  destruct (L1 maxIter (init_cst dirty) (init_wf _ _ HL)) as [s1 E1]. rewrite E1. destruct (Nat.ltb_spec (length phi) 2); [lia|].
  destruct (loop1_run _ _ _ _ _ _ _ _ _ _ _ (init_wf _ _ HL) E1) as (T1 & R1 & _).
  pose proof (run_wf _ _ _ _ _ _ _ _ _ _ _ (init_wf _ _ HL) R1) as W1.
  apply L2; auto. rewrite length_mask_fl. apply W1.
Qed.

(* -------------------------------------------------------- where they end *)
Lemma abs_low : forall a f u v m e h z, accurate a f u v m e h -> (1 - e) * Cmod z <= a_abs a z <= (1 + e) * Cmod z.
Proof. intros a f u v m e h z (HA & _). specialize (HA z). apply Rabs_le_between in HA. lra. Qed.

Lemma maxabs_fl_lt : forall a l t, maxabs_fl a l < t -> forall z, In z l -> a_abs a z < t.
Proof. intros a l t H z Hz. apply (maxabs_fl_ge a) in Hz. lra. Qed.

Lemma run_keeps : forall a RMSF phi fwhm gain imax pad P s T s', wf_cst phi s -> run a RMSF phi fwhm gain imax pad P s T s' ->
  forall j, (j < length phi)%nat -> ~ P j -> nth j (cc s') czero = nth j (cc s) czero.
Proof.
  intros a RMSF phi fwhm gain imax pad P s T s' W RR j Hj NP. induction RR as [|s T s' s'' i RR IH Hi HPi Hs]; auto.
  pose proof (run_wf _ _ _ _ _ _ _ _ _ _ _ W RR) as W'.
  destruct (fl_step_spec _ _ _ _ _ _ _ i s' s'' W' Hi Hs) as (_ & _ & E). destruct (E j Hj) as (_ & E2 & _). rewrite E2.
  destruct (Nat.eqb_spec j i); [subst; contradiction|]. auto.
Qed.

Theorem fl_stops : forall a ends dirty RMSF phi fwhm gain cutoff maxIter s u v m e h imax,
  accurate a fwhm u v m e h -> length dirty = length phi -> peak_at RMSF imax ->
  cleanloop_fl a ends dirty RMSF phi fwhm gain cutoff None maxIter = POk s ->
  (iters s <= maxIter)%nat /\ (iters s = maxIter \/ forall z, In z (resid s) -> (1 - e) * Cmod z < cutoff).
Proof.
  intros a ends dirty RMSF phi fwhm gain cutoff maxIter s u v m e h imax ACC HL HP H.
  unfold cleanloop_fl in H. rewrite (cltb_peak _ _ HP) in H.
  fold (init_cst dirty) in H. destruct (loop1_fl _ _ _ _ _ _ _ _ _ _) as [s1|] eqn:E1; [|discriminate].
  destruct (Nat.ltb (length phi) 2); [discriminate|]. pose proof (init_wf phi dirty HL) as W0.
  destruct (loop1_run _ _ _ _ _ _ _ _ _ _ _ W0 E1) as (T1 & R1 & L1 & D1).
  pose proof (run_iters _ _ _ _ _ _ _ _ _ _ _ W0 R1) as I1. cbn [iters init_cst] in I1.
  assert (s1 = s) as <-. { destruct (maxIter - iters s1)%nat; simpl in H; congruence. }
  split; [lia|]. destruct D1 as [D1|D1]; [left; lia|right]. intros z Hz. pose proof (abs_low _ _ _ _ _ _ _ z ACC).
  pose proof (maxabs_fl_lt _ _ _ D1 z Hz). lra.
Qed.

Theorem fl_stops_window : forall a ends dirty RMSF phi fwhm gain cutoff w maxIter s u v m e h imax,
  accurate a fwhm u v m e h -> e < 1 -> length dirty = length phi -> peak_at RMSF imax ->
  cleanloop_fl a ends dirty RMSF phi fwhm gain cutoff (Some w) maxIter = POk s ->
  (iters s <= maxIter)%nat /\ (iters s = maxIter \/
    forall j, (j < length phi)%nat -> nth j (cc s) czero <> czero -> (1 - e) * Cmod (nth j (resid s) czero) < w).
Proof.
  intros a ends dirty RMSF phi fwhm gain cutoff w maxIter s u v m e h imax ACC He HL HP H.
  unfold cleanloop_fl in H. rewrite (cltb_peak _ _ HP) in H.
  fold (init_cst dirty) in H. destruct (loop1_fl _ _ _ _ _ _ _ _ _ _) as [s1|] eqn:E1; [|discriminate].
  destruct (Nat.ltb (length phi) 2); [discriminate|]. pose proof (init_wf phi dirty HL) as W0.
  destruct (loop1_run _ _ _ _ _ _ _ _ _ _ _ W0 E1) as (T1 & R1 & L1 & _).
  pose proof (run_iters _ _ _ _ _ _ _ _ _ _ _ W0 R1) as I1. cbn [iters init_cst] in I1.
  pose proof (run_wf _ _ _ _ _ _ _ _ _ _ _ W0 R1) as W1.
  assert (HM : length (mask_fl a ends (cc s1)) = length phi) by (rewrite length_mask_fl; apply W1).
  destruct (loop2_run _ _ _ _ _ _ _ _ _ _ _ _ W1 HM H) as (T2 & R2 & L2 & D2).
  pose proof (run_iters _ _ _ _ _ _ _ _ _ _ _ W1 R2) as I2.
  split; [lia|]. destruct D2 as [D2|D2]; [left; lia|right]. intros j Hj Hcc.
  assert (Hm : nth j (mask_fl a ends (cc s1)) false = true).
  { destruct (nth j (mask_fl a ends (cc s1)) false) eqn:Em; auto. exfalso. apply Hcc.
    assert (ST : nth j (cc s) czero = nth j (cc s1) czero).
    { refine (run_keeps _ _ _ _ _ _ _ _ _ _ _ W1 R2 j Hj _). congruence. }
    rewrite ST. unfold mask_fl in Em. destruct W1 as (_ & W1 & _). rewrite nth_map_seq in Em by lia. simpl in Em.
    apply orb_false_iff in Em. destruct Em as [Em _].
    destruct (Rlt_dec 0 (a_abs a (nth j (cc s1) (RtoC 0)))); [discriminate|].
    apply Cmod_eq_0. pose proof (abs_low _ _ _ _ _ _ _ (nth j (cc s1) czero) ACC) as AL. unfold czero in *.
    generalize (Cmod_ge_0 (nth j (cc s1) (RtoC 0))). intros C0. nra. }
  assert (Hin : In j (open_chans (mask_fl a ends (cc s1)))) by (apply in_open; rewrite HM; auto).
  destruct D2 as [D2|D2]; [rewrite D2 in Hin; destruct Hin|].
  pose proof (abs_low _ _ _ _ _ _ _ (nth j (resid s) czero) ACC) as AL.
  assert (a_abs a (nth j (resid s) czero) < w); [|lra]. apply (maxabs_fl_lt _ _ _ D2). apply in_map_iff. eauto.
Qed.

(* ------------------------------------------------------------- one source *)
Section Single.
  Variables (a : arith) (RMSF : list C) (phi : list R) (fwhm g u v m e h rho d t : R) (imax i0 maxIter : nat) (A : C).
  Hypotheses (ACC : accurate a fwhm u v m e h) (HR : roomy (length phi) (length RMSF) imax) (SL : sidelobes RMSF imax rho).
  Hypotheses (G : 0 < g <= 1) (E1 : e < 1) (RHO : 0 <= rho < 1) (Hi0 : (i0 < length phi)%nat) (D0 : 0 <= d) (T00 : 0 < t).
  Let n := length phi.
  Let pad := Nat.div2 (length RMSF - length phi).
  Let hh := prod_err g v m.
  Let c := peak_err g u v m.
  Let q := 1 - g + c.
  Let a0 := Cmod A + d.
  Hypothesis (CG : c < g).
  Hypothesis (HT : (1 - e ^ 2) * (1 + rho) * resid_err g u v m (Cmod A) d maxIter < t * ((1 - e) - (1 + e) * rho)).
  Let w j := zsample RMSF (Z.of_nat imax + Z.of_nat j - Z.of_nat i0).

  Lemma w_peak : w i0 = RtoC 1.
  Proof.
    destruct SL as (H1 & H2 & _). unfold w, zsample. destruct (Z.ltb_spec (Z.of_nat imax + Z.of_nat i0 - Z.of_nat i0) 0); [lia|].
    replace (Z.to_nat (Z.of_nat imax + Z.of_nat i0 - Z.of_nat i0)) with imax by lia. exact H2.
  Qed.
  Lemma w_side : forall j, j <> i0 -> Cmod (w j) <= rho.
  Proof.
    intros j Hj. destruct SL as (H1 & H2 & H3). unfold w, zsample. destruct (Z.ltb_spec (Z.of_nat imax + Z.of_nat j - Z.of_nat i0) 0) as [L|L].
    - unfold czero. rewrite Cmod_0. lra.
    - set (k := Z.to_nat (Z.of_nat imax + Z.of_nat j - Z.of_nat i0)). destruct (Nat.lt_ge_cases k (length RMSF)) as [Lk|Lk].
      + apply H3; [exact Lk|]. unfold k. lia.
      + rewrite nth_overflow by exact Lk. unfold czero. rewrite Cmod_0. lra.
  Qed.
  Lemma w_le_1 : forall j, Cmod (w j) <= 1.
  Proof. intros j. destruct (Nat.eq_dec j i0) as [->|N]; [rewrite w_peak, Cmod_1; lra|]. pose proof (w_side j N). lra. Qed.

  Lemma consts : 0 <= u /\ 0 <= v /\ 0 <= m /\ 0 <= e /\ 0 <= hh /\ 0 <= c /\ 0 <= q < 1 /\ 1 - g <= q.
  Proof.
    pose proof (accurate_ge0 _ _ _ _ _ _ _ ACC) as (U0 & V0 & M0 & E0 & H0).
    assert (HH : 0 <= hh) by (unfold hh, prod_err; apply Rmult_le_pos; nra).
    assert (CC : 0 <= c) by (unfold c, peak_err; fold hh; nra). unfold q. repeat split; try assumption; lra.
  Qed.

  (** x and y: sums of the bounds of the source's residual and of its error *)
  Definition inv (k : nat) (s : cst) : Prop :=
    wf_cst phi s /\ iters s = k /\
    exists x y P, 0 <= P /\ 0 <= x /\ 0 <= y /\ (g - c) * x + q ^ k * a0 = a0 /\ P + g * y = d + c * x /\
    Cmod (nth i0 (resid s) czero) <= q ^ k * a0 /\
    Cmod (nth i0 (resid s) czero - A * RtoC ((1 - g) ^ k))%C <= P /\
    (forall j, (j < n)%nat -> Cmod (nth j (resid s) czero - A * RtoC ((1 - g) ^ k) * w j)%C <= (1 + u) ^ k * (d + g * y + (hh + u) * x)) /\
    Cmod (nth i0 (cc s) czero - A * RtoC (1 - (1 - g) ^ k))%C <= (1 + u) ^ k * (g * y + v * g * x + INR k * u * Cmod A) /\
    (forall j, (j < n)%nat -> j <> i0 -> nth j (cc s) czero = czero).

  Lemma inv_init : forall dirty, noisy_source RMSF imax n i0 A d dirty -> inv 0 (init_cst dirty).
  Proof.
    intros dirty (HL & _ & HD). destruct consts as (U0 & V0 & M0 & E0 & H0 & C0 & Q0 & Q1).
    split; [now apply init_wf|]. split; [reflexivity|]. exists 0, 0, d. cbn [pow resid init_cst cc iters INR].
    pose proof (HD i0 Hi0) as Hp. fold (w i0) in Hp. rewrite w_peak in Hp. replace (A * RtoC 1)%C with A in Hp by ring.
    split; [exact D0|]. split; [lra|]. split; [lra|]. split; [lra|]. split; [lra|]. split.
    { replace (nth i0 dirty czero) with (A + (nth i0 dirty czero - A))%C by ring. eapply Rle_trans; [apply Cmod_triangle|]. unfold a0. lra. }
    split; [replace (A * RtoC 1)%C with A by ring; exact Hp|]. split.
    { intros j Hj. specialize (HD j Hj). fold (w j) in HD. replace (A * RtoC 1 * w j)%C with (A * w j)%C by ring. lra. }
    split.
    { rewrite nth_zeros. replace (czero - A * RtoC (1 - 1))%C with (RtoC 0); [rewrite Cmod_0; lra|].
      unfold czero. replace (1 - 1) with 0 by ring. ring. }
    intros j Hj N. apply nth_zeros.
  Qed.

  (** errors of one step at i0 *)
  Lemma inv_step : forall k s s', inv k s -> step_fl a RMSF phi fwhm g imax pad i0 s = POk s' -> inv (S k) s'.
  Proof.
    intros k s s' (W & EI & x & y & P & P0 & X0 & Y0 & EX & EY & B1 & B2 & B3 & B4 & B5) Hs.
    destruct consts as (U0 & V0 & M0 & E0 & H0 & C0 & Q0 & Q1).
    destruct (fl_step_spec _ _ _ _ _ _ _ i0 s s' W Hi0 Hs) as (W' & EI' & E). cbv zeta in E.
    split; [exact W'|]. split; [lia|].
    destruct ACC as (HA & HSc & HM & HAdd & HSub & HG).
    set (p := nth i0 (resid s) czero) in *. set (CC := a_scal a g p) in *. set (z := (1 - g) ^ k) in *.
    pose proof (HSc g p) as SC. fold CC in SC. rewrite (Rabs_pos_eq g) in SC by lra.
    pose proof (Cmod_ge_0 p) as Pp. pose proof (Cmod_ge_0 A) as PA.
    assert (CCb : Cmod CC <= (1 + v) * g * Cmod p).
    { replace CC with (RtoC g * p + (CC - RtoC g * p))%C by ring. eapply Rle_trans; [apply Cmod_triangle|]. rewrite Cmod_mult, Cmod_R, (Rabs_pos_eq g) by lra. lra. }
    assert (Z0 : 0 <= z <= q ^ k) by (unfold z; split; [apply pow_le; lra|apply pow_incr; lra]).
    assert (SHI : forall j, (j < n)%nat -> nth j (shifted RMSF imax pad i0) czero = w j).
    { intros j Hj. exact (proj2 (shifted_spec RMSF (length phi) imax i0 pad HR eq_refl Hi0) j Hj). }
    (* the subtracted product *)
    assert (TH : forall j, (j < n)%nat -> Cmod (a_mul a CC (w j) - RtoC g * p * w j)%C <= hh * Cmod p * Cmod (w j)).
    { intros j Hj. pose proof (HM CC (w j)) as HMj. pose proof (Cmod_ge_0 (w j)) as W0.
      replace (a_mul a CC (w j) - RtoC g * p * w j)%C with ((a_mul a CC (w j) - CC * w j) + (CC - RtoC g * p) * w j)%C by ring.
      eapply Rle_trans; [apply Cmod_triangle|]. rewrite Cmod_mult.
      assert (Cmod (CC - RtoC g * p)%C * Cmod (w j) <= v * g * Cmod p * Cmod (w j)) by (now apply Rmult_le_compat_r).
      assert (m * Cmod CC * Cmod (w j) <= m * ((1 + v) * g * Cmod p) * Cmod (w j)) by (apply Rmult_le_compat_r; [exact W0|]; now apply Rmult_le_compat_l).
      unfold hh, prod_err. lra. }
    assert (QK : 0 <= q ^ k) by (apply pow_le; lra). assert (A00 : 0 <= a0) by (unfold a0; lra).
    set (pb := q ^ k * a0) in *. assert (PB : 0 <= pb) by (unfold pb; now apply Rmult_le_pos).
    exists (x + pb), (y + P), ((1 - g) * P + c * pb).
    assert (U1 : 1 <= (1 + u) ^ k) by (apply pow_R1_Rle; lra).
    (* the residual of the source *)
    destruct (E i0 Hi0) as (F1 & F2 & _). fold p in F1. fold CC in F1, F2. rewrite (SHI i0 Hi0) in F1. rewrite Nat.eqb_refl in F2.
    pose proof (TH i0 Hi0) as T0. rewrite w_peak in T0, F1. rewrite Cmod_1, Rmult_1_r in T0. replace (RtoC g * p * RtoC 1)%C with (RtoC g * p)%C in T0 by ring.
    pose proof (HSub p (a_mul a CC (RtoC 1))) as S0. rewrite <- F1 in S0. set (p' := nth i0 (resid s') czero) in *. set (mu := a_mul a CC (RtoC 1)) in *.
    assert (PM : Cmod (p - mu)%C <= (1 - g + hh) * Cmod p).
    { replace (p - mu)%C with (RtoC (1 - g) * p + - (mu - RtoC g * p))%C by (rewrite RtoC_minus; ring). eapply Rle_trans; [apply Cmod_triangle|].
      rewrite Cmod_opp, Cmod_mult, Cmod_R, (Rabs_pos_eq (1 - g)) by lra. lra. }
    assert (PD : Cmod (p' - RtoC (1 - g) * p)%C <= c * Cmod p).
    { replace (p' - RtoC (1 - g) * p)%C with ((p' - (p - mu)) + - (mu - RtoC g * p))%C by (rewrite RtoC_minus; ring). eapply Rle_trans; [apply Cmod_triangle|].
      rewrite Cmod_opp. unfold c, peak_err. fold hh. assert (u * Cmod (p - mu)%C <= u * ((1 - g + hh) * Cmod p)) by (now apply Rmult_le_compat_l). lra. }
    assert (CP : c * Cmod p <= c * pb) by (now apply Rmult_le_compat_l).
    assert (GP : 0 <= (1 - g) * P) by (apply Rmult_le_pos; lra). assert (CPB : 0 <= c * pb) by (now apply Rmult_le_pos).
    split; [lra|]. split; [lra|]. split; [lra|]. split.
    { replace (q ^ S k * a0) with (q * pb) by (unfold pb; cbn [pow]; ring). fold pb in EX. unfold q. lra. }
    split; [lra|]. split.
    { replace (q ^ S k * a0) with (q * pb) by (unfold pb; cbn [pow]; ring). replace p' with (RtoC (1 - g) * p + (p' - RtoC (1 - g) * p))%C by ring.
      eapply Rle_trans; [apply Cmod_triangle|]. rewrite Cmod_mult, Cmod_R, (Rabs_pos_eq (1 - g)) by lra.
      assert (q * Cmod p <= q * pb) by (apply Rmult_le_compat_l; lra). unfold q in *. lra. }
    split.
    { cbn [pow]. fold z. replace (p' - A * RtoC ((1 - g) * z))%C with (RtoC (1 - g) * (p - A * RtoC z) + (p' - RtoC (1 - g) * p))%C by (rewrite RtoC_mult; ring).
      eapply Rle_trans; [apply Cmod_triangle|]. rewrite Cmod_mult, Cmod_R, (Rabs_pos_eq (1 - g)) by lra.
      assert ((1 - g) * Cmod (p - A * RtoC z)%C <= (1 - g) * P) by (apply Rmult_le_compat_l; lra). lra. }
    assert (AZ : Cmod A * z <= pb).
    { unfold pb, a0. assert (Cmod A * z <= Cmod A * q ^ k) by (now apply Rmult_le_compat_l). nra. }
    split.
    { intros j Hj. destruct (E j Hj) as (R1 & _ & _). fold p in R1. fold CC in R1. rewrite (SHI j Hj) in R1. pose proof (TH j Hj) as Tj.
      pose proof (HSub (nth j (resid s) czero) (a_mul a CC (w j))) as Sj. rewrite <- R1 in Sj. set (r := nth j (resid s) czero) in *. set (r' := nth j (resid s') czero) in *.
      set (mj := a_mul a CC (w j)) in *. pose proof (w_le_1 j) as W1. pose proof (Cmod_ge_0 (w j)) as W0. specialize (B3 j Hj). fold r in B3.
      set (K := (1 + u) ^ k) in *. set (X := Cmod (r - A * RtoC z * w j)%C) in *.
      assert (HP : hh * Cmod p * Cmod (w j) <= hh * pb).
      { assert (0 <= hh * Cmod p) by (now apply Rmult_le_pos). assert (hh * Cmod p * Cmod (w j) <= hh * Cmod p * 1) by (now apply Rmult_le_compat_l).
        assert (hh * Cmod p <= hh * pb) by (now apply Rmult_le_compat_l). lra. }
      assert (D1 : Cmod (r - mj - A * RtoC ((1 - g) * z) * w j)%C <= X + g * P + hh * pb).
      { replace (r - mj - A * RtoC ((1 - g) * z) * w j)%C with ((r - A * RtoC z * w j) + (- (RtoC g * (p - A * RtoC z) * w j) + - (mj - RtoC g * p * w j)))%C
          by (rewrite RtoC_mult, RtoC_minus; ring).
        eapply Rle_trans; [apply Cmod_triangle|]. fold X.
        pose proof (Cmod_triangle (- (RtoC g * (p - A * RtoC z) * w j))%C (- (mj - RtoC g * p * w j))%C) as TT. rewrite !Cmod_opp, !Cmod_mult, Cmod_R, (Rabs_pos_eq g) in TT by lra.
        set (Y := Cmod (p - A * RtoC z)%C) in *. assert (0 <= Y) by apply Cmod_ge_0.
        assert (g * Y * Cmod (w j) <= g * Y * 1) by (apply Rmult_le_compat_l; [apply Rmult_le_pos; lra|exact W1]).
        assert (g * Y <= g * P) by (apply Rmult_le_compat_l; lra). lra. }
      assert (D2 : Cmod (r - mj)%C <= X + g * P + hh * pb + pb).
      { replace (r - mj)%C with ((r - mj - A * RtoC ((1 - g) * z) * w j) + A * RtoC ((1 - g) * z) * w j)%C by ring.
        eapply Rle_trans; [apply Cmod_triangle|]. rewrite !Cmod_mult, Cmod_R, Rabs_pos_eq by (apply Rmult_le_pos; lra).
        assert (Cmod A * ((1 - g) * z) * Cmod (w j) <= pb); [|lra].
        assert (AZ0 : 0 <= Cmod A * z) by (apply Rmult_le_pos; lra).
        replace (Cmod A * ((1 - g) * z) * Cmod (w j)) with (Cmod A * z * ((1 - g) * Cmod (w j))) by ring.
        assert ((1 - g) * Cmod (w j) <= 1) by nra. assert (Cmod A * z * ((1 - g) * Cmod (w j)) <= Cmod A * z * 1) by (now apply Rmult_le_compat_l). lra. }
      cbn [pow]. fold z K. replace (r' - A * RtoC ((1 - g) * z) * w j)%C with ((r' - (r - mj)) + (r - mj - A * RtoC ((1 - g) * z) * w j))%C by ring.
      eapply Rle_trans; [apply Cmod_triangle|].
      assert (u * Cmod (r - mj)%C <= u * (X + g * P + hh * pb + pb)) by (now apply Rmult_le_compat_l).
      assert (HHP : 0 <= hh * pb) by (now apply Rmult_le_pos). assert (GPP : 0 <= g * P) by (apply Rmult_le_pos; lra).
      apply Rle_trans with ((1 + u) * (K * (d + g * y + (hh + u) * x) + (g * P + hh * pb + u * pb))).
      { assert (0 <= u * pb) by (now apply Rmult_le_pos). assert (0 <= u * (u * pb)) by (now apply Rmult_le_pos). assert ((1 + u) * X <= (1 + u) * (K * (d + g * y + (hh + u) * x))) by (apply Rmult_le_compat_l; lra). lra. }
      rewrite Rmult_assoc. apply Rmult_le_compat_l; [lra|].
      assert (0 <= g * P + hh * pb + u * pb) by (assert (0 <= u * pb) by (now apply Rmult_le_pos); lra).
      assert (1 * (g * P + hh * pb + u * pb) <= K * (g * P + hh * pb + u * pb)) by (now apply Rmult_le_compat_r). lra. }
    split.
    { pose proof (HAdd (nth i0 (cc s) czero) CC) as HA1. rewrite <- F2 in HA1. set (b := nth i0 (cc s) czero) in *. set (b' := nth i0 (cc s') czero) in *.
      set (K := (1 + u) ^ k) in *. set (X := Cmod (b - A * RtoC (1 - z))%C) in *.
      assert (SCP : v * g * Cmod p <= v * g * pb) by (apply Rmult_le_compat_l; [apply Rmult_le_pos; lra|exact B1]).
      assert (D1 : Cmod (b + CC - A * RtoC (1 - (1 - g) * z))%C <= X + v * g * pb + g * P).
      { replace (b + CC - A * RtoC (1 - (1 - g) * z))%C with ((b - A * RtoC (1 - z)) + ((CC - RtoC g * p) + RtoC g * (p - A * RtoC z)))%C
          by (rewrite !RtoC_minus, RtoC_mult, !RtoC_minus; ring).
        eapply Rle_trans; [apply Cmod_triangle|]. fold X. pose proof (Cmod_triangle (CC - RtoC g * p)%C (RtoC g * (p - A * RtoC z))%C) as TT.
        rewrite Cmod_mult, Cmod_R, (Rabs_pos_eq g) in TT by lra. assert (g * Cmod (p - A * RtoC z)%C <= g * P) by (apply Rmult_le_compat_l; lra). lra. }
      assert (Z1 : 0 <= (1 - g) * z <= 1).
      { assert (z <= 1) by (unfold z; apply Rle_trans with (1 ^ k); [apply pow_incr; lra|rewrite pow1; lra]). split; [apply Rmult_le_pos; lra|nra]. }
      assert (D2 : Cmod (b + CC)%C <= X + v * g * pb + g * P + Cmod A).
      { replace (b + CC)%C with ((b + CC - A * RtoC (1 - (1 - g) * z)) + A * RtoC (1 - (1 - g) * z))%C by ring.
        eapply Rle_trans; [apply Cmod_triangle|]. rewrite Cmod_mult, Cmod_R, Rabs_pos_eq by lra.
        assert (Cmod A * (1 - (1 - g) * z) <= Cmod A * 1) by (apply Rmult_le_compat_l; lra). lra. }
      cbn [pow]. fold z K. rewrite S_INR.
      replace (b' - A * RtoC (1 - (1 - g) * z))%C with ((b' - (b + CC)) + (b + CC - A * RtoC (1 - (1 - g) * z)))%C by ring.
      eapply Rle_trans; [apply Cmod_triangle|].
      assert (u * Cmod (b + CC)%C <= u * (X + v * g * pb + g * P + Cmod A)) by (now apply Rmult_le_compat_l).
      assert (VG : 0 <= v * g * pb) by (apply Rmult_le_pos; [apply Rmult_le_pos; lra|exact PB]). assert (GPP : 0 <= g * P) by (apply Rmult_le_pos; lra).
      assert (UA : 0 <= u * Cmod A) by (now apply Rmult_le_pos).
      apply Rle_trans with ((1 + u) * (K * (g * y + v * g * x + INR k * u * Cmod A) + (g * P + v * g * pb + u * Cmod A))).
      { assert (0 <= u * (u * Cmod A)) by (now apply Rmult_le_pos). assert ((1 + u) * X <= (1 + u) * (K * (g * y + v * g * x + INR k * u * Cmod A))) by (apply Rmult_le_compat_l; lra). lra. }
      rewrite (Rmult_assoc (1 + u) K). apply Rmult_le_compat_l; [lra|].
      assert (1 * (g * P + v * g * pb + u * Cmod A) <= K * (g * P + v * g * pb + u * Cmod A)) by (apply Rmult_le_compat_r; lra). lra. }
    intros j Hj N. destruct (E j Hj) as (_ & R2 & _). rewrite R2. destruct (Nat.eqb_spec j i0); [contradiction|]. now apply B5.
  Qed.

  (** the bounds of the state *)
  Lemma inv_bounds : forall k s, inv k s ->
    (forall j, (j < n)%nat -> Cmod (nth j (resid s) czero - A * RtoC ((1 - g) ^ k) * w j)%C <= resid_err g u v m (Cmod A) d k) /\
    Cmod (nth i0 (cc s) czero - A * RtoC (1 - (1 - g) ^ k))%C <= comp_err g u v m (Cmod A) d k.
  Proof.
    intros k s (W & EI & x & y & P & P0 & X0 & Y0 & EX & EY & B1 & B2 & B3 & B4 & B5).
    destruct consts as (U0 & V0 & M0 & E0 & H0 & C0 & Q0 & Q1). pose proof (Cmod_ge_0 A) as PA.
    assert (A00 : 0 <= a0) by (unfold a0; lra). assert (QK : 0 <= q ^ k) by (apply pow_le; lra).
    assert (XB : x <= a0 / (g - c)).
    { apply (Rmult_le_reg_l (g - c)); [lra|]. replace ((g - c) * (a0 / (g - c))) with a0 by (field; lra). assert (0 <= q ^ k * a0) by (now apply Rmult_le_pos). lra. }
    assert (U1 : 0 <= (1 + u) ^ k) by (apply pow_le; lra).
    assert (CX : c * x <= c * (a0 / (g - c))) by (now apply Rmult_le_compat_l). split.
    - intros j Hj. eapply Rle_trans; [apply (B3 j Hj)|]. unfold resid_err. fold c hh a0. apply Rmult_le_compat_l; [exact U1|].
      assert ((hh + u) * x <= (hh + u) * (a0 / (g - c))) by (apply Rmult_le_compat_l; lra).
      replace ((c + hh + u) * a0 / (g - c)) with (c * (a0 / (g - c)) + (hh + u) * (a0 / (g - c))) by (field; lra). lra.
    - eapply Rle_trans; [exact B4|]. unfold comp_err. fold c hh a0. apply Rmult_le_compat_l; [exact U1|].
      assert (v * g * x <= v * g * (a0 / (g - c))) by (apply Rmult_le_compat_l; [apply Rmult_le_pos; lra|exact XB]).
      replace ((c + v * g) * a0 / (g - c)) with (c * (a0 / (g - c)) + v * g * (a0 / (g - c))) by (field; lra). lra.
  Qed.

  Lemma resid_err_mono : forall k, (k <= maxIter)%nat -> 0 <= resid_err g u v m (Cmod A) d k <= resid_err g u v m (Cmod A) d maxIter.
  Proof.
    intros k Hk. destruct consts as (U0 & V0 & M0 & E0 & H0 & C0 & Q0 & Q1). pose proof (Cmod_ge_0 A) as PA. unfold resid_err. fold c hh a0.
    assert (A00 : 0 <= a0) by (unfold a0; lra).
    assert (B : 0 <= 2 * d + (c + hh + u) * a0 / (g - c)).
    { assert (0 <= (c + hh + u) * a0 / (g - c)); [|lra]. unfold Rdiv. apply Rmult_le_pos; [apply Rmult_le_pos; lra|]. left. apply Rinv_0_lt_compat. lra. }
    assert (0 <= (1 + u) ^ k) by (apply pow_le; lra). split; [now apply Rmult_le_pos|]. apply Rmult_le_compat_r; [exact B|]. apply Rle_pow; [lra|exact Hk].
  Qed.

  (** the channel of the largest modulus is that of the source *)
  Lemma chosen : forall k s i, inv k s -> (k <= maxIter)%nat -> (i < n)%nat -> t <= a_abs a (nth i (resid s) czero) ->
    a_abs a (nth i0 (resid s) czero) <= a_abs a (nth i (resid s) czero) -> i = i0.
  Proof.
    intros k s i IV Hk Hi Ht Hle. destruct (Nat.eq_dec i i0) as [|N]; [assumption|exfalso].
    destruct consts as (U0 & V0 & M0 & E0 & H0 & C0 & Q0 & Q1). pose proof (Cmod_ge_0 A) as PA.
    destruct (inv_bounds k s IV) as (B & _). pose proof (B i Hi) as Bi. pose proof (B i0 Hi0) as B0. destruct (resid_err_mono k Hk) as (R0 & R1).
    set (D := resid_err g u v m (Cmod A) d k) in *. set (DM := resid_err g u v m (Cmod A) d maxIter) in *.
    rewrite w_peak in B0. pose proof (w_side i N) as WS. pose proof (Cmod_ge_0 (w i)) as W0.
    set (z := (1 - g) ^ k) in *. assert (Z0 : 0 <= z) by (apply pow_le; lra).
    set (X := Cmod A * z). assert (X0 : 0 <= X) by (now apply Rmult_le_pos).
    assert (I1 : Cmod (nth i (resid s) czero) <= X * rho + D).
    { replace (nth i (resid s) czero) with (A * RtoC z * w i + (nth i (resid s) czero - A * RtoC z * w i))%C by ring. eapply Rle_trans; [apply Cmod_triangle|].
      rewrite !Cmod_mult, Cmod_R, (Rabs_pos_eq z) by lra. fold X. assert (X * Cmod (w i) <= X * rho) by (now apply Rmult_le_compat_l). lra. }
    assert (I2 : X - D <= Cmod (nth i0 (resid s) czero)).
    { assert (X <= Cmod (nth i0 (resid s) czero) + D); [|lra]. unfold X. rewrite <- (Rabs_pos_eq z), <- Cmod_R, <- Cmod_mult by lra.
      replace (A * RtoC z)%C with (nth i0 (resid s) czero + - (nth i0 (resid s) czero - A * RtoC z * RtoC 1))%C by ring. eapply Rle_trans; [apply Cmod_triangle|]. rewrite Cmod_opp. lra. }
    pose proof (abs_low _ _ _ _ _ _ _ (nth i (resid s) czero) ACC) as L1. pose proof (abs_low _ _ _ _ _ _ _ (nth i0 (resid s) czero) ACC) as L2.
    set (ri := Cmod (nth i (resid s) czero)) in *. set (r0 := Cmod (nth i0 (resid s) czero)) in *.
    assert (T1 : t <= (1 + e) * (X * rho + D)). { assert ((1 + e) * ri <= (1 + e) * (X * rho + D)) by (apply Rmult_le_compat_l; lra). lra. }
    assert (T2 : (1 - e) * (X - D) <= (1 + e) * (X * rho + D)).
    { assert ((1 - e) * (X - D) <= (1 - e) * r0) by (apply Rmult_le_compat_l; lra). assert ((1 + e) * ri <= (1 + e) * (X * rho + D)) by (apply Rmult_le_compat_l; lra). lra. }
    set (kk := (1 - e) - (1 + e) * rho) in *.
    assert (KK : 0 < kk).
    { destruct (Rlt_dec 0 kk) as [|NK]; [assumption|exfalso].
      assert (0 <= (1 - e ^ 2) * (1 + rho) * DM). { apply Rmult_le_pos; [apply Rmult_le_pos; [nra|lra]|lra]. }
      nra. }
    assert (X2 : X * kk <= 2 * D) by (unfold kk; nra).
    assert (T3 : t * kk <= (1 + e) * (X * kk * rho + D * kk)) by nra.
    assert (T4 : t * kk <= (1 + e) * (2 * D * rho + D * kk)).
    { assert ((1 + e) * rho * (X * kk) <= (1 + e) * rho * (2 * D)) by (apply Rmult_le_compat_l; [apply Rmult_le_pos; lra|exact X2]). lra. }
    assert (T5 : (1 + e) * (2 * D * rho + D * kk) = (1 - e ^ 2) * (1 + rho) * D) by (unfold kk; ring).
    assert ((1 - e ^ 2) * (1 + rho) * D <= (1 - e ^ 2) * (1 + rho) * DM) by (apply Rmult_le_compat_l; [apply Rmult_le_pos; nra|lra]). lra.
  Qed.

  (** number of steps: no step once the bound of the source is below t *)
  Lemma step_bound : forall k s N, inv k s -> t <= a_abs a (nth i0 (resid s) czero) -> (1 + e) * (q ^ N * a0) < t -> (k < N)%nat.
  Proof.
    intros k s N IV Ht HN. destruct (Nat.lt_ge_cases k N) as [|L]; [assumption|exfalso].
    destruct consts as (U0 & V0 & M0 & E0 & H0 & C0 & Q0 & Q1). pose proof (Cmod_ge_0 A) as PA.
    destruct IV as (_ & _ & x & y & P & _ & _ & _ & _ & _ & B1 & _). pose proof (abs_low _ _ _ _ _ _ _ (nth i0 (resid s) czero) ACC) as L2.
    assert (q ^ k <= q ^ N). { replace k with (N + (k - N))%nat by lia. rewrite pow_add. assert (0 <= q ^ N) by (apply pow_le; lra).
      assert (q ^ (k - N) <= 1) by (apply Rle_trans with (1 ^ (k - N)); [apply pow_incr; lra|rewrite pow1; lra]). nra. }
    assert (A00 : 0 <= a0) by (unfold a0; lra). assert (q ^ k * a0 <= q ^ N * a0) by (now apply Rmult_le_compat_r).
    assert ((1 + e) * Cmod (nth i0 (resid s) czero) <= (1 + e) * (q ^ N * a0)) by (apply Rmult_le_compat_l; lra). lra.
  Qed.

  Lemma abs_ge0 : forall z, 0 <= a_abs a z.
  Proof. intros z. pose proof (abs_low _ _ _ _ _ _ _ z ACC). pose proof (Cmod_ge_0 z). nra. Qed.

  Lemma loop1_inv : forall cutoff N, t <= cutoff -> (1 + e) * (q ^ N * a0) < t \/ (maxIter <= N)%nat ->
    forall rem k s s', (k + rem <= maxIter)%nat -> (k <= N)%nat -> inv k s -> loop1_fl a RMSF phi fwhm g imax pad cutoff rem s = POk s' ->
    exists k', inv k' s' /\ (k <= k' <= k + rem)%nat /\ (k' <= N)%nat.
  Proof.
    intros cutoff N Hc HN. induction rem as [|rem IH]; intros k s s' Hk HkN IV H; cbn [loop1_fl] in H.
    - injection H as <-. exists k. split; [exact IV|]. lia.
    - destruct (Rle_dec cutoff (maxabs_fl a (resid s))) as [L|L].
      + destruct (argmax_fl a (resid s)) as [i|] eqn:Ea; [|discriminate].
        pose proof (argmax_fl_max a phi (resid s) i abs_ge0 Ea) as EM. apply argmax_fl_spec in Ea. destruct Ea as [Hi Hmx].
        pose proof IV as (WF & _). destruct WF as (W1 & _ & _). rewrite W1 in Hi, Hmx.
        assert (i = i0) as ->. { apply (chosen k s i IV); [lia|exact Hi|lra|apply Hmx; exact Hi0]. }
        destruct (step_fl a RMSF phi fwhm g imax pad i0 s) as [s1|] eqn:Es; [|discriminate].
        assert (KN : (k < N)%nat). { destruct HN as [HN|HN]; [|lia]. apply (step_bound k s N IV); [lra|exact HN]. }
        destruct (IH (S k) s1 s' ltac:(lia) ltac:(lia) (inv_step k s s1 IV Es) H) as (k' & IV' & L' & N'). exists k'. split; [exact IV'|]. lia.
      + injection H as <-. exists k. split; [exact IV|]. lia.
  Qed.

  Lemma loop2_inv : forall window mask N, (forall ww, window = Some ww -> t <= ww) -> (1 + e) * (q ^ N * a0) < t \/ (maxIter <= N)%nat ->
    length mask = n -> (open_chans mask = [] \/ nth i0 mask false = true) ->
    forall rem k s s', (k + rem <= maxIter)%nat -> (k <= N)%nat -> inv k s -> loop2_fl a RMSF phi fwhm g imax pad window mask rem s = POk s' ->
    exists k', inv k' s' /\ (k <= k' <= k + rem)%nat /\ (k' <= N)%nat.
  Proof.
    intros window mask N Hc HN HM HO. induction rem as [|rem IH]; intros k s s' Hk HkN IV H; cbn [loop2_fl] in H.
    - injection H as <-. exists k. split; [exact IV|]. lia.
    - destruct window as [ww|]; [|injection H as <-; exists k; split; [exact IV|]; lia]. specialize (Hc ww eq_refl) as Hw.
      destruct (argmax_fl a (map _ (open_chans mask))) as [b|] eqn:Ea; [|injection H as <-; exists k; split; [exact IV|]; lia].
      destruct (Rle_dec ww _) as [L|L]; [|injection H as <-; exists k; split; [exact IV|]; lia].
      pose proof (argmax_fl_max a phi _ b abs_ge0 Ea) as EM. apply argmax_fl_spec in Ea. destruct Ea as [Hb Hmx]. rewrite map_length in Hb, Hmx.
      set (i := nth b (open_chans mask) 0%nat) in *.
      assert (Hin : In i (open_chans mask)) by (apply nth_In; auto). pose proof (proj1 (in_open _ _) Hin) as [Hi _]. rewrite HM in Hi.
      assert (NB : forall x, (x < length (open_chans mask))%nat -> nth x (map (fun j => nth j (resid s) (RtoC 0)) (open_chans mask)) czero = nth (nth x (open_chans mask) 0%nat) (resid s) czero).
      { intros x Hx. rewrite (nth_indep _ czero ((fun j => nth j (resid s) (RtoC 0)) 0%nat)) by (now rewrite map_length). now rewrite (map_nth (fun j => nth j (resid s) (RtoC 0))). }
      rewrite (NB b Hb) in EM. fold i in EM.
      assert (i = i0) as EI.
      { destruct HO as [HO|HO]; [rewrite HO in Hin; destruct Hin|].
        assert (H0 : In i0 (open_chans mask)) by (apply in_open; rewrite HM; split; [exact Hi0|exact HO]).
        apply (In_nth _ _ 0%nat) in H0. destruct H0 as (x & Hx & Ex). specialize (Hmx x Hx). rewrite (NB x Hx), (NB b Hb), Ex in Hmx. fold i in Hmx.
        apply (chosen k s i IV); [lia|exact Hi|lra|exact Hmx]. }
      rewrite EI in *. destruct (step_fl a RMSF phi fwhm g imax pad i0 s) as [s1|] eqn:Es; [|discriminate].
      assert (KN : (k < N)%nat). { destruct HN as [HN|HN]; [|lia]. apply (step_bound k s N IV); [lra|exact HN]. }
      destruct (IH (S k) s1 s' ltac:(lia) ltac:(lia) (inv_step k s s1 IV Es) H) as (k' & IV' & L' & N'). exists k'. split; [exact IV'|]. lia.
  Qed.

  (** only the source's channel, or none, opens the second pass *)
  Lemma mask_inv : forall ends k s, inv k s -> open_chans (mask_fl a ends (cc s)) = [] \/ nth i0 (mask_fl a ends (cc s)) false = true.
  Proof.
    intros ends k s (WF & _ & x & y & P & _ & _ & _ & _ & _ & _ & _ & _ & _ & B5). destruct WF as (_ & W2 & _).
    assert (A0 : a_abs a czero = 0). { pose proof (abs_low _ _ _ _ _ _ _ czero ACC) as L. unfold czero in *. rewrite Cmod_0 in L. lra. }
    unfold mask_fl. rewrite W2. set (has := fun i => if Rlt_dec 0 (a_abs a (nth i (cc s) (RtoC 0))) then true else false).
    destruct (has i0) eqn:E0.
    - right. rewrite nth_map_seq by exact Hi0. cbv beta. cbn [Nat.add]. unfold has in E0. rewrite E0. reflexivity.
    - left. destruct (open_chans _) as [|j l] eqn:EO; [reflexivity|exfalso].
      assert (Hj : In j (j :: l)) by now left. rewrite <- EO in Hj. apply in_open in Hj. rewrite map_length, seq_length in Hj. destruct Hj as [Hj Hm].
      rewrite nth_map_seq in Hm by exact Hj. cbn [Nat.add] in Hm.
      assert (HF : forall i, (i < length phi)%nat -> has i = false).
      { intros i Hi. destruct (Nat.eq_dec i i0) as [->|N]; [exact E0|]. unfold has. change (RtoC 0) with czero. rewrite (B5 i Hi N), A0. destruct (Rlt_dec 0 0); [lra|reflexivity]. }
      apply orb_true_iff in Hm. destruct Hm as [Hm|Hm].
      + pose proof (HF j Hj) as Q. unfold has in Q. rewrite Q in Hm. discriminate Hm.
      + apply existsb_exists in Hm. destruct Hm as (i & Hi & Hm). apply in_seq in Hi. apply andb_true_iff in Hm. destruct Hm as [Hm _].
        pose proof (HF i ltac:(lia)) as Q. unfold has in Q. rewrite Q in Hm. discriminate Hm.
  Qed.

  Lemma single_run : forall ends dirty cutoff window s, noisy_source RMSF imax n i0 A d dirty -> argmax cltb RMSF = Some imax ->
    t <= cutoff -> (forall ww, window = Some ww -> t <= ww) ->
    cleanloop_fl a ends dirty RMSF phi fwhm g cutoff window maxIter = POk s ->
    inv (iters s) s /\ (iters s <= maxIter)%nat /\ forall N, (1 + e) * (q ^ N * a0) < t -> (iters s <= N)%nat.
  Proof.
    intros ends dirty cutoff window s NS EI Hc Hw H. unfold cleanloop_fl in H. rewrite EI in H. fold (init_cst dirty) in H. fold pad in H.
    destruct (loop1_fl _ _ _ _ _ _ _ _ _ _) as [s1|] eqn:E1'; [|discriminate]. destruct (Nat.ltb (length phi) 2); [discriminate|].
    assert (G0 : forall N, (1 + e) * (q ^ N * a0) < t \/ (maxIter <= N)%nat -> exists k, inv k s /\ (k <= maxIter)%nat /\ (k <= N)%nat).
    { intros N HN. destruct (loop1_inv cutoff N Hc HN maxIter 0 _ _ ltac:(lia) ltac:(lia) (inv_init dirty NS) E1') as (k1 & IV1 & L1 & N1).
      pose proof (proj1 (proj2 IV1)) as I1. rewrite I1 in H.
      assert (HM : length (mask_fl a ends (cc s1)) = n) by (rewrite length_mask_fl; apply IV1).
      destruct (loop2_inv window _ N Hw HN HM (mask_inv ends k1 s1 IV1) (maxIter - k1) k1 s1 s ltac:(lia) ltac:(lia) IV1 H) as (k2 & IV2 & L2 & N2).
      exists k2. split; [exact IV2|]. lia. }
    destruct (G0 maxIter (or_intror (le_n _))) as (k & IV & Lk & _). pose proof (proj1 (proj2 IV)) as Ik. rewrite Ik. split; [exact IV|]. split; [exact Lk|].
    intros N HN. destruct (G0 N (or_introl HN)) as (k2 & IV2 & _ & L2). pose proof (proj1 (proj2 IV2)). lia.
  Qed.
End Single.

(** One source with noise: all components are on its channel; residual and
    component are those of exact arithmetic up to the bounds; the number of
    steps is bounded. *)
Theorem fl_single : forall a ends RMSF phi fwhm g u v m e h rho d t imax i0 maxIter A dirty cutoff window s,
  accurate a fwhm u v m e h -> roomy (length phi) (length RMSF) imax -> peak_at RMSF imax -> sidelobes RMSF imax rho ->
  0 < g <= 1 -> e < 1 -> 0 <= rho < 1 -> 0 <= d -> peak_err g u v m < g ->
  noisy_source RMSF imax (length phi) i0 A d dirty ->
  0 < t <= cutoff -> (forall w, window = Some w -> t <= w) ->
  (1 - e ^ 2) * (1 + rho) * resid_err g u v m (Cmod A) d maxIter < t * ((1 - e) - (1 + e) * rho) ->
  cleanloop_fl a ends dirty RMSF phi fwhm g cutoff window maxIter = POk s ->
  (iters s <= maxIter)%nat /\
  (forall j, (j < length phi)%nat -> j <> i0 -> nth j (cc s) czero = czero) /\
  Cmod (nth i0 (cc s) czero - A * RtoC (1 - (1 - g) ^ iters s))%C <= comp_err g u v m (Cmod A) d (iters s) /\
  (forall j, (j < length phi)%nat ->
     Cmod (nth j (resid s) czero - A * RtoC ((1 - g) ^ iters s) * zsample RMSF (Z.of_nat imax + Z.of_nat j - Z.of_nat i0))%C <= resid_err g u v m (Cmod A) d (iters s)) /\
  (forall N, (1 + e) * ((1 - g + peak_err g u v m) ^ N * (Cmod A + d)) < t -> (iters s <= N)%nat).
Proof.
  intros a ends RMSF phi fwhm g u v m e h rho d t imax i0 maxIter A dirty cutoff window s ACC HR HP SL G E1 RHO D0 CG NS HT Hw HX H.
  pose proof NS as (_ & Hi0 & _).
  destruct (single_run a RMSF phi fwhm g u v m e h rho d t imax i0 maxIter A ACC HR SL G E1 RHO Hi0 D0 (proj1 HT) CG HX ends dirty cutoff window s NS (cltb_peak _ _ HP) (proj2 HT) Hw H) as (IV & L & NN).
  split; [exact L|]. destruct (inv_bounds _ _ _ _ _ _ _ _ _ _ _ _ _ _ ACC G D0 CG _ _ IV) as (B1 & B2).
  split; [|split; [exact B2|split; [exact B1|exact NN]]].
  destruct IV as (_ & _ & x & y & P & _ & _ & _ & _ & _ & _ & _ & _ & _ & B5). exact B5.
Qed.

(* ------------------------------------------------------- exact arithmetic *)
Theorem exact_is_clean : forall dirty RMSF phi fwhm gain cutoff window maxIter,
  let fp := fwhm / (nth 1 phi 0 - nth 0 phi 0) in
  cleanloop_fl exact (fun i => (py_int (INR i - fp / 2), py_int (INR i + fp / 2))) dirty RMSF phi fwhm gain cutoff window maxIter =
  cleanloop dirty RMSF phi fwhm gain cutoff window maxIter.
Proof.
  intros dirty RMSF phi fwhm gain cutoff window maxIter fp.
  assert (L1 : forall imax pad rem s, loop1_fl exact RMSF phi fwhm gain imax pad cutoff rem s = loop1 RMSF phi fwhm gain imax pad cutoff rem s).
  { intros imax pad. induction rem as [|rem IH]; intros s; [reflexivity|]. cbn [loop1_fl loop1].
    change (maxabs_fl exact (resid s)) with (maxabs (resid s)). destruct (Rle_dec cutoff (maxabs (resid s))); [|reflexivity].
    change (argmax_fl exact (resid s)) with (argmax (fun a b => Rltb (Cmod a) (Cmod b)) (resid s)).
    destruct (argmax _ (resid s)) as [i|]; [|reflexivity].
    change (step_fl exact RMSF phi fwhm gain imax pad i s) with (clean_step RMSF phi fwhm gain imax pad i s).
    destruct (clean_step _ _ _ _ _ _ _ _); [apply IH|reflexivity]. }
  assert (L2 : forall imax pad mask rem s, loop2_fl exact RMSF phi fwhm gain imax pad window mask rem s = loop2 RMSF phi fwhm gain imax pad window mask rem s).
  { intros imax pad mask. induction rem as [|rem IH]; intros s; [reflexivity|]. cbn [loop2_fl loop2]. destruct window as [w|]; [|reflexivity].
    set (vals := map _ (open_chans mask)). change (argmax_fl exact vals) with (argmax (fun a b => Rltb (Cmod a) (Cmod b)) vals).
    destruct (argmax _ vals) as [k|]; [|reflexivity]. change (maxabs_fl exact vals) with (maxabs vals). destruct (Rle_dec w (maxabs vals)); [|reflexivity].
    change (step_fl exact RMSF phi fwhm gain imax pad (nth k (open_chans mask) 0%nat) s) with (clean_step RMSF phi fwhm gain imax pad (nth k (open_chans mask) 0%nat) s).
    destruct (clean_step _ _ _ _ _ _ _ _); [apply IH|reflexivity]. }
  unfold cleanloop_fl, cleanloop. destruct (argmax cltb RMSF) as [imax|]; [|reflexivity]. cbv zeta. rewrite L1.
  destruct (loop1 _ _ _ _ _ _ _ _ _) as [s1|]; [|reflexivity]. destruct (Nat.ltb (length phi) 2); [reflexivity|]. rewrite L2. reflexivity.
Qed.
