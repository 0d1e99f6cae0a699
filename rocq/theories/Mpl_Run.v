(** The loops of the fitter with limits. *)
From Coq Require Import Reals List Arith ZArith Bool Lra Lia Psatz.
From Verif Require Import PyRes CBase PyList Mp_Model Mp_Spec Mp_Sums Mp_QR Mp_Run Mp_Fit Mpl_Model.
Import ListNotations.
Local Open Scope R_scope.

Section Run.
Variables (kw : keywords) (fcn : vec -> vec) (b : bounds) (ifree : nat -> nat) (xall : vec) (m n : nat).

Lemma try_b : forall ipvt diag qtf gnorm st st' status good, 0 <= s_fnorm st ->
  lm_try_b kw fcn b ifree xall m n ipvt diag qtf gnorm st = POk (st', status, good) ->
  (good = true -> s_fnorm st' < s_fnorm st /\ s_niter st' = S (s_niter st) /\
     s_fvec st' = fcn (place n ifree xall (s_x st')) /\ s_fnorm st' = enorm 0 m (s_fvec st') /\
     exists p alpha w1, take_step n b ifree (s_x st) p = POk (alpha, w1, s_x st')) /\
  (good = false -> s_x st' = s_x st /\ s_fvec st' = s_fvec st /\ s_fnorm st' = s_fnorm st /\ s_niter st' = s_niter st) /\
  (0 <= status <= 8)%Z /\ status <> 4%Z /\ (status = 0%Z -> (Z.of_nat (s_niter st') < k_maxiter kw)%Z).
Proof.
  intros ipvt diag qtf gnorm st st' status good Hf. unfold lm_try_b.
  destruct (lmpar n (s_r st) ipvt diag qtf (s_delta st) (s_par st)) as [[r par] p].
  destruct (take_step n b ifree (s_x st) (fun i => - p i)) as [[[alpha wa1] wa2]|] eqn:TS; [|discriminate].
  cbv zeta.
  set (pnorm := enorm 0 n (fun i => diag i * wa1 i)).
  set (fnorm1 := enorm 0 m (fcn (place n ifree xall wa2))).
  set (actred := if Rlt_dec (1 / 10 * fnorm1) (s_fnorm st) then _ else _).
  set (wa3 := fold_left _ _ _).
  set (temp1 := enorm 0 n (fun i => alpha * wa3 i) / s_fnorm st). set (temp2 := sqrt (alpha * par) * pnorm / s_fnorm st).
  set (prered := temp1 * temp1 + temp2 * temp2 / (5 / 10)).
  set (dirder := - (temp1 * temp1 + temp2 * temp2)).
  set (ratio := if Req_EM_T prered 0 then 0 else actred / prered).
  set (delta0 := if Nat.eqb (s_niter st) 1 then Rmin (s_delta st) pnorm else s_delta st).
  fold (resize (s_niter st) ratio actred dirder (s_fnorm st) fnorm1 pnorm delta0 par).
  destruct (resize (s_niter st) ratio actred dirder (s_fnorm st) fnorm1 pnorm delta0 par) as [delta' par'].
  set (s1 := if Rleb (1 / 10000) ratio then _ else _).
  assert (0 <= prered) as Pr.
  { unfold prered. pose proof (Rle_0_sqr temp1) as Q1. pose proof (Rle_0_sqr temp2) as Q2. unfold Rsqr in *. lra. }
  assert (forall status' good', (0 <= status' <= 8)%Z -> status' <> 4%Z ->
    (status' = 0%Z -> (Z.of_nat (s_niter s1) < k_maxiter kw)%Z) ->
    POk (s1, status', Rleb (1 / 10000) ratio) = POk (st', status, good') -> good' = good ->
    (good = true -> s_fnorm st' < s_fnorm st /\ s_niter st' = S (s_niter st) /\
     s_fvec st' = fcn (place n ifree xall (s_x st')) /\ s_fnorm st' = enorm 0 m (s_fvec st') /\
     exists p alpha w1, take_step n b ifree (s_x st) p = POk (alpha, w1, s_x st')) /\
    (good = false -> s_x st' = s_x st /\ s_fvec st' = s_fvec st /\ s_fnorm st' = s_fnorm st /\ s_niter st' = s_niter st) /\
    (0 <= status <= 8)%Z /\ status <> 4%Z /\ (status = 0%Z -> (Z.of_nat (s_niter st') < k_maxiter kw)%Z)) as K.
  { intros status' good' K1 K2 K3 E Eg. injection E as <- <- E3. rewrite Eg in E3. clear Eg good'.
    split; [|split; [|auto]].
    - intros G. rewrite G in E3. unfold s1. rewrite E3. cbn. apply Rleb_true in E3. split; [|split; [auto|split; [auto|split; [auto|]]]].
      2:{ exists (fun i => - p i), alpha, wa1. exact TS. }
      unfold ratio in E3. destruct (Req_EM_T prered 0); [lra|].
      assert (0 < actred) as A.
      { assert (0 < prered) by lra. replace actred with (actred / prered * prered) by (field; lra). apply Rmult_lt_0_compat; lra. }
      unfold actred in A. destruct (Rlt_dec _ _) as [L|L]; [|lra].
      assert (0 <= fnorm1) by apply enorm_nonneg.
      assert (0 < s_fnorm st) by lra.
      assert (fnorm1 / s_fnorm st < 1) as X.
      { assert (0 <= fnorm1 / s_fnorm st) by (apply Rmult_le_pos; auto; left; now apply Rinv_0_lt_compat). nra. }
      apply Rmult_lt_reg_r with (/ s_fnorm st); [now apply Rinv_0_lt_compat|]. rewrite Rinv_r by lra. exact X.
    - intros G. rewrite G in E3. unfold s1. rewrite E3. cbn. auto. }
  set (small := small_steps actred prered ratio).
  destruct (small (k_ftol kw)) eqn:Sm; unfold small, small_steps in Sm; rewrite Sm;
  destruct (Rle_dec delta' (k_xtol kw * s_xnorm s1)); cbn [andb negb Z.eqb Pos.eqb]; intros E.
  1-3: eapply K; [| | |exact E|reflexivity]; [lia|lia|intros; lia].
  destruct (Z.leb_spec (k_maxiter kw) (Z.of_nat (s_niter s1))), (Rleb (Rabs actred) machep && Rleb prered machep && Rleb (5 / 10 * ratio) 1),
    (Rle_dec delta' (machep * s_xnorm s1)), (Rle_dec gnorm machep);
    (eapply K; [| | |exact E|reflexivity]; [lia|lia|intros; lia]).
Qed.

(** ---------- an invariant of the accepted points *)

Variable Q : vec -> nat -> Prop.
Hypothesis Qstep : forall x k p alpha w1 w2, Q x k -> take_step n b ifree x p = POk (alpha, w1, w2) -> Q w2 (S k).

Definition good_point (st : lm) : Prop := at_point fcn ifree xall m n st /\ Q (s_x st) (s_niter st).
Definition in_time (st : lm) : Prop := (Z.of_nat (s_niter st) < k_maxiter kw)%Z \/ s_niter st = 1%nat.

Lemma inner_b_inv : forall fuel ipvt diag qtf gnorm st st' status, good_point st -> in_time st ->
  inner_b fuel kw fcn b ifree xall m n ipvt diag qtf gnorm st = Some (POk (st', status)) ->
  good_point st' /\ s_fnorm st' <= s_fnorm st /\ (0 <= status <= 8)%Z /\ status <> 4%Z /\
  (Z.of_nat (s_niter st') <= Z.max 2 (k_maxiter kw))%Z /\
  (status = 0%Z -> (Z.of_nat (s_niter st') < k_maxiter kw)%Z).
Proof.
  induction fuel as [|fuel IH]; intros ipvt diag qtf gnorm st st' status [Ap Qs] Ni H; [discriminate|].
  cbn [inner_b] in H.
  destruct (lm_try_b kw fcn b ifree xall m n ipvt diag qtf gnorm st) as [[[st1 s1] good]|] eqn:T; [|discriminate].
  apply try_b in T; [|now apply (at_point_fnorm _ _ _ _ _ _ Ap)]. destruct T as (Tg & Tb & S1 & S2 & S3).
  assert (good_point st1 /\ s_fnorm st1 <= s_fnorm st /\ (Z.of_nat (s_niter st1) <= Z.max 2 (k_maxiter kw))%Z) as (G1 & F1 & N1).
  { destruct good.
    - destruct (Tg eq_refl) as (A & B & C & D & p & al & w1 & E).
      split; [split; [split; [intros i Hi; now rewrite C|exact D]|rewrite B; now apply (Qstep (s_x st) _ p al w1)]|].
      split; [lra|]. unfold in_time in Ni. lia.
    - destruct (Tb eq_refl) as (A & B & C & D). split; [split; [|now rewrite A, D]|].
      + destruct Ap as [A1 A2]. split; rewrite ?A, ?B, ?C; auto.
      + split; [lra|]. unfold in_time in Ni. lia. }
  destruct (Z.eqb_spec s1 0) as [->|Ns]; cbn [negb] in H.
  - destruct good.
    + injection H as <- <-. split; [exact G1|]. split; [exact F1|]. split; [lia|]. split; [lia|]. split; [exact N1|exact S3].
    + apply IH in H; [|auto|left; auto]. destruct H as (H1 & H2 & H3). split; [auto|]. split; [lra|auto].
  - injection H as <- <-. split; [exact G1|]. split; [exact F1|]. split; [lia|]. split; [auto|]. split; [exact N1|]. intros. contradiction.
Qed.

Lemma outer_b_inv : forall fuel diag st st' status ipvt, good_point st -> in_time st ->
  (Z.of_nat (s_niter st) <= Z.max 2 (k_maxiter kw))%Z ->
  outer_b fuel kw fcn b ifree xall m n diag st = Some (POk (st', status, ipvt)) ->
  good_point st' /\ s_fnorm st' <= s_fnorm st /\ (1 <= status <= 8)%Z /\
  (Z.of_nat (s_niter st') <= Z.max 2 (k_maxiter kw))%Z.
Proof.
  induction fuel as [|fuel IH]; intros diag st st' status ipvt G Ni Nm H; [discriminate|].
  cbn [outer_b] in H.
  set (J := peg_jac _ _ _ _ _ _) in H.
  destruct (r_qtf m n (qrfac m n J) (s_fvec st)) as [r qtf].
  cbv zeta in H.
  set (st1 := mk_lm (s_x st) (s_fvec st) (s_fnorm st) (s_fnorm1 st) _ _ _ _ r) in H.
  assert (good_point st1) as G1 by exact G.
  destruct (Rle_dec _ (k_gtol kw)).
  { injection H as <- <- <-. split; [exact G1|]. cbn. split; [lra|]. split; [lia|exact Nm]. }
  destruct (Z.eqb_spec (k_maxiter kw) 0).
  { injection H as <- <- <-. split; [exact G1|]. cbn. split; [lra|]. split; [lia|exact Nm]. }
  destruct (inner_b _ _ _ _ _ _ _ _ _ _ _ _ _) as [[[st2 s2]|]|] eqn:In; try discriminate.
  apply inner_b_inv in In; [|exact G1|exact Ni]. destruct In as (A & B & C & D & E & F). cbn [s_fnorm] in B.
  change (s_fnorm st1) with (s_fnorm st) in B.
  destruct (Z.eqb_spec s2 0) as [->|Ns]; cbn [negb] in H.
  - apply IH in H; auto; [|left; auto]. destruct H as (H1 & H2 & H3). split; [auto|]. split; [lra|auto].
  - injection H as <- <- <-. split; [auto|]. split; [lra|]. split; [lia|auto].
Qed.

End Run.
