(** The QR factorisation of the fitter (Mp_Model.qrfac, r_qtf): the reflections
    keep inner products, so R^T R = P^T A^T A P and R^T (Q^T f) = P^T A^T f. *)
From Coq Require Import Reals List Arith ZArith Bool Lra Lia Psatz Permutation.
From Verif Require Import PyRes CBase PyList Mp_Model Mp_Spec Mp_Sums.
Import ListNotations.
Local Open Scope R_scope.

(** the reflection the code applies to a[j:, lk] and to wa4[j:] *)
Definition refl (m j : nat) (u v : vec) : vec :=
  fun i => if Nat.leb j i then v i - u i * ssum j m (fun k => v k * u k) / u j else v i.

Definition reflector (m j : nat) (u : vec) : Prop :=
  (j < m)%nat /\ u j <> 0 /\ ssum j m (fun i => u i * u i) = 2 * u j.

Lemma refl_low : forall m j u v i, (i < j)%nat -> refl m j u v i = v i.
Proof. intros. unfold refl. destruct (Nat.leb_spec j i); [lia|reflexivity]. Qed.

Lemma refl_high : forall m j u v i, (j <= i)%nat ->
  refl m j u v i = v i - u i * ssum j m (fun k => v k * u k) / u j.
Proof. intros. unfold refl. destruct (Nat.leb_spec j i); [reflexivity|lia]. Qed.

Lemma refl_dot : forall m j u v w lo, reflector m j u -> (lo <= j)%nat ->
  ssum lo m (fun i => refl m j u v i * refl m j u w i) = ssum lo m (fun i => v i * w i).
Proof.
  intros m j u v w lo (Hj & Hu & Huu) Hlo.
  rewrite !(ssum_split lo j m) by lia. f_equal.
  - apply ssum_ext. intros i Hi. rewrite !refl_low by lia. reflexivity.
  - set (a := ssum j m (fun k => v k * u k) / u j). set (b := ssum j m (fun k => w k * u k) / u j).
    rewrite (ssum_ext j m _ (fun i => v i * w i - (b * (v i * u i) + a * (w i * u i)) + a * b * (u i * u i))).
    2:{ intros i Hi. rewrite !refl_high by lia. unfold Rdiv. unfold a, b, Rdiv. ring. }
    rewrite ssum_plus, ssum_minus, ssum_plus, !ssum_scal, Huu.
    replace (ssum j m (fun i => v i * u i)) with (a * u j) by (unfold a; field; auto).
    replace (ssum j m (fun i => w i * u i)) with (b * u j) by (unfold b; field; auto).
    ring.
Qed.

Lemma refl_ext : forall m j u v w i, (forall i, (i < m)%nat -> v i = w i) -> (i < m)%nat ->
  refl m j u v i = refl m j u w i.
Proof.
  intros m j u v w i H Hi. unfold refl. rewrite (H i Hi).
  rewrite (ssum_ext j m (fun k => v k * u k) (fun k => w k * u k)); auto.
  intros k Hk. rewrite H by lia. reflexivity.
Qed.

Lemma refl_ext_u : forall m j u u' v i, (j < m)%nat -> (forall i, (j <= i < m)%nat -> u i = u' i) -> (i < m)%nat ->
  refl m j u v i = refl m j u' v i.
Proof.
  intros m j u u' v i Hj H Hi. unfold refl. destruct (Nat.leb_spec j i); auto.
  rewrite (H i), (H j) by lia.
  rewrite (ssum_ext j m (fun k => v k * u k) (fun k => v k * u' k)); auto.
  intros k Hk. rewrite H by lia. reflexivity.
Qed.

(** the reflections of a list of vectors, the first at index 0 *)
Fixpoint refls (m j : nat) (us : list vec) (v : vec) : vec :=
  match us with [] => v | u :: us' => refls m (S j) us' (refl m j u v) end.

Fixpoint reflectors (m j : nat) (us : list vec) : Prop :=
  match us with [] => True | u :: us' => reflector m j u /\ reflectors m (S j) us' end.

Lemma refls_app : forall us us' m j v, refls m j (us ++ us') v = refls m (j + length us) us' (refls m j us v).
Proof.
  induction us as [|u us IH]; intros us' m j v; cbn.
  - now rewrite Nat.add_0_r.
  - rewrite IH. f_equal. lia.
Qed.

Lemma reflectors_app : forall us us' m j, reflectors m j us -> reflectors m (j + length us) us' ->
  reflectors m j (us ++ us').
Proof.
  induction us as [|u us IH]; intros us' m j H H'; cbn in *.
  - now rewrite Nat.add_0_r in H'.
  - destruct H as [Hu H]. split; auto. apply IH; auto. replace (S j + length us)%nat with (j + S (length us))%nat by lia. auto.
Qed.

Lemma refls_dot : forall us m j v w, reflectors m j us ->
  ssum 0 m (fun i => refls m j us v i * refls m j us w i) = ssum 0 m (fun i => v i * w i).
Proof.
  induction us as [|u us IH]; intros m j v w H; cbn; auto.
  destruct H as [Hu H]. rewrite IH by auto. apply refl_dot; auto. lia.
Qed.

Lemma refls_ext : forall us m j v w i, (forall i, (i < m)%nat -> v i = w i) -> (i < m)%nat ->
  refls m j us v i = refls m j us w i.
Proof.
  induction us as [|u us IH]; intros m j v w i H Hi; cbn; auto.
  apply IH; auto. intros k Hk. now apply refl_ext.
Qed.

Lemma refls_low : forall us m j v i, (i < j)%nat -> refls m j us v i = v i.
Proof.
  induction us as [|u us IH]; intros m j v i H; cbn; auto. rewrite IH by lia. apply refl_low; auto.
Qed.

(* ---------------------------------------------------------------- the pivot *)

Lemma first_max_spec : forall lo hi v, (lo < hi)%nat ->
  (lo <= first_max lo hi v < hi)%nat /\ forall i, (lo <= i < hi)%nat -> v i <= v (first_max lo hi v).
Proof.
  intros lo hi v H. unfold first_max.
  pose proof (fold_seq_inv (fun j k => (lo <= k < j)%nat /\ forall i, (lo <= i < j)%nat -> v i <= v k)
     (fun k i => if Rlt_dec (v k) (v i) then i else k) (S lo) (hi - S lo) lo) as K.
  cbv beta in K. replace (S lo + (hi - S lo))%nat with hi in K by lia. apply K.
  - split; [lia|]. intros i Hi. replace i with lo by lia. lra.
  - intros j s Hj [Hs Hm]. destruct (Rlt_dec (v s) (v j)) as [L|L]; (split; [lia|]); intros i Hi;
      destruct (Nat.eq_dec i j) as [->|]; try lra.
    + apply Rle_trans with (v s); [apply Hm; lia|lra].
    + apply Hm; lia.
Qed.

(** the columns of the matrix in the order of the pivots *)
Definition pcol (st : qr) (k : nat) : vec := fun i => q_a st i (q_ipvt st k).

Lemma pivot_step_spec : forall m n j st, (j < n)%nat -> is_perm n (q_ipvt st) ->
  (forall k, (j <= k < n)%nat -> q_rdiag st k = enorm j m (pcol st k)) ->
  let st' := pivot_step n j st in
  is_perm n (q_ipvt st') /\ q_a st' = q_a st /\
  (forall k, (k < j)%nat -> q_ipvt st' k = q_ipvt st k /\ q_rdiag st' k = q_rdiag st k) /\
  (forall k, (j < k < n)%nat -> q_rdiag st' k = enorm j m (pcol st' k)) /\
  (forall k, (j <= k < n)%nat -> exists k', (j <= k' < n)%nat /\ q_ipvt st' k = q_ipvt st k') /\
  (forall k, (j <= k < n)%nat -> enorm j m (pcol st' k) <= enorm j m (pcol st' j)) /\
  (enorm j m (pcol st' j) = 0 -> q_rdiag st' j = 0).
Proof.
  intros m n j st Hj Hp Hr. unfold pivot_step.
  destruct (first_max_spec j n (q_rdiag st) Hj) as [Hk Hm].
  set (k0 := first_max j n (q_rdiag st)) in *. cbv zeta.
  destruct (Nat.eqb_spec k0 j) as [E|E].
  - repeat split; auto.
    + intros k Hk'. apply Hr; lia.
    + intros k Hk'. exists k. split; [lia|auto].
    + intros k Hk'. rewrite <- !Hr by lia. rewrite E in Hm. apply Hm; lia.
    + intros H. rewrite Hr by lia. exact H.
  - assert (forall k, (k < j)%nat -> upd (upd (q_ipvt st) j (q_ipvt st k0)) k0 (q_ipvt st j) k = q_ipvt st k) as L.
    { intros k Hk'. unfold upd. destruct (Nat.eqb_spec k k0); [lia|]. destruct (Nat.eqb_spec k j); [lia|auto]. }
    set (st' := mk_qr _ _ _ _).
    assert (forall k, (j <= k < n)%nat -> exists k', (j <= k' < n)%nat /\ q_ipvt st' k = q_ipvt st k' /\
              (k <> j -> q_rdiag st' k = q_rdiag st k') /\ (k = j -> k' = k0)) as X.
    { intros k Hk'. cbn. unfold upd. destruct (Nat.eqb_spec k k0) as [->|].
      - exists j. repeat split; auto; lia.
      - destruct (Nat.eqb_spec k j) as [->|].
        + exists k0. repeat split; auto; lia.
        + exists k. repeat split; auto; lia. }
    repeat split.
    + cbn. apply is_perm_swap; auto; lia.
    + cbn. now rewrite L.
    + cbn. unfold upd. destruct (Nat.eqb_spec k k0); [lia|auto].
    + intros k Hk'. destruct (X k) as [k' (B & E1 & E2 & _)]; [lia|].
      rewrite E2 by lia. rewrite Hr by lia. unfold pcol. rewrite E1. reflexivity.
    + intros k Hk'. destruct (X k Hk') as [k' (B & E1 & _)]. exists k'. auto.
    + intros k Hk'. destruct (X k Hk') as [k' (B & E1 & _)].
      destruct (X j) as [k2 (B2 & F1 & _ & F3)]; [lia|]. rewrite (F3 eq_refl) in F1.
      unfold pcol. rewrite E1, F1. cbn.
      change (enorm j m (pcol st k') <= enorm j m (pcol st k0)). rewrite <- !Hr by lia. apply Hm. lia.
    + intros H. destruct (X j) as [k2 (B2 & F1 & _ & F3)]; [lia|]. rewrite (F3 eq_refl) in F1.
      assert (q_rdiag st k0 = 0) as Z.
      { rewrite Hr by lia. unfold pcol in *. rewrite F1 in H. exact H. }
      cbn. unfold upd. destruct (Nat.eqb_spec j k0); [lia|].
      assert (q_rdiag st j <= 0) by (rewrite <- Z; apply Hm; lia).
      rewrite Hr in * by lia. pose proof (enorm_nonneg j m (pcol st j)). lra.
Qed.

(* ---------------------------------------------------------------- one column *)

Lemma householder : forall m j (v : vec) nrm, (j < m)%nat -> nrm <> 0 -> nrm * nrm = ssum j m (fun i => v i * v i) ->
  0 <= v j / nrm ->
  let u := fun i => v i / nrm + (if Nat.eqb i j then 1 else 0) in
  reflector m j u /\ refl m j u v j = - nrm /\ forall i, (j < i)%nat -> refl m j u v i = 0.
Proof.
  intros m j v nrm Hj Hn Hs Hp u.
  assert (u j = v j / nrm + 1) as Uj by (unfold u; now rewrite Nat.eqb_refl).
  assert (forall i, (j < i)%nat -> u i = v i / nrm) as Ui.
  { intros i Hi. unfold u. destruct (Nat.eqb_spec i j); [lia|ring]. }
  assert (ssum j m (fun i => v i * u i) = nrm * u j) as Vu.
  { rewrite (ssum_first j m) by auto. rewrite Uj.
    rewrite (ssum_ext (S j) m _ (fun i => / nrm * (v i * v i))).
    2:{ intros i Hi. rewrite Ui by lia. unfold Rdiv. ring. }
    rewrite ssum_scal. rewrite (ssum_first j m) in Hs by auto.
    replace (ssum (S j) m (fun i => v i * v i)) with (nrm * nrm - v j * v j) by lra. field. auto. }
  assert (u j <> 0) as U0 by (rewrite Uj; lra).
  assert (ssum j m (fun i => u i * u i) = 2 * u j) as Uu.
  { rewrite (ssum_first j m) by auto. rewrite Uj.
    rewrite (ssum_ext (S j) m _ (fun i => / nrm * / nrm * (v i * v i))).
    2:{ intros i Hi. rewrite Ui by lia. unfold Rdiv. ring. }
    rewrite ssum_scal. rewrite (ssum_first j m) in Hs by auto.
    replace (ssum (S j) m (fun i => v i * v i)) with (nrm * nrm - v j * v j) by lra. field. auto. }
  split; [repeat split; auto|]. split.
  - rewrite refl_high by lia. rewrite Vu. rewrite Uj in *. field. split; auto. intros K. apply U0.
    apply Rmult_eq_reg_l with nrm; auto. rewrite Rmult_0_r. rewrite <- K. field. auto.
  - intros i Hi. rewrite refl_high by lia. rewrite Vu, (Ui i) by lia. field. auto.
Qed.

Lemma enorm_step : forall m j v, (j < m)%nat ->
  enorm (S j) m v = sqrt (enorm j m v * enorm j m v - v j * v j).
Proof.
  intros m j v Hj. rewrite enorm_sq, (ssum_first j m) by auto. unfold enorm. f_equal. ring.
Qed.

(** what the loop over the remaining columns does to the state *)
Definition swept (m j n : nat) (u : vec) (st0 st : qr) (k : nat) : Prop :=
  q_ipvt st = q_ipvt st0 /\
  (forall i c, (forall l, (j < l < k)%nat -> c <> q_ipvt st0 l) -> q_a st i c = q_a st0 i c) /\
  (forall l i, (j < l < k)%nat -> (i < m)%nat -> q_a st i (q_ipvt st0 l) = refl m j u (pcol st0 l) i) /\
  (forall l, (l <= j \/ k <= l)%nat -> q_rdiag st l = q_rdiag st0 l) /\
  (forall l, (j < l < k)%nat -> q_rdiag st l = enorm (S j) m (refl m j u (pcol st0 l))).

Lemma qr_col_step : forall m j n u st0 st k, is_perm n (q_ipvt st0) -> reflector m j u -> (j < k < n)%nat ->
  q_a st0 j (q_ipvt st0 j) = u j ->
  (forall l, (j < l < n)%nat -> q_rdiag st0 l = enorm j m (pcol st0 l)) ->
  swept m j n u st0 st k -> swept m j n u st0 (qr_col m j (q_ipvt st0 j) u st k) (S k).
Proof.
  intros m j n u st0 st k Hp Hu Hk Huj Hr (I & U & D & R0 & R1).
  assert (forall l, (j < l < k)%nat -> q_ipvt st0 k <> q_ipvt st0 l) as Nk.
  { intros l Hl E. apply (is_perm_inj n) in E; auto; lia. }
  assert (q_a st j (q_ipvt st0 j) = u j) as Huj'.
  { rewrite U; auto. intros l Hl E. apply (is_perm_inj n) in E; auto; lia. }
  assert (forall i, q_a st i (q_ipvt st0 k) = pcol st0 k i) as Ck.
  { intros i. rewrite U; auto. }
  destruct Hu as (Hjm & Hu0 & Huu).
  unfold qr_col. rewrite I. rewrite Huj'.
  destruct (Req_EM_T (u j) 0) as [E|_]; [contradiction|].
  set (d := ssum j m (fun i => q_a st i (q_ipvt st0 k) * u i)).
  set (a' := fun i c => if Nat.eqb c (q_ipvt st0 k) && Nat.leb j i then _ else _).
  assert (forall i, a' i (q_ipvt st0 k) = refl m j u (pcol st0 k) i) as A'.
  { intros i. unfold a', refl. rewrite Nat.eqb_refl. cbn. destruct (Nat.leb j i); rewrite Ck; auto.
    unfold d. rewrite (ssum_ext j m (fun i => q_a st i (q_ipvt st0 k) * u i) (fun i => pcol st0 k i * u i)); auto.
    intros. now rewrite Ck. }
  assert (forall i c, c <> q_ipvt st0 k -> a' i c = q_a st i c) as A''.
  { intros i c Hc. unfold a'. destruct (Nat.eqb_spec c (q_ipvt st0 k)); [contradiction|auto]. }
  assert (forall i c, (forall l, (j < l < S k)%nat -> c <> q_ipvt st0 l) -> a' i c = q_a st0 i c) as U'.
  { intros i c Hc. rewrite A'' by (apply Hc; lia). apply U. intros l Hl. apply Hc. lia. }
  assert (forall l i, (j < l < S k)%nat -> (i < m)%nat -> a' i (q_ipvt st0 l) = refl m j u (pcol st0 l) i) as D'.
  { intros l i Hl Hi. destruct (Nat.eq_dec l k) as [->|]; [apply A'|].
    rewrite A'' by (intros E; apply (is_perm_inj n) in E; auto; lia). apply D; lia. }
  assert (q_rdiag st k = enorm j m (pcol st0 k)) as Rk.
  { rewrite R0 by lia. apply Hr. lia. }
  assert (enorm j m (refl m j u (pcol st0 k)) * enorm j m (refl m j u (pcol st0 k)) =
          q_rdiag st k * q_rdiag st k) as Sq.
  { rewrite Rk, !enorm_sq. apply refl_dot; [repeat split; auto|lia]. }
  assert (0 <= q_rdiag st k) as Pk by (rewrite Rk; apply enorm_nonneg).
  assert (enorm (S j) m (fun i => a' i (q_ipvt st0 k)) = enorm (S j) m (refl m j u (pcol st0 k))) as En.
  { apply enorm_ext. intros; apply A'. }
  destruct (Req_EM_T (q_rdiag st k) 0) as [Z|Z].
  - assert (enorm (S j) m (refl m j u (pcol st0 k)) = 0) as Z'.
    { rewrite enorm_step by auto. rewrite Sq, Z.
      assert (refl m j u (pcol st0 k) j = 0) as Rj.
      { apply (enorm_zero j m); [|lia]. assert (enorm j m (refl m j u (pcol st0 k)) * enorm j m (refl m j u (pcol st0 k)) = 0) by (rewrite Sq, Z; ring). nra. }
      rewrite Rj. replace (0 * 0 - 0 * 0) with 0 by ring. apply sqrt_0. }
    repeat split; cbn; auto.
    + intros l Hl. apply R0. lia.
    + intros l Hl. destruct (Nat.eq_dec l k) as [->|]; [congruence|]. apply R1. lia.
  - assert (0 < q_rdiag st k) as Pk' by lra.
    assert (q_rdiag st k * sqrt (Rmax (1 - (a' j (q_ipvt st0 k) / q_rdiag st k) ^ 2) 0) =
            enorm (S j) m (refl m j u (pcol st0 k))) as Rd.
    { rewrite enorm_step by auto. rewrite Sq, A'.
      set (w := refl m j u (pcol st0 k) j). set (t := q_rdiag st k) in *.
      assert (w * w <= t * t) as L.
      { unfold w. rewrite <- Sq. rewrite enorm_sq, (ssum_first j m) by auto.
        pose proof (ssum_sq_nonneg (S j) m (refl m j u (pcol st0 k))). lra. }
      assert (0 <= 1 - (w / t) ^ 2) as L'.
      { replace (1 - (w / t) ^ 2) with ((t * t - w * w) / (t * t)) by (field; lra).
        apply Rmult_le_pos; [lra|]. left. apply Rinv_0_lt_compat. nra. }
      rewrite Rmax_left by auto.
      replace (t * t - w * w) with (t * t * (1 - (w / t) ^ 2)) by (field; lra).
      rewrite sqrt_mult by nra. rewrite sqrt_square by lra. reflexivity. }
    set (e := enorm (S j) m (refl m j u (pcol st0 k))).
    assert (forall rd wa, (forall l, rd l = upd (q_rdiag st) k e l) ->
              swept m j n u st0 (mk_qr a' (q_ipvt st0) rd wa) (S k)) as Fin.
    { intros rd wa Hrd. repeat split; cbn; auto.
      - intros l Hl. rewrite Hrd. unfold upd. destruct (Nat.eqb_spec l k); [lia|]. apply R0. lia.
      - intros l Hl. rewrite Hrd. unfold upd. destruct (Nat.eqb_spec l k) as [->|]; auto. apply R1. lia. }
    cbv zeta. destruct (Rle_dec _ machep); apply Fin; intros l; unfold upd; destruct (Nat.eqb l k); auto.
Qed.

Lemma qr_sweep : forall m j n u st0, is_perm n (q_ipvt st0) -> reflector m j u -> (j < n)%nat ->
  q_a st0 j (q_ipvt st0 j) = u j ->
  (forall l, (j < l < n)%nat -> q_rdiag st0 l = enorm j m (pcol st0 l)) ->
  swept m j n u st0 (fold_left (qr_col m j (q_ipvt st0 j) u) (seq (S j) (n - S j)) st0) n.
Proof.
  intros m j n u st0 Hp Hu Hj Huj Hr.
  pose proof (fold_seq_inv (fun k st => swept m j n u st0 st k) (qr_col m j (q_ipvt st0 j) u) (S j) (n - S j) st0) as K.
  cbv beta in K. replace (S j + (n - S j))%nat with n in K by lia. apply K.
  - repeat split; auto; intros; lia.
  - intros k st Hk. apply qr_col_step; auto.
Qed.

(* ---------------------------------------------------------------- the invariant *)

(** after the columns 0..j-1: the reflections done so far, and column k of the
    (reflected) matrix *)
Definition qr_inv (m n : nat) (A : mat) (st : qr) (j : nat) (us : list vec) : Prop :=
  length us = j /\ reflectors m 0 us /\ is_perm n (q_ipvt st) /\
  (forall k i, (k < j)%nat -> (i < m)%nat ->
     let W := refls m 0 us (column A (q_ipvt st k)) in
     (q_a st i (q_ipvt st k) = if Nat.ltb i k then W i else nth k us (fun _ => 0) i) /\
     W k = q_rdiag st k /\ ((k < i)%nat -> W i = 0)) /\
  (forall k i, (j <= k < n)%nat -> (i < m)%nat -> q_a st i (q_ipvt st k) = refls m 0 us (column A (q_ipvt st k)) i) /\
  (forall k, (j <= k < n)%nat -> q_rdiag st k = enorm j m (pcol st k)).

(** what the loop leaves: either all columns are done, or the rest is zero *)
Definition qr_post (m n : nat) (A : mat) (st : qr) (j : nat) (us : list vec) : Prop :=
  qr_inv m n A st j us /\ (j <= n)%nat /\ forall k i, (j <= k < n)%nat -> (j <= i < m)%nat -> q_a st i (q_ipvt st k) = 0.

Lemma qr_pivot_inv : forall m n A st j us, (j < n)%nat -> qr_inv m n A st j us ->
  let st1 := pivot_step n j st in
  is_perm n (q_ipvt st1) /\
  (forall k i, (k < j)%nat -> (i < m)%nat ->
     let W := refls m 0 us (column A (q_ipvt st1 k)) in
     (q_a st1 i (q_ipvt st1 k) = if Nat.ltb i k then W i else nth k us (fun _ => 0) i) /\
     W k = q_rdiag st1 k /\ ((k < i)%nat -> W i = 0)) /\
  (forall k i, (j <= k < n)%nat -> (i < m)%nat -> q_a st1 i (q_ipvt st1 k) = refls m 0 us (column A (q_ipvt st1 k)) i) /\
  (forall k, (j < k < n)%nat -> q_rdiag st1 k = enorm j m (pcol st1 k)) /\
  (forall k, (j <= k < n)%nat -> enorm j m (pcol st1 k) <= enorm j m (pcol st1 j)) /\
  (enorm j m (pcol st1 j) = 0 -> q_rdiag st1 j = 0).
Proof.
  intros m n A st j us Hj (L & Rs & P & C4 & C5 & C6) st1.
  destruct (pivot_step_spec m n j st Hj P C6) as (P1 & Ea & Lo & Rd & Ex & Mx & Z). fold st1 in P1, Ea, Lo, Rd, Ex, Mx, Z.
  split; [exact P1|]. split.
  { intros k i Hk Hi. cbv zeta. destruct (Lo k Hk) as [E1 E2]. rewrite E1, E2, Ea. apply C4; auto. }
  split.
  { intros k i Hk Hi. destruct (Ex k Hk) as [k' [B E]]. rewrite E, Ea. apply C5; auto. }
  repeat split; auto.
Qed.

Lemma qr_loop_cons : forall m n j js st,
  qr_loop m n (j :: js) st =
  let st1 := pivot_step n j st in
  let lj := q_ipvt st1 j in
  let nrm := enorm j m (fun i => q_a st1 i lj) in
  if Req_EM_T nrm 0 then st1
  else
    let nrm := if Rlt_dec (q_a st1 j lj) 0 then - nrm else nrm in
    let ajj := fun i => q_a st1 i lj / nrm + (if Nat.eqb i j then 1 else 0) in
    let a' := fun i c => if Nat.eqb c lj && Nat.leb j i then ajj i else q_a st1 i c in
    let st := fold_left (qr_col m j lj ajj) (seq (S j) (n - S j))
                        (mk_qr a' (q_ipvt st1) (q_rdiag st1) (q_wa st1)) in
    qr_loop m n js (mk_qr (q_a st) (q_ipvt st) (upd (q_rdiag st) j (- nrm)) (q_wa st)).
Proof. reflexivity. Qed.

Lemma qr_stage : forall m n A st j us js, (j < n)%nat -> (n <= m)%nat -> qr_inv m n A st j us ->
  (qr_post m n A (qr_loop m n (j :: js) st) j us) \/
  (exists u st', qr_inv m n A st' (S j) (us ++ [u]) /\ qr_loop m n (j :: js) st = qr_loop m n js st').
Proof.
  intros m n A st j us js Hj Hm Inv. rewrite qr_loop_cons.
  pose proof (qr_pivot_inv m n A st j us Hj Inv) as Pi. set (st1 := pivot_step n j st) in *. cbv zeta in Pi.
  destruct Pi as (P & C4 & C5 & Rd & Mx & Z). destruct Inv as (L & Rs & _).
  cbv zeta. change (fun i => q_a st1 i (q_ipvt st1 j)) with (pcol st1 j).
  destruct (Req_EM_T (enorm j m (pcol st1 j)) 0) as [E|E].
  - left. assert (forall k i, (j <= k < n)%nat -> (j <= i < m)%nat -> q_a st1 i (q_ipvt st1 k) = 0) as Zero.
    { intros k i Hk Hi. apply (enorm_zero j m (pcol st1 k)); [|lia].
      pose proof (enorm_nonneg j m (pcol st1 k)). pose proof (Mx k Hk). lra. }
    split; [|split; [lia|exact Zero]].
    repeat split; auto.
    + apply (C4 k i); auto.
    + apply (C4 k i); auto.
    + intros Hki. apply (C4 k i); auto.
    + intros k Hk. destruct (Nat.eq_dec k j) as [->|]; [|apply Rd; lia]. rewrite E. auto.
  - right.
    set (nrm := if Rlt_dec (q_a st1 j (q_ipvt st1 j)) 0 then - enorm j m (pcol st1 j) else enorm j m (pcol st1 j)).
    assert (nrm <> 0) as Hn by (unfold nrm; destruct (Rlt_dec _ 0); lra).
    assert (nrm * nrm = ssum j m (fun i => pcol st1 j i * pcol st1 j i)) as Hs.
    { rewrite <- enorm_sq. unfold nrm. destruct (Rlt_dec _ 0); ring. }
    assert (0 <= pcol st1 j j / nrm) as Hp.
    { unfold nrm, pcol. pose proof (enorm_nonneg j m (pcol st1 j)) as N. unfold pcol in *.
      destruct (Rlt_dec (q_a st1 j (q_ipvt st1 j)) 0) as [G|G].
      - match goal with |- 0 <= ?x / - ?e => replace (x / - e) with ((- x) * / e) by (field; lra) end.
        apply Rmult_le_pos; [lra|]. left. apply Rinv_0_lt_compat. lra.
      - apply Rmult_le_pos; [lra|]. left. apply Rinv_0_lt_compat. lra. }
    assert (j < m)%nat as Hjm by lia.
    destruct (householder m j (pcol st1 j) nrm Hjm Hn Hs Hp) as (Hu & Hhj & Hh0).
    set (u := fun i => pcol st1 j i / nrm + (if Nat.eqb i j then 1 else 0)) in *.
    change (fun i => q_a st1 i (q_ipvt st1 j) / nrm + (if Nat.eqb i j then 1 else 0)) with u.
    set (a' := fun i c => if Nat.eqb c (q_ipvt st1 j) && Nat.leb j i then u i else q_a st1 i c).
    set (st2 := mk_qr a' (q_ipvt st1) (q_rdiag st1) (q_wa st1)).
    assert (forall k i, (k < n)%nat -> k <> j -> q_a st2 i (q_ipvt st1 k) = q_a st1 i (q_ipvt st1 k)) as A2.
    { intros k i Hk Nk. cbn. unfold a'. destruct (Nat.eqb_spec (q_ipvt st1 k) (q_ipvt st1 j)) as [F|]; auto.
      apply (is_perm_inj n) in F; auto. contradiction. }
    assert (q_a st2 j (q_ipvt st2 j) = u j) as U2.
    { cbn. unfold a'. rewrite Nat.eqb_refl, Nat.leb_refl. reflexivity. }
    assert (forall l, (j < l < n)%nat -> q_rdiag st2 l = enorm j m (pcol st2 l)) as R2.
    { intros l Hl. change (q_rdiag st2 l) with (q_rdiag st1 l). rewrite Rd by auto. apply enorm_ext.
      intros i Hi. unfold pcol. symmetry. apply (A2 l i); lia. }
    pose proof (qr_sweep m j n u st2 P Hu Hj U2 R2) as Sw.
    change (q_ipvt st2 j) with (q_ipvt st1 j) in Sw.
    set (st3 := fold_left (qr_col m j (q_ipvt st1 j) u) (seq (S j) (n - S j)) st2) in *.
    destruct Sw as (I3 & U3 & D3 & K3 & N3). change (q_ipvt st2) with (q_ipvt st1) in *.
    exists u, (mk_qr (q_a st3) (q_ipvt st3) (upd (q_rdiag st3) j (- nrm)) (q_wa st3)). split; [|reflexivity].
    assert (forall v i, refls m 0 (@app vec us (@cons vec u (@nil vec))) v i = refl m j u (refls m 0 us v) i) as Rf.
    { intros v i. rewrite refls_app, L, Nat.add_0_l. reflexivity. }
    assert (forall k i, (k <= j)%nat -> q_a st3 i (q_ipvt st1 k) = q_a st2 i (q_ipvt st1 k)) as Old.
    { intros k i Hk. apply U3. intros l Hl F. apply (is_perm_inj n) in F; auto; lia. }
    assert (forall i, (i < m)%nat -> refls m 0 us (column A (q_ipvt st1 j)) i = pcol st1 j i) as Wj.
    { intros i Hi. unfold pcol. symmetry. apply C5; auto; lia. }
    split; [rewrite app_length, L; cbn; lia|]. split.
    { apply reflectors_app; auto. rewrite L, Nat.add_0_l. cbn. auto. }
    cbn [q_a q_ipvt q_rdiag q_wa]. rewrite I3. split; [exact P|]. split; [|split].
    + intros k i Hk Hi. cbv zeta. destruct (Nat.eq_dec k j) as [->|Nk].
      * assert (@nth vec j (@app vec us (@cons vec u (@nil vec))) (fun _ => 0) = u) as Nt.
        { rewrite app_nth2 by lia. rewrite L, Nat.sub_diag. reflexivity. }
        rewrite Nt. split; [|split].
        -- rewrite Old by lia. change (q_a st2) with a'. unfold a'. rewrite Nat.eqb_refl, andb_true_l.
           destruct (Nat.ltb_spec i j), (Nat.leb_spec j i); try lia; auto.
           rewrite Rf, refl_low by auto. symmetry. rewrite Wj by auto. reflexivity.
        -- rewrite Rf. rewrite (refl_ext m j u _ (pcol st1 j)) by (auto; lia). rewrite Hhj.
           unfold upd. now rewrite Nat.eqb_refl.
        -- intros Hji. rewrite Rf. rewrite (refl_ext m j u _ (pcol st1 j)) by auto. apply Hh0; auto.
      * assert (k < j)%nat as Hk' by lia. pose proof (C4 k) as Ck.
        assert (forall i, (j <= i < m)%nat -> refls m 0 us (column A (q_ipvt st1 k)) i = 0) as Wz.
        { intros l Hl. apply (Ck l); lia. }
        assert (@nth vec k (@app vec us (@cons vec u (@nil vec))) (fun _ => 0) = @nth vec k us (fun _ => 0)) as Nt by (rewrite app_nth1; auto; lia).
        rewrite Nt. destruct (Ck i Hk' Hi) as (G1 & G2 & G3).
        split; [|split].
        -- rewrite Old by lia. rewrite A2 by lia. rewrite G1.
           destruct (Nat.ltb_spec i k); auto. rewrite Rf, refl_low by lia. reflexivity.
        -- rewrite Rf, refl_low by lia. rewrite G2. unfold upd. destruct (Nat.eqb_spec k j); [lia|].
           rewrite K3 by lia. reflexivity.
        -- intros Hki. rewrite Rf. destruct (Nat.lt_ge_cases i j); [rewrite refl_low by auto; auto|].
           rewrite refl_high by auto. rewrite (ssum_0 j m) by (intros l Hl; rewrite Wz by lia; ring).
           rewrite Wz by lia. unfold Rdiv. ring.
    + intros k i Hk Hi. rewrite D3 by lia. rewrite Rf. apply refl_ext; auto.
      intros l Hl. unfold pcol. change (q_ipvt st2 k) with (q_ipvt st1 k). rewrite A2 by lia. apply C5; auto; lia.
    + intros k Hk. unfold upd. destruct (Nat.eqb_spec k j); [lia|]. rewrite N3 by lia.
      apply enorm_ext. intros i Hi. symmetry. unfold pcol at 1. cbn [q_a q_ipvt]. rewrite ?I3. apply D3; lia.
Qed.

Lemma qr_loop_post : forall k m n A st j us, (n <= m)%nat -> (j + k = n)%nat -> qr_inv m n A st j us ->
  exists j' us', qr_post m n A (qr_loop m n (seq j k) st) j' us'.
Proof.
  induction k as [|k IH]; intros m n A st j us Hm Hjk Inv.
  - cbn. exists j, us. split; [exact Inv|]. split; [lia|]. intros; lia.
  - cbn [seq]. destruct (qr_stage m n A st j us (seq (S j) k)) as [H|[u [st' [H E]]]]; auto; try lia.
    + exists j, us. exact H.
    + rewrite E. apply (IH m n A st' (S j) (us ++ [u])); auto. lia.
Qed.

Lemma qrfac_post : forall m n A, (n <= m)%nat -> exists j us, qr_post m n A (qrfac m n A) j us.
Proof.
  intros m n A Hm. unfold qrfac. rewrite Nat.min_r by auto.
  apply (qr_loop_post n m n A _ 0%nat []); auto.
  split; [reflexivity|]. split; [exact Logic.I|]. cbn [q_ipvt q_a q_rdiag].
  split; [apply is_perm_id|]. split; [intros; lia|]. split.
  - intros. reflexivity.
  - intros k Hk. reflexivity.
Qed.

(* ---------------------------------------------------------------- (q transpose) * fvec *)

Lemma firstn_nth : forall (us : list vec) j, (j < length us)%nat ->
  firstn (S j) us = firstn j us ++ [nth j us (fun _ => 0)].
Proof.
  induction us as [|u us IH]; intros j H; cbn in H; [lia|].
  destruct j; cbn; auto. f_equal. apply IH. lia.
Qed.

Lemma reflectors_nth : forall us m j k, reflectors m j us -> (k < length us)%nat ->
  reflector m (j + k) (nth k us (fun _ => 0)).
Proof.
  induction us as [|u us IH]; intros m j k H Hk; cbn in Hk; [lia|]. destruct H as [Hu H].
  destruct k; cbn; [now rewrite Nat.add_0_r|].
  replace (j + S k)%nat with (S j + k)%nat by lia. apply IH; auto. lia.
Qed.

Lemma qtf_fold : forall m n A st j0 us f, (n <= m)%nat -> qr_post m n A st j0 us ->
  let '(a, w) := fold_left (qtf_step m (q_ipvt st) (q_rdiag st)) (seq 0 n) (q_a st, f) in
  (forall i, (i < m)%nat -> w i = refls m 0 us f i) /\
  (forall i c, (c < n)%nat -> a i (q_ipvt st c) = if Nat.eqb i c then q_rdiag st c else q_a st i (q_ipvt st c)).
Proof.
  intros m n A st j0 us f Hm ((L & Rs & P & C4 & C5 & C6) & Hj0 & Z).
  set (Q := fun j (s : mat * vec) =>
    (forall i, (i < m)%nat -> snd s i = refls m 0 (firstn j us) f i) /\
    (forall i c, (c < n)%nat -> fst s i (q_ipvt st c) =
       if Nat.eqb i c && Nat.ltb c j then q_rdiag st c else q_a st i (q_ipvt st c))).
  assert (Q n (fold_left (qtf_step m (q_ipvt st) (q_rdiag st)) (seq 0 n) (q_a st, f))) as K.
  { apply fold_seq_inv0.
    - split; [reflexivity|]. intros i c Hc. cbn [fst]. destruct (Nat.eqb i c), (Nat.ltb_spec c 0); try lia; reflexivity.
    - intros j [a w] Hj [Qw Qa]. cbn [fst snd] in Qw, Qa. unfold qtf_step.
      assert (forall i, a i (q_ipvt st j) = q_a st i (q_ipvt st j)) as Ac.
      { intros i. rewrite Qa by auto. destruct (Nat.eqb i j), (Nat.ltb_spec j j); try lia; reflexivity. }
      split; cbn [fst snd].
      + intros i Hi. destruct (Nat.lt_ge_cases j j0) as [Hlt|Hge].
        * assert (forall i, (j <= i < m)%nat -> a i (q_ipvt st j) = nth j us (fun _ => 0) i) as Au.
          { intros k Hk. rewrite Ac. destruct (C4 j k) as [G _]; [lia|lia|]. rewrite G.
            destruct (Nat.ltb_spec k j); [lia|reflexivity]. }
          pose proof (reflectors_nth us m 0 j Rs ltac:(lia)) as Ru. rewrite Nat.add_0_l in Ru.
          set (u := nth j us (fun _ => 0)) in *.
          rewrite firstn_nth by lia. fold u. rewrite refls_app. rewrite firstn_length, Nat.min_l, Nat.add_0_l by lia.
          cbn [refls]. destruct Ru as (Rm & R0 & R2).
          destruct (Req_EM_T (a j (q_ipvt st j)) 0) as [E|E]; [rewrite Au in E by lia; contradiction|].
          unfold refl. destruct (Nat.leb_spec j i) as [Hji|Hji]; [|apply Qw; auto].
          rewrite Au, (Au j), Qw by lia.
          rewrite (ssum_ext j m (fun k => a k (q_ipvt st j) * w k) (fun k => refls m 0 (firstn j us) f k * u k)); auto.
          intros k Hk. rewrite Au, Qw by lia. ring.
        * assert (a j (q_ipvt st j) = 0) as E by (rewrite Ac; apply Z; lia).
          destruct (Req_EM_T (a j (q_ipvt st j)) 0) as [_|N]; [|contradiction].
          rewrite Qw by auto. rewrite !firstn_all2 by lia. reflexivity.
      + intros i c Hc. unfold upd2.
        destruct (Nat.eqb_spec i j) as [->|Nij], (Nat.eqb_spec (q_ipvt st c) (q_ipvt st j)) as [F|F]; cbn [andb].
        * apply (is_perm_inj n) in F; auto. subst c. rewrite Nat.eqb_refl.
          destruct (Nat.ltb_spec j (S j)); [reflexivity|lia].
        * rewrite Qa by auto. destruct (Nat.eqb_spec j c) as [->|]; [congruence|reflexivity].
        * apply (is_perm_inj n) in F; auto. subst c. rewrite Qa by auto.
          destruct (Nat.eqb_spec i j); [contradiction|reflexivity].
        * rewrite Qa by auto. destruct (Nat.eqb_spec i c) as [->|]; [|reflexivity]. cbn [andb].
          destruct (Nat.ltb_spec c j), (Nat.ltb_spec c (S j)); auto; lia. }
  destruct (fold_left (qtf_step m (q_ipvt st) (q_rdiag st)) (seq 0 n) (q_a st, f)) as [a w].
  destruct K as [Kw Ka]. cbn [fst snd] in Kw, Ka. split.
  - intros i Hi. rewrite Kw by auto. now rewrite firstn_all2 by lia.
  - intros i c Hc. rewrite Ka by auto. destruct (Nat.eqb i c); auto. cbn [andb].
    destruct (Nat.ltb_spec c n); [reflexivity|lia].
Qed.

(** the triangle of R *)
Definition up (r : mat) : mat := fun i j => if Nat.leb i j then r i j else 0.

Record factored (m n : nat) (A : mat) (f : vec) (ipvt : nat -> nat) (r : mat) (qtf : vec) : Prop := mk_factored {
  f_perm : is_perm n ipvt;
  f_gram : forall a b, (a < n)%nat -> (b < n)%nat ->
    ssum 0 n (fun i => up r i a * up r i b) = gram m A (ipvt a) (ipvt b);
  f_qtf : forall a, (a < n)%nat -> ssum 0 n (fun i => up r i a * qtf i) = dot m (column A (ipvt a)) f }.

Lemma qr_correct : forall m n A f, (n <= m)%nat ->
  let q := qrfac m n A in let '(r, qtf) := r_qtf m n q f in factored m n A f (q_ipvt q) r qtf.
Proof.
  intros m n A f Hm q. destruct (qrfac_post m n A Hm) as [j0 [us Post]]. fold q in Post.
  pose proof (qtf_fold m n A q j0 us f Hm Post) as K. unfold r_qtf.
  destruct (fold_left (qtf_step m (q_ipvt q) (q_rdiag q)) (seq 0 n) (q_a q, f)) as [a w].
  destruct K as [Kw Ka]. destruct Post as ((L & Rs & P & C4 & C5 & C6) & Hj0 & Z).
  set (W := fun c => refls m 0 us (column A (q_ipvt q c))).
  assert (forall c i, (c < n)%nat -> (i < m)%nat -> up (fun i c => a i (q_ipvt q c)) i c = W c i) as UW.
  { intros c i Hc Hi. unfold up. destruct (Nat.lt_ge_cases c j0) as [Hlt|Hge].
    - destruct (C4 c i Hlt Hi) as (G1 & G2 & G3). fold (W c) in G1, G2, G3.
      destruct (Nat.leb_spec i c) as [Hic|Hic]; [|symmetry; auto].
      rewrite Ka by auto. destruct (Nat.eqb_spec i c) as [->|]; [auto|].
      rewrite G1. destruct (Nat.ltb_spec i c); [reflexivity|lia].
    - assert (q_rdiag q c = 0) as Rz.
      { rewrite C6 by lia. unfold enorm. rewrite (ssum_0 j0 m); [apply sqrt_0|].
        intros k Hk. unfold pcol. rewrite Z by lia. ring. }
      assert (forall i, (i < m)%nat -> q_a q i (q_ipvt q c) = W c i) as G by (intros; apply C5; lia).
      destruct (Nat.leb_spec i c) as [Hic|Hic].
      + rewrite Ka by auto. destruct (Nat.eqb_spec i c) as [->|]; [|auto].
        rewrite Rz, <- G by auto. symmetry. apply Z; lia.
      + rewrite <- G by auto. symmetry. apply Z; lia. }
  assert (forall c i, (c < n)%nat -> (c < i < m)%nat -> W c i = 0) as Wz.
  { intros c i Hc Hi. rewrite <- UW by lia. unfold up. destruct (Nat.leb_spec i c); [lia|reflexivity]. }
  split; [exact P| |].
  - intros c d Hc Hd.
    rewrite (ssum_ext 0 n _ (fun i => W c i * W d i)) by (intros i Hi; rewrite !UW by lia; reflexivity).
    unfold gram, dot. rewrite total_ssum. rewrite <- (refls_dot us m 0 _ _ Rs).
    rewrite (ssum_split 0 n m) by lia. rewrite (ssum_0 n m).
    + unfold W. ring.
    + intros i Hi. fold (W c). rewrite Wz by lia. ring.
  - intros c Hc.
    rewrite (ssum_ext 0 n _ (fun i => W c i * refls m 0 us f i)).
    2:{ intros i Hi. rewrite UW, Kw by lia. reflexivity. }
    unfold dot. rewrite total_ssum. rewrite <- (refls_dot us m 0 _ _ Rs).
    rewrite (ssum_split 0 n m) by lia. rewrite (ssum_0 n m).
    + unfold W. ring.
    + intros i Hi. fold (W c). rewrite Wz by lia. ring.
Qed.
