(** The covariance matrix (Mp_Model.calc_covar) is the inverse of J^T J. *)
From Coq Require Import Reals List Arith ZArith Bool Lra Lia Psatz Permutation.
From Verif Require Import PyRes CBase PyList Mp_Model Mp_Spec Mp_Sums Mp_QR Mp_Solve Mp_Givens Mp_Step.
Import ListNotations.
Local Open Scope R_scope.

(** ---------- the inverse of the triangle *)

Lemma cov_inv_col_spec : forall k r, r k k <> 0 ->
  (forall i, (i < k)%nat -> cov_inv_col k r i k = - (1 / r k k * ssum i k (fun j => r j k * r i j))) /\
  cov_inv_col k r k k = 1 / r k k /\
  (forall i c, c <> k -> cov_inv_col k r i c = r i c).
Proof.
  intros k r Hr. unfold cov_inv_col.
  set (step := fun r j => _).
  pose proof (fold_seq_inv0 (fun l (s : mat) =>
    (forall i, (i < l)%nat -> s i k = - (1 / r k k * ssum i l (fun j => r j k * r i j))) /\
    (forall i, (l <= i < k)%nat -> s i k = r i k) /\
    s k k = 1 / r k k /\ (forall i c, c <> k -> s i c = r i c)) step k (upd2 r k k (1 / r k k))) as K.
  cbv beta in K. destruct K as (K1 & K2 & K3 & K4).
  - repeat split.
    + intros; lia.
    + intros i Hi. unfold upd2. destruct (Nat.eqb_spec i k); [lia|reflexivity].
    + unfold upd2. now rewrite !Nat.eqb_refl.
    + intros i c Hc. unfold upd2. destruct (Nat.eqb_spec c k); [contradiction|]. now rewrite andb_false_r.
  - intros j s Hj (S1 & S2 & S3 & S4). set (s' := step s j).
    assert (forall i c, s' i c = if Nat.eqb c k && Nat.leb i j then upd2 s j k 0 i k - s k k * s j k * upd2 s j k 0 i j else upd2 s j k 0 i c) as E by reflexivity.
    clearbody s'.
    assert (forall i c, c <> k -> upd2 s j k 0 i c = r i c) as U.
    { intros i c Hc. unfold upd2. destruct (Nat.eqb_spec c k); [contradiction|]. rewrite andb_false_r. auto. }
    split; [|split; [|split]].
    + intros i Hi. rewrite E, Nat.eqb_refl. destruct (Nat.leb_spec i j); [|lia]. cbn [andb].
      rewrite (U i j) by lia. rewrite S3, (S2 j) by lia. unfold upd2. rewrite Nat.eqb_refl, andb_true_r.
      destruct (Nat.eqb_spec i j) as [->|].
      * rewrite ssum_one. ring.
      * rewrite ssum_last by lia. rewrite S1 by lia. ring.
    + intros i Hi. rewrite E, Nat.eqb_refl. destruct (Nat.leb_spec i j); [lia|]. cbn [andb].
      unfold upd2. destruct (Nat.eqb_spec i j); [lia|]. cbn [andb]. apply S2. lia.
    + rewrite E, Nat.eqb_refl. destruct (Nat.leb_spec k j); [lia|]. cbn [andb].
      unfold upd2. destruct (Nat.eqb_spec k j); [lia|]. cbn [andb]. auto.
    + intros i c Hc. rewrite E. destruct (Nat.eqb_spec c k); [contradiction|]. cbn [andb]. apply U; auto.
  - split; [|split]; auto.
Qed.

Lemma cov_inv_spec : forall t n k tolr R0 r, (k + t = n)%nat -> 0 <= tolr -> (forall i, (i < n)%nat -> tolr < Rabs (R0 i i)) ->
  (forall i c, (i <= c < k)%nat -> ssum i (S c) (fun j => r i j * R0 j c) = if Nat.eqb i c then 1 else 0) ->
  (forall i c, (k <= c)%nat -> r i c = R0 i c) ->
  let '(V, done) := cov_inv tolr (seq k t) r k in
  done = n /\ forall i c, (i <= c < n)%nat -> ssum i (S c) (fun j => V i j * R0 j c) = if Nat.eqb i c then 1 else 0.
Proof.
  induction t as [|t IH]; intros n k tolr R0 r Hk H0 Ht H1 H2; cbn [seq cov_inv].
  - split; [lia|]. intros i c Hc. apply H1. lia.
  - destruct (Rle_dec _ _) as [L|_].
    { exfalso. rewrite H2 in L by lia. specialize (Ht k ltac:(lia)). lra. }
    assert (r k k <> 0) as Hr.
    { rewrite H2 by lia. specialize (Ht k ltac:(lia)). intros E. rewrite E, Rabs_R0 in Ht. lra. }
    destruct (cov_inv_col_spec k r Hr) as (C1 & C2 & C3).
    apply (IH n (S k) tolr R0 (cov_inv_col k r)); auto.
    + lia.
    + intros i c Hc. destruct (Nat.eq_dec c k) as [->|].
      * rewrite ssum_last by lia. destruct (Nat.eqb_spec i k) as [->|].
        -- rewrite ssum_empty by lia. rewrite C2, <- (H2 k k) by lia. field. auto.
        -- rewrite C1 by lia.
           rewrite (ssum_ext i k _ (fun j => r j k * r i j)).
           2:{ intros j Hj. rewrite C3 by lia. rewrite <- (H2 j k) by lia. ring. }
           rewrite <- (H2 k k) by lia. field. auto.
      * rewrite (ssum_ext i (S c) _ (fun j => r i j * R0 j c)).
        -- apply H1. lia.
        -- intros j Hj. rewrite C3 by lia. reflexivity.
    + intros i c Hc. rewrite C3 by lia. apply H2. lia.
Qed.

(** ---------- V V^T *)

Lemma cov_mul_spec : forall n V, let s := fold_left cov_mul_col (seq 0 n) V in
  forall i j, (i <= j < n)%nat -> s i j = ssum j n (fun l => V i l * V j l).
Proof.
  intros n V s.
  pose proof (fold_seq_inv0 (fun k (s : mat) =>
    (forall i j, (i <= j < k)%nat -> s i j = ssum j k (fun l => V i l * V j l)) /\
    (forall i j, (k <= j)%nat -> s i j = V i j)) cov_mul_col n V) as K.
  cbv beta in K. destruct K as [K _]; [| |exact K].
  - split; [intros; lia|auto].
  - clear s. intros k s Hk [S1 S2]. unfold cov_mul_col.
    set (step := fun (r : mat) (j : nat) => let temp := r j k in fun i c => if Nat.eqb c j && Nat.leb i j then r i j + temp * r i k else r i c).
    pose proof (fold_seq_inv0 (fun l (r : mat) =>
      (forall i j, (i <= j < l)%nat -> r i j = s i j + s j k * s i k) /\
      (forall i j, (l <= j)%nat -> r i j = s i j)) step k s) as K.
    cbv beta in K.
    destruct K as [K1 K2].
    + split; [intros; lia|auto].
    + intros j r Hj [A1 A2]. set (r' := step r j).
      assert (forall i c, r' i c = if Nat.eqb c j && Nat.leb i j then r i j + r j k * r i k else r i c) as E by reflexivity.
      clearbody r'. split.
      * intros i c Hc. rewrite E. destruct (Nat.eqb_spec c j) as [->|].
        -- destruct (Nat.leb_spec i j); [|lia]. cbn [andb]. rewrite !A2 by lia. reflexivity.
        -- cbn [andb]. apply A1. lia.
      * intros i c Hc. rewrite E. destruct (Nat.eqb_spec c j); [lia|]. cbn [andb]. apply A2. lia.
    + set (r := fold_left step (seq 0 k) s) in *. split.
      * intros i j Hj. destruct (Nat.eqb_spec j k) as [->|].
        -- destruct (Nat.leb_spec i k); [|lia]. cbn [andb]. rewrite !K2, !S2 by lia. rewrite ssum_one. ring.
        -- cbn [andb]. rewrite K1 by lia. rewrite (S1 i j) by lia. rewrite !S2 by lia. rewrite ssum_last by lia. ring.
      * intros i j Hj. destruct (Nat.eqb_spec j k); [lia|]. cbn [andb]. rewrite K2 by lia. apply S2. lia.
Qed.

(** ---------- back into the order of the parameters *)

Definition lo (a b : nat) := Nat.min a b.

(** entry (a, b) with a > b after the pairs up to (i, j) have been placed *)
Lemma place_spec : forall n ipvt (C : mat), is_perm n ipvt ->
  let '(r, wa) := fold_left (fun s j => let '(r, wa) := s in
                     let r := fold_left (cov_place ipvt n j) (seq 0 (j + 1)) r in
                     (r, upd wa (ipvt j) (r j j))) (seq 0 n) (C, fun _ => C 0%nat 0%nat) in
  (forall i j, (i < j < n)%nat -> r (Nat.max (ipvt i) (ipvt j)) (Nat.min (ipvt i) (ipvt j)) = C i j) /\
  (forall j, (j < n)%nat -> wa (ipvt j) = C j j).
Proof.
  intros n ipvt C Hp.
  set (step := fun (s : mat * (nat -> R)) (j : nat) => let '(r, wa) := s in
                     let r := fold_left (cov_place ipvt n j) (seq 0 (j + 1)) r in
                     (r, upd wa (ipvt j) (r j j))).
  pose proof (fold_seq_inv0 (fun k (s : mat * (nat -> R)) =>
    (forall i j, (i < j < k)%nat -> fst s (Nat.max (ipvt i) (ipvt j)) (Nat.min (ipvt i) (ipvt j)) = C i j) /\
    (forall i j, (i <= j)%nat -> fst s i j = C i j) /\
    (forall j, (j < k)%nat -> snd s (ipvt j) = C j j)) step n (C, fun _ => C 0%nat 0%nat)) as K.
  cbv beta in K.
  destruct (fold_left step (seq 0 n) (C, fun _ => C 0%nat 0%nat)) as [r wa]. cbn [fst snd] in K.
  destruct K as (K1 & _ & K3); [| |split; auto].
  - repeat split; intros; lia.
  - clear r wa. intros j [r wa] Hj (A1 & A2 & A3). cbn [fst snd] in *. unfold step.
    pose proof (fold_seq_inv0 (fun l (s : mat) =>
      (forall i, (i < l)%nat -> (i < j)%nat -> s (Nat.max (ipvt i) (ipvt j)) (Nat.min (ipvt i) (ipvt j)) = C i j) /\
      (forall a b, (a < b < j)%nat -> s (Nat.max (ipvt a) (ipvt b)) (Nat.min (ipvt a) (ipvt b)) = C a b) /\
      (forall a b, (a <= b)%nat -> s a b = C a b)) (cov_place ipvt n j) (j + 1) r) as K.
    cbv beta in K.
    set (r' := fold_left (cov_place ipvt n j) (seq 0 (j + 1)) r) in *.
    destruct K as (K1 & K2 & K3).
    + split; [intros; lia|]. split; auto.
    + clear r'. intros i s Hi (B1 & B2 & B3).
      assert (forall x y, cov_place ipvt n j s i x y =
        if negb (Nat.eqb i j) && Nat.eqb x (Nat.max (ipvt i) (ipvt j)) && Nat.eqb y (Nat.min (ipvt i) (ipvt j)) then C i j else s x y) as E.
      { intros x y. unfold cov_place. destruct (Nat.leb_spec n j); [lia|].
        destruct (Nat.eqb_spec i j) as [->|Hij]; cbn [negb andb].
        - rewrite Nat.ltb_irrefl. reflexivity.
        - assert (ipvt i <> ipvt j) as Hne.
          { intros Q. apply Hij. apply (is_perm_inj n ipvt); auto; lia. }
          destruct (Nat.ltb_spec (ipvt j) (ipvt i)), (Nat.ltb_spec (ipvt i) (ipvt j)); try lia.
          + rewrite Nat.max_l, Nat.min_r by lia. unfold upd2. rewrite (B3 i j) by lia. reflexivity.
          + rewrite Nat.max_r, Nat.min_l by lia. unfold upd2. rewrite (B3 i j) by lia. reflexivity. }
      split; [|split].
      * intros i' Hi' Hj'. rewrite E. destruct (Nat.eqb_spec i j) as [->|]; cbn [negb andb]; [apply B1; lia|].
        destruct (Nat.eq_dec i' i) as [->|]; [now rewrite !Nat.eqb_refl|].
        destruct (Nat.eqb_spec (Nat.max (ipvt i') (ipvt j)) (Nat.max (ipvt i) (ipvt j))) as [Q1|],
                 (Nat.eqb_spec (Nat.min (ipvt i') (ipvt j)) (Nat.min (ipvt i) (ipvt j))) as [Q2|]; cbn [andb];
          try (apply B1; lia).
        exfalso. assert (ipvt i' = ipvt i) as Q by lia. apply (is_perm_inj n) in Q; auto; lia.
      * intros a b Hab. rewrite E. destruct (Nat.eqb_spec i j) as [->|]; cbn [negb andb]; [apply B2; lia|].
        destruct (Nat.eqb_spec (Nat.max (ipvt a) (ipvt b)) (Nat.max (ipvt i) (ipvt j))) as [Q1|],
                 (Nat.eqb_spec (Nat.min (ipvt a) (ipvt b)) (Nat.min (ipvt i) (ipvt j))) as [Q2|]; cbn [andb];
          try (apply B2; lia).
        exfalso.
        assert (ipvt a <> ipvt j) by (intros Q; apply (is_perm_inj n) in Q; auto; lia).
        assert (ipvt b <> ipvt j) by (intros Q; apply (is_perm_inj n) in Q; auto; lia).
        lia.
      * intros a b Hab. rewrite E. destruct (Nat.eqb_spec i j) as [->|Hij]; cbn [negb andb]; [apply B3; lia|].
        assert (ipvt i <> ipvt j) as Hne.
        { intros Q. apply Hij. apply (is_perm_inj n ipvt); auto; lia. }
        destruct (Nat.eqb_spec a (Nat.max (ipvt i) (ipvt j))), (Nat.eqb_spec b (Nat.min (ipvt i) (ipvt j))); cbn [andb]; try (apply B3; lia).
        exfalso. lia.
    + cbn [fst snd]. split; [|split].
      * intros i k Hik. destruct (Nat.eq_dec k j) as [->|]; [apply K1; lia|apply K2; lia].
      * auto.
      * intros k Hk. unfold upd. destruct (Nat.eqb_spec (ipvt k) (ipvt j)) as [Q|Q].
        -- assert (k = j) as -> by (apply (is_perm_inj n ipvt); auto; lia). apply K3. lia.
        -- apply A3. assert (k <> j) by congruence. lia.
Qed.

Lemma symmetrise_spec : forall n (r : mat) (wa : vec),
  let s := fold_left (fun r j => upd2 (fun i c => if Nat.eqb c j && Nat.leb i j then r j i else r i c) j j (wa j)) (seq 0 n) r in
  forall a b, (a < n)%nat -> (b < n)%nat -> s a b = if Nat.eqb a b then wa a else r (Nat.max a b) (Nat.min a b).
Proof.
  intros n r wa s.
  set (step := fun (r : mat) j => upd2 (fun i c => if Nat.eqb c j && Nat.leb i j then r j i else r i c) j j (wa j)) in *.
  pose proof (fold_seq_inv0 (fun k (t : mat) =>
    (forall a b, (a <= b < k)%nat -> t a b = if Nat.eqb a b then wa a else r b a) /\
    (forall a b, (b < a)%nat -> t a b = r a b)) step n r) as K.
  cbv beta in K. destruct K as [K1 K2].
  - split; [intros; lia|auto].
  - intros j t Hj [T1 T2]. set (t' := step t j).
    assert (forall a b, t' a b = if Nat.eqb a j && Nat.eqb b j then wa j else if Nat.eqb b j && Nat.leb a j then t j a else t a b) as E by reflexivity.
    clearbody t'. split.
    + intros a b Hab. rewrite E. destruct (Nat.eqb_spec b j) as [->|].
      * destruct (Nat.eqb_spec a j) as [->|]; cbn [andb]; [reflexivity|].
        destruct (Nat.leb_spec a j); [|lia]. apply T2. lia.
      * rewrite andb_false_r. cbn [andb]. apply T1. lia.
    + intros a b Hab. rewrite E. destruct (Nat.eqb_spec b j) as [->|].
      * destruct (Nat.eqb_spec a j), (Nat.leb_spec a j); cbn [andb]; try lia. auto.
      * rewrite andb_false_r. cbn [andb]. auto.
  - fold s in K1, K2. intros a b Ha Hb. destruct (Nat.le_gt_cases a b) as [L|L].
    + rewrite K1 by lia. rewrite Nat.max_r, Nat.min_l by lia. reflexivity.
    + rewrite K2 by lia. destruct (Nat.eqb_spec a b); [lia|]. rewrite Nat.max_l, Nat.min_r by lia. reflexivity.
Qed.

(** ---------- together *)

(** a left inverse of a triangle is a right inverse *)
Lemma triangle_inverse : forall n (T V : mat), (forall i, (i < n)%nat -> T i i <> 0) ->
  (forall i c, (i <= c < n)%nat -> ssum i (S c) (fun j => V i j * T j c) = if Nat.eqb i c then 1 else 0) ->
  forall i b, (i < n)%nat -> (b < n)%nat -> ssum 0 n (fun c => up T i c * up V c b) = if Nat.eqb i b then 1 else 0.
Proof.
  intros n T V Hd H.
  assert (forall i c, (i < n)%nat -> (c < n)%nat -> ssum 0 n (fun j => up V i j * up T j c) = if Nat.eqb i c then 1 else 0) as L.
  { intros i c Hi Hc. destruct (Nat.le_gt_cases i c) as [Le|Gt].
    - rewrite (ssum_split 0 i n), (ssum_split i (S c) n) by lia.
      rewrite (ssum_0 0 i) by (intros j Hj; unfold up; destruct (Nat.leb_spec i j); [lia|ring]).
      rewrite (ssum_0 (S c) n) by (intros j Hj; unfold up; destruct (Nat.leb_spec j c); [lia|ring]).
      rewrite <- H by lia. rewrite Rplus_0_l, Rplus_0_r. apply ssum_ext. intros j Hj. unfold up.
      destruct (Nat.leb_spec i j), (Nat.leb_spec j c); try lia. reflexivity.
    - rewrite ssum_0; [destruct (Nat.eqb_spec i c); [lia|reflexivity]|].
      intros j Hj. unfold up. destruct (Nat.leb_spec i j), (Nat.leb_spec j c); try lia; ring. }
  set (W := fun c b => solve_upper n T (fun i => if Nat.eqb i b then 1 else 0) c).
  assert (forall i b, (i < n)%nat -> ssum 0 n (fun c => up T i c * W c b) = if Nat.eqb i b then 1 else 0) as RW.
  { intros i b Hi. rewrite (ssum_split 0 i n) by lia.
    rewrite (ssum_0 0 i) by (intros j Hj; unfold up; destruct (Nat.leb_spec i j); [lia|ring]).
    rewrite Rplus_0_l. unfold W. rewrite <- (solve_upper_spec n T (fun i => if Nat.eqb i b then 1 else 0)) by auto.
    apply ssum_ext. intros c Hc. unfold up. destruct (Nat.leb_spec i c); [reflexivity|lia]. }
  assert (forall i b, (i < n)%nat -> (b < n)%nat -> up V i b = W i b) as VW.
  { intros i b Hi Hb.
    transitivity (ssum 0 n (fun a => up V i a * ssum 0 n (fun c => up T a c * W c b))).
    - rewrite (ssum_single 0 n b).
      + rewrite RW by auto. rewrite Nat.eqb_refl. ring.
      + lia.
      + intros a Ha Hab. rewrite RW by lia. destruct (Nat.eqb_spec a b); [contradiction|ring].
    - rewrite (ssum_ext 0 n _ (fun a => ssum 0 n (fun c => up V i a * up T a c * W c b))).
      2:{ intros a Ha. rewrite <- ssum_scal. apply ssum_ext. intros; ring. }
      rewrite ssum_swap. rewrite (ssum_single 0 n i).
      + rewrite ssum_scal_r, L by auto. rewrite Nat.eqb_refl. ring.
      + lia.
      + intros c Hc Hci. rewrite ssum_scal_r, L by lia. destruct (Nat.eqb_spec i c); [congruence|ring]. }
  intros i b Hi Hb. rewrite <- (RW i b) by auto. apply ssum_ext. intros c Hc. rewrite VW by lia. reflexivity.
Qed.

Lemma covariance_inverse : forall m n J f ipvt r qtf, factored m n J f ipvt r qtf ->
  independent (/ 10 ^ 14) m n J -> inverse_of n (gram m J) (calc_covar n r ipvt).
Proof.
  intros m n J f ipvt r qtf F I a0 b0 Ha0 Hb0.
  assert (0 < / 10 ^ 14) as Tp by (apply Rinv_0_lt_compat; apply pow_lt; lra).
  pose proof (diag_margin (/ 10 ^ 14) m n J f ipvt r qtf (Rlt_le _ _ Tp) F I) as Mg.
  pose proof (f_perm _ _ _ _ _ _ _ F) as Hp.
  assert (forall i, (i < n)%nat -> r i i <> 0) as Hd.
  { intros i Hi E. specialize (Mg i i Hi Hi). rewrite E, Rabs_R0 in Mg. lra. }
  unfold calc_covar.
  pose proof (cov_inv_spec n n 0 (/ 10 ^ 14 * Rabs (r 0%nat 0%nat)) r r ltac:(lia)
     ltac:(pose proof (Rabs_pos (r 0%nat 0%nat)); nra) ltac:(intros i Hi; apply Mg; lia) ltac:(intros; lia) ltac:(reflexivity)) as K.
  destruct (cov_inv (/ 10 ^ 14 * Rabs (r 0%nat 0%nat)) (seq 0 n) r 0) as [V done]. destruct K as [-> K].
  pose proof (cov_mul_spec n V) as M. cbv zeta in M. set (C := fold_left cov_mul_col (seq 0 n) V) in *.
  pose proof (place_spec n ipvt C Hp) as P.
  destruct (fold_left _ (seq 0 n) (C, fun _ => C 0%nat 0%nat)) as [p wa]. destruct P as [P1 P2].
  pose proof (symmetrise_spec n p wa) as Sy. cbv zeta in Sy.
  match type of Sy with context [@fold_left ?A ?B ?g (seq 0 n) p] => set (cv := @fold_left A B g (seq 0 n) p) in * end.
  clearbody cv.
  pose proof (triangle_inverse n r V Hd K) as RV.
  (* the entries of V V^T *)
  assert (forall i j, (i < n)%nat -> (j < n)%nat -> cv (ipvt i) (ipvt j) = ssum 0 n (fun l => up V i l * up V j l)) as Cv.
  { intros i j Hi Hj.
    assert (forall i j, (i <= j < n)%nat -> C i j = ssum 0 n (fun l => up V i l * up V j l)) as Cu.
    { intros x y Hxy. rewrite M by auto. rewrite (ssum_split 0 y n) by lia.
      rewrite (ssum_0 0 y) by (intros l Hl; unfold up; destruct (Nat.leb_spec y l); [lia|ring]).
      rewrite Rplus_0_l. apply ssum_ext. intros l Hl. unfold up.
      destruct (Nat.leb_spec x l), (Nat.leb_spec y l); try lia. reflexivity. }
    rewrite Sy by (apply is_perm_lt; auto).
    destruct (Nat.eqb_spec (ipvt i) (ipvt j)) as [Q|Q].
    - assert (i = j) as -> by (apply (is_perm_inj n ipvt); auto). rewrite P2 by auto. apply Cu. lia.
    - assert (i <> j) by congruence. destruct (Nat.lt_ge_cases i j) as [L|L].
      + rewrite P1 by lia. apply Cu. lia.
      + rewrite Nat.max_comm, Nat.min_comm. rewrite P1 by lia. rewrite Cu by lia. apply ssum_ext. intros; ring. }
  destruct (is_perm_surj n ipvt a0 Hp Ha0) as [a [Ha <-]].
  destruct (is_perm_surj n ipvt b0 Hp Hb0) as [b [Hb <-]].
  rewrite total_ssum.
  rewrite <- (ssum_perm n ipvt (fun k => gram m J (ipvt a) k * cv k (ipvt b)) Hp).
  rewrite (ssum_ext 0 n _ (fun c => ssum 0 n (fun i => up r i a * up r i c) * ssum 0 n (fun l => up V c l * up V b l))).
  2:{ intros c Hc. rewrite Cv, (f_gram _ _ _ _ _ _ _ F) by lia. reflexivity. }
  (* R^T (R V) V^T *)
  rewrite (ssum_ext 0 n _ (fun c => ssum 0 n (fun i => ssum 0 n (fun l => up r i a * up V b l * (up r i c * up V c l))))).
  2:{ intros c Hc. rewrite <- ssum_scal_r. apply ssum_ext. intros i Hi. rewrite <- ssum_scal. apply ssum_ext. intros; ring. }
  rewrite ssum_swap.
  rewrite (ssum_ext 0 n _ (fun i => up r i a * up V b i)).
  2:{ intros i Hi. rewrite ssum_swap. rewrite (ssum_single 0 n i).
      - rewrite ssum_scal, RV by lia. rewrite Nat.eqb_refl. ring.
      - lia.
      - intros l Hl Hli. rewrite ssum_scal, RV by lia. destruct (Nat.eqb_spec i l); [congruence|ring]. }
  (* V R = 1 *)
  replace (Nat.eqb (ipvt a) (ipvt b)) with (Nat.eqb b a).
  2:{ destruct (Nat.eqb_spec b a) as [->|Hab]; [now rewrite Nat.eqb_refl|].
      destruct (Nat.eqb_spec (ipvt a) (ipvt b)) as [Q|]; auto. apply (is_perm_inj n) in Q; auto; congruence. }
  destruct (Nat.le_gt_cases b a) as [Le|Gt].
  - rewrite <- (K b a) by lia. rewrite (ssum_split 0 b n), (ssum_split b (S a) n) by lia.
    rewrite (ssum_0 0 b) by (intros j Hj; unfold up at 2; destruct (Nat.leb_spec b j); [lia|ring]).
    rewrite (ssum_0 (S a) n) by (intros j Hj; unfold up at 1; destruct (Nat.leb_spec j a); [lia|ring]).
    rewrite Rplus_0_l, Rplus_0_r. apply ssum_ext. intros j Hj. unfold up.
    destruct (Nat.leb_spec b j), (Nat.leb_spec j a); try lia. ring.
  - rewrite ssum_0; [destruct (Nat.eqb_spec b a); [lia|reflexivity]|].
    intros j Hj. unfold up. destruct (Nat.leb_spec b j), (Nat.leb_spec j a); try lia; ring.
Qed.
