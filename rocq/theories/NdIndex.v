(** Multi-dimensional indexing of numpy arrays: elements by index lists, arrays
    given by an index function, numpy.moveaxis and slicing along every axis. *)
From Coq Require Import List Arith Lia PeanoNat ZArith.
From Verif Require Import NdArray PyList.
Import ListNotations.

(** Flat position of an index list (C order). *)
Fixpoint ravel (sh idx : list nat) : nat :=
  match sh, idx with
  | _ :: t, i :: is => i * prodn t + ravel t is
  | _, _ => 0
  end.

(** An index list that is inside a shape. *)
Definition valid (sh idx : list nat) : Prop := Forall2 lt idx sh.

(** a[i, j, ...] *)
Definition at_nd {A} (d : A) (a : nd A) (idx : list nat) : A := nth (ravel (shape a) idx) (flat a) d.

(** All index lists of a shape, in C order. *)
Fixpoint indices (sh : list nat) : list (list nat) :=
  match sh with
  | [] => [[]]
  | n :: t => flat_map (fun i => map (cons i) (indices t)) (seq 0 n)
  end.

(** The array with a given shape and element function. *)
Definition tab_nd {A} (sh : list nat) (f : list nat -> A) : nd A := mk_nd sh (map f (indices sh)).

(** list.insert(k, x) and del l[k] for 0 <= k <= len *)
Definition insert_at {A} (k : nat) (x : A) (l : list A) : list A := firstn k l ++ x :: skipn k l.
Definition delete_at {A} (k : nat) (l : list A) : list A := firstn k l ++ skipn (S k) l.

(** numpy.moveaxis(a, src, dst): axis src is taken out and put back so that it
    is axis dst; the others keep their order. *)
Definition moveaxis {A} (d : A) (a : nd A) (src dst : nat) : nd A :=
  tab_nd (insert_at dst (nth src (shape a) 0) (delete_at src (shape a)))
    (fun idx => at_nd d a (insert_at src (nth dst idx 0) (delete_at dst idx))).

(** a[b0:e0, b1:e1, ...], one pair of Python slice bounds for each axis. *)
Definition slice_ranges (sh : list nat) (bs : list (Z * Z)) : list (nat * nat) :=
  map (fun nb : nat * (Z * Z) =>
    let n := Z.of_nat (fst nb) in
    let b := Z.to_nat (py_bound n (fst (snd nb))) in
    let e := Z.to_nat (py_bound n (snd (snd nb))) in
    (b, e - b)) (combine sh bs).
Definition slice_nd {A} (d : A) (a : nd A) (bs : list (Z * Z)) : nd A :=
  let r := slice_ranges (shape a) bs in
  tab_nd (map snd r) (fun idx => at_nd d a (map (fun ib : nat * nat => fst ib + snd ib) (combine idx (map fst r)))).

(** ** Facts *)
Lemma Forall2_length : forall {A B} (R : A -> B -> Prop) l m, Forall2 R l m -> length l = length m.
Proof. induction 1; simpl; auto. Qed.

Lemma valid_length : forall sh idx, valid sh idx -> length idx = length sh.
Proof. intros sh idx H. apply Forall2_length in H. exact H. Qed.

Lemma valid_cons : forall n sh i idx, valid (n :: sh) (i :: idx) <-> i < n /\ valid sh idx.
Proof.
  intros. unfold valid. split; intro H; [inversion H; auto|destruct H; constructor; auto].
Qed.

Lemma valid_nil : valid [] [].
Proof. constructor. Qed.

Lemma valid_app : forall s1 s2 i1 i2, valid s1 i1 -> valid s2 i2 -> valid (s1 ++ s2) (i1 ++ i2).
Proof. intros. apply Forall2_app; auto. Qed.

Lemma ravel_lt : forall sh idx, valid sh idx -> ravel sh idx < prodn sh.
Proof.
  induction sh as [|n sh IH]; intros idx H; inversion H; subst; simpl; [lia|].
  apply IH in H4. change (fold_right Nat.mul 1 sh) with (prodn sh).
  assert (x * prodn sh + prodn sh <= n * prodn sh) by nia. lia.
Qed.

Lemma length_indices : forall sh, length (indices sh) = prodn sh.
Proof.
  induction sh as [|n sh IH]; simpl; auto.
  change (fold_right Nat.mul 1 sh) with (prodn sh).
  generalize 0 as s. induction n; intros; simpl; auto.
  rewrite app_length, map_length, IH, IHn. reflexivity.
Qed.

Lemma nth_indices : forall sh idx d, valid sh idx -> nth (ravel sh idx) (indices sh) d = idx.
Proof.
  induction sh as [|n sh IH]; intros idx d H; inversion H; subst; simpl; auto.
  assert (G : forall m s, x < s + m -> s <= x ->
    nth ((x - s) * prodn sh + ravel sh l) (flat_map (fun i => map (cons i) (indices sh)) (seq s m)) d = x :: l).
  { induction m; intros s A B; [lia|]. simpl.
    destruct (Nat.eq_dec x s) as [->|Hn].
    - rewrite Nat.sub_diag. simpl.
      assert (L := ravel_lt sh l H4).
      rewrite app_nth1 by (rewrite map_length, length_indices; exact L).
      rewrite nth_indep with (d' := s :: d) by (rewrite map_length, length_indices; exact L).
      rewrite map_nth, IH by assumption. reflexivity.
    - rewrite app_nth2; rewrite map_length, length_indices.
      + replace ((x - s) * prodn sh + ravel sh l - prodn sh) with ((x - S s) * prodn sh + ravel sh l).
        * apply IHm; lia.
        * replace (x - s) with (S (x - S s)) by lia. rewrite Nat.mul_succ_l. generalize ((x - S s) * prodn sh). intros; lia.
      + replace (x - s) with (S (x - S s)) by lia. rewrite Nat.mul_succ_l. generalize ((x - S s) * prodn sh). intros; lia. }
  specialize (G n 0). rewrite Nat.sub_0_r in G. apply G; lia.
Qed.

Lemma in_indices : forall sh idx, In idx (indices sh) <-> valid sh idx.
Proof.
  split.
  - revert idx. induction sh as [|n sh IH]; simpl; intros idx H.
    + destruct H as [<-|[]]. constructor.
    + apply in_flat_map in H. destruct H as (i & Hi & H). apply in_map_iff in H. destruct H as (t & <- & Ht).
      apply in_seq in Hi. constructor; [lia|]. apply IH, Ht.
  - intro H. rewrite <- (nth_indices sh idx [] H). apply nth_In. rewrite length_indices. apply ravel_lt, H.
Qed.

Lemma at_tab_nd : forall {A} (d : A) sh f idx, valid sh idx -> at_nd d (tab_nd sh f) idx = f idx.
Proof.
  intros. unfold at_nd, tab_nd. simpl.
  rewrite nth_indep with (d' := f []) by (rewrite map_length, length_indices; apply ravel_lt; assumption).
  rewrite map_nth. f_equal. apply nth_indices, H.
Qed.

Lemma wf_tab_nd : forall {A} sh (f : list nat -> A), wf_nd (tab_nd sh f).
Proof. intros. unfold wf_nd, tab_nd. simpl. rewrite map_length, length_indices. reflexivity. Qed.

(** A flat position is the position of exactly one index list. *)
Fixpoint unravel (sh : list nat) (k : nat) : list nat :=
  match sh with [] => [] | n :: t => (k / prodn t) :: unravel t (k mod prodn t) end.

Lemma unravel_valid : forall sh k, k < prodn sh -> valid sh (unravel sh k) /\ ravel sh (unravel sh k) = k.
Proof.
  induction sh as [|n sh IH]; simpl; intros k Hk.
  - change (fold_right Nat.mul 1 []) with 1 in Hk. split; [constructor|lia].
  - change (fold_right Nat.mul 1 sh) with (prodn sh) in *.
    assert (P : prodn sh <> 0) by (intro E; rewrite E in Hk; lia).
    destruct (IH (k mod prodn sh)) as [V E]; [apply Nat.mod_upper_bound, P|].
    split.
    + constructor; auto. apply Nat.div_lt_upper_bound; lia.
    + rewrite E. rewrite (Nat.div_mod k (prodn sh)) at 3 by exact P. lia.
Qed.

Lemma ravel_inj : forall sh a b, valid sh a -> valid sh b -> ravel sh a = ravel sh b -> a = b.
Proof.
  intros sh a b Ha Hb E. rewrite <- (nth_indices sh a [] Ha), <- (nth_indices sh b [] Hb), E. reflexivity.
Qed.

Lemma nd_ext : forall {A} (d : A) (a b : nd A), wf_nd a -> wf_nd b -> shape a = shape b ->
  (forall idx, valid (shape a) idx -> at_nd d a idx = at_nd d b idx) -> a = b.
Proof.
  intros A d [sa fa] [sb fb] Wa Wb. unfold wf_nd, at_nd in *. simpl in *. intros <- H. f_equal.
  apply nth_ext with (d := d) (d' := d); [congruence|].
  intros k Hk. destruct (unravel_valid sa k) as [V E]; [lia|]. rewrite <- E. apply H, V.
Qed.

Lemma prodn_app : forall a b, prodn (a ++ b) = prodn a * prodn b.
Proof. induction a; intros; simpl; [lia|]. change (fold_right Nat.mul 1 (a0 ++ b)) with (prodn (a0 ++ b)). rewrite IHa. unfold prodn. lia. Qed.

Lemma length_insert_at : forall {A} k (x : A) l, k <= length l -> length (insert_at k x l) = S (length l).
Proof.
  intros. unfold insert_at. rewrite app_length. simpl. rewrite firstn_length, skipn_length. lia.
Qed.
Lemma length_delete_at : forall {A} k (l : list A), k < length l -> length (delete_at k l) = length l - 1.
Proof.
  intros. unfold delete_at. rewrite app_length, firstn_length, skipn_length. lia.
Qed.

(** Splitting a list at position k makes insertion and deletion plain. *)
Lemma split_at : forall {A} k (l : list A), k < length l -> exists a x b, l = a ++ x :: b /\ length a = k.
Proof.
  induction k; intros [|y l] H; simpl in H; try lia.
  - exists [], y, l. auto.
  - destruct (IHk l) as (a & x & b & E & L); [lia|]. exists (y :: a), x, b. simpl. subst. auto.
Qed.
Lemma split_le : forall {A} k (l : list A), k <= length l -> exists a b, l = a ++ b /\ length a = k.
Proof. intros. exists (firstn k l), (skipn k l). rewrite firstn_skipn, firstn_length. split; auto. lia. Qed.

Lemma insert_at_app : forall {A} (a b : list A) x k, length a = k -> insert_at k x (a ++ b) = a ++ x :: b.
Proof.
  intros A a b x k <-. unfold insert_at.
  rewrite firstn_app, firstn_all, Nat.sub_diag, skipn_app, skipn_all, Nat.sub_diag. simpl. rewrite app_nil_r. reflexivity.
Qed.
Lemma delete_at_app : forall {A} (a b : list A) x k, length a = k -> delete_at k (a ++ x :: b) = a ++ b.
Proof.
  intros A a b x k <-. unfold delete_at.
  rewrite firstn_app, firstn_all, Nat.sub_diag. simpl firstn at 1. rewrite app_nil_r. f_equal.
  rewrite skipn_app. rewrite skipn_all2 by lia. replace (S (length a) - length a) with 1 by lia. reflexivity.
Qed.
Lemma nth_mid : forall {A} (a b : list A) x k d, length a = k -> nth k (a ++ x :: b) d = x.
Proof. intros A a b x k d <-. apply nth_middle. Qed.

(** moveaxis, described: the value moves with its index along the axis. *)
Lemma moveaxis_shape : forall {A} (d : A) (a : nd A) src dst,
  shape (moveaxis d a src dst) = insert_at dst (nth src (shape a) 0) (delete_at src (shape a)).
Proof. reflexivity. Qed.

Lemma valid_insert : forall k n i sh idx, k <= length sh -> valid sh idx -> i < n ->
  valid (insert_at k n sh) (insert_at k i idx).
Proof.
  intros k n i sh idx Hk V Hi.
  assert (L := valid_length _ _ V).
  destruct (split_le k sh Hk) as (s1 & s2 & -> & L1).
  apply Forall2_app_inv_r in V. destruct V as (i1 & i2 & V1 & V2 & ->).
  rewrite !insert_at_app by (apply Forall2_length in V1; lia).
  apply Forall2_app; auto.
Qed.

Lemma valid_delete : forall k sh idx, k < length sh -> valid sh idx ->
  valid (delete_at k sh) (delete_at k idx) /\ nth k idx 0 < nth k sh 0.
Proof.
  intros k sh idx Hk V.
  destruct (split_at k sh Hk) as (s1 & n & s2 & -> & L1).
  apply Forall2_app_inv_r in V. destruct V as (i1 & i2 & V1 & V2 & ->).
  inversion V2; subst. assert (length i1 = length s1) by (apply Forall2_length in V1; exact V1).
  rewrite !delete_at_app by auto. rewrite !nth_mid by auto.
  split; [apply Forall2_app; auto|assumption].
Qed.

Lemma insert_delete : forall {A} k (l : list A) d, k < length l -> insert_at k (nth k l d) (delete_at k l) = l.
Proof.
  intros A k l d H. destruct (split_at k l H) as (a & x & b & -> & L).
  rewrite delete_at_app, nth_mid, insert_at_app by assumption. reflexivity.
Qed.
Lemma delete_insert : forall {A} k (x : A) l, k <= length l -> delete_at k (insert_at k x l) = l.
Proof.
  intros A k x l H. destruct (split_le k l H) as (a & b & -> & L).
  rewrite insert_at_app, delete_at_app by assumption. reflexivity.
Qed.
Lemma nth_insert : forall {A} k (x : A) l d, k <= length l -> nth k (insert_at k x l) d = x.
Proof.
  intros A k x l d H. destruct (split_le k l H) as (a & b & -> & L).
  rewrite insert_at_app, nth_mid by assumption. reflexivity.
Qed.

Lemma moveaxis_at : forall {A} (d : A) (a : nd A) src dst idx, src < length (shape a) -> dst < length (shape a) ->
  valid (shape a) idx ->
  at_nd d (moveaxis d a src dst) (insert_at dst (nth src idx 0) (delete_at src idx)) = at_nd d a idx.
Proof.
  intros A d a src dst idx Hs Hd V.
  assert (L := valid_length _ _ V).
  destruct (valid_delete src _ _ Hs V) as [V' Hn].
  assert (Ld : dst <= length (delete_at src idx)) by (rewrite length_delete_at; lia).
  assert (Ld' : dst <= length (delete_at src (shape a))) by (rewrite length_delete_at; lia).
  unfold moveaxis. rewrite at_tab_nd by (apply valid_insert; assumption).
  rewrite nth_insert by exact Ld. rewrite delete_insert by exact Ld.
  rewrite insert_delete by lia. reflexivity.
Qed.

(** Dropping the axes of length one changes neither the elements nor their
    order. *)
Fixpoint squeeze_idx (sh idx : list nat) : list nat :=
  match sh, idx with
  | n :: t, i :: is => if Nat.eqb n 1 then squeeze_idx t is else i :: squeeze_idx t is
  | _, _ => []
  end.

Lemma ravel_squeeze : forall sh idx, valid sh idx ->
  ravel (filter (fun d => negb (Nat.eqb d 1)) sh) (squeeze_idx sh idx) = ravel sh idx.
Proof.
  induction sh as [|n sh IH]; intros idx V; inversion V; subst; simpl; auto.
  destruct (Nat.eqb_spec n 1) as [->|Hn]; simpl.
  - rewrite IH by assumption. assert (x = 0) by lia. subst. reflexivity.
  - rewrite IH by assumption. rewrite prodn_squeeze. reflexivity.
Qed.

Lemma squeeze_at : forall {A} (d : A) (a : nd A) idx, valid (shape a) idx ->
  at_nd d (squeeze a) (squeeze_idx (shape a) idx) = at_nd d a idx.
Proof. intros. unfold at_nd, squeeze. simpl. rewrite ravel_squeeze by assumption. reflexivity. Qed.

Lemma squeeze_idx_valid : forall sh idx, valid sh idx ->
  valid (filter (fun d => negb (Nat.eqb d 1)) sh) (squeeze_idx sh idx).
Proof.
  induction sh as [|n sh IH]; intros idx V; inversion V; subst; simpl; [constructor|].
  destruct (Nat.eqb_spec n 1); simpl; [apply IH; assumption|constructor; auto; apply IH; assumption].
Qed.

(** Slices with bounds inside the axis. *)
Lemma py_bound_mid : forall n x, (0 <= x <= n)%Z -> py_bound n x = x.
Proof.
  intros n x H. unfold py_bound. cbv zeta. destruct (Z.ltb_spec x 0); [lia|].
  destruct (Z.ltb_spec x 0); [lia|]. destruct (Z.ltb_spec n x); lia.
Qed.
Lemma py_bound_high : forall n x, (0 <= n <= x)%Z -> py_bound n x = n.
Proof.
  intros n x H. unfold py_bound. cbv zeta. destruct (Z.ltb_spec x 0); [lia|].
  destruct (Z.ltb_spec x 0); [lia|]. destruct (Z.ltb_spec n x); lia.
Qed.

Lemma slice_nd_at : forall {A} (d : A) (a : nd A) bs idx,
  valid (map snd (slice_ranges (shape a) bs)) idx ->
  at_nd d (slice_nd d a bs) idx =
  at_nd d a (map (fun ib : nat * nat => fst ib + snd ib) (combine idx (map fst (slice_ranges (shape a) bs)))).
Proof. intros. unfold slice_nd. cbv zeta. rewrite at_tab_nd by assumption. reflexivity. Qed.
