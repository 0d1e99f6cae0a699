(** numpy arrays in C order: a shape and the flat list of elements.
    reshape, squeeze and expand_dims then only change the shape. *)
From Coq Require Import List Arith Lia PeanoNat.
Import ListNotations.

Record nd (A : Type) := mk_nd { shape : list nat; flat : list A }.
Arguments mk_nd {A} _ _.
Arguments shape {A} _.
Arguments flat {A} _.

Definition prodn (s : list nat) : nat := fold_right Nat.mul 1 s.

(** A well-formed array has as many elements as its shape says. *)
Definition wf_nd {A} (a : nd A) : Prop := length (flat a) = prodn (shape a).

(** numpy.squeeze: drop axes of length one. *)
Definition squeeze {A} (a : nd A) : nd A :=
  mk_nd (filter (fun d => negb (Nat.eqb d 1)) (shape a)) (flat a).

(** Element (i,j) of an array seen as rows of length [m] (C order). *)
Definition at2 {A} (m : nat) (d : A) (l : list A) (i j : nat) : A := nth (i * m + j) l d.

(** The flat list of an n x m array given by an index function. *)
Definition tab2 {A} (n m : nat) (f : nat -> nat -> A) : list A :=
  flat_map (fun i => map (f i) (seq 0 m)) (seq 0 n).

Lemma prodn_squeeze : forall s, prodn (filter (fun d => negb (Nat.eqb d 1)) s) = prodn s.
Proof.
  induction s as [|d s IH]; simpl; auto. destruct (Nat.eqb_spec d 1); simpl; subst; lia.
Qed.

Lemma length_tab2 : forall {A} n m (f : nat -> nat -> A), length (tab2 n m f) = n * m.
Proof.
  intros A n m f. unfold tab2. generalize 0 at 2 as s.
  induction n; intros; simpl; auto. rewrite app_length, map_length, seq_length, IHn. reflexivity.
Qed.

Lemma nth_map_seq : forall {A} (f : nat -> A) s n k d, k < n -> nth k (map f (seq s n)) d = f (s + k).
Proof.
  intros. rewrite nth_indep with (d' := f 0) by (rewrite map_length, seq_length; lia).
  rewrite map_nth, seq_nth by lia. reflexivity.
Qed.

Lemma at2_tab2 : forall {A} n m (f : nat -> nat -> A) d i j,
  i < n -> j < m -> at2 m d (tab2 n m f) i j = f i j.
Proof.
  intros A n m f d i j Hi Hj. unfold at2, tab2.
  assert (G : forall s i, i < n ->
    nth (i * m + j) (flat_map (fun i => map (f i) (seq 0 m)) (seq s n)) d = f (s + i) j).
  { clear i Hi. induction n as [|n IH]; intros s i Hi; [lia|]. simpl.
    destruct i as [|i].
    - simpl. rewrite app_nth1 by (rewrite map_length, seq_length; lia).
      rewrite nth_map_seq by lia. f_equal; lia.
    - rewrite app_nth2 by (rewrite map_length, seq_length; lia).
      rewrite map_length, seq_length.
      replace (S i * m + j - m) with (i * m + j) by lia.
      rewrite IH by lia. f_equal; lia. }
  apply (G 0 i Hi).
Qed.

Lemma tab2_ext : forall {A} n m (f g : nat -> nat -> A),
  (forall i j, i < n -> j < m -> f i j = g i j) -> tab2 n m f = tab2 n m g.
Proof.
  intros A n m f g H. unfold tab2. rewrite !flat_map_concat_map. f_equal.
  apply map_ext_in. intros i Hi. apply in_seq in Hi. apply map_ext_in. intros j Hj. apply in_seq in Hj.
  apply H; lia.
Qed.
