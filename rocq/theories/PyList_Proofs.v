(** Facts about the list operations of PyList. *)
From Coq Require Import Reals List ZArith Arith Lia Lra Bool.
From Verif Require Import NdArray PyList.
Import ListNotations.

Lemma length_upd : forall {A} (l : list A) i f, length (upd l i f) = length l.
Proof. induction l; destruct i; simpl; auto. Qed.

Lemma nth_upd : forall {A} (l : list A) i f j d,
  i < length l -> nth j (upd l i f) d = if Nat.eqb j i then f (nth i l d) else nth j l d.
Proof.
  induction l; intros i f j d H; simpl in H; [lia|].
  destruct i, j; simpl; auto. apply IHl; lia.
Qed.

Lemma length_np_roll : forall {A} (d : A) l s, length (np_roll d l s) = length l.
Proof. intros. unfold np_roll. now rewrite map_length, seq_length. Qed.

Lemma nth_np_roll : forall {A} (d : A) l s j,
  j < length l -> nth j (np_roll d l s) d = nth (Z.to_nat ((Z.of_nat j - s) mod Z.of_nat (length l))) l d.
Proof. intros. unfold np_roll. now rewrite nth_map_seq. Qed.

Lemma nth_firstn_lt : forall {A} (l : list A) k j d, j < k -> nth j (firstn k l) d = nth j l d.
Proof.
  induction l; intros [|k] [|j] d H; simpl; auto; try lia. apply IHl; lia.
Qed.

Lemma nth_skipn_add : forall {A} (l : list A) k j d, nth j (skipn k l) d = nth (k + j) l d.
Proof. induction l; intros [|k] j d; simpl; auto. destruct j; auto. Qed.

(** clipping [p] elements from both ends *)
Lemma py_slice_clip : forall {A} (l : list A) p,
  0 < p -> 2 * p <= length l ->
  length (py_slice l (Z.of_nat p) (- Z.of_nat p)) = length l - 2 * p /\
  forall j d, j < length l - 2 * p -> nth j (py_slice l (Z.of_nat p) (- Z.of_nat p)) d = nth (p + j) l d.
Proof.
  intros A l p Hp H. unfold py_slice.
  assert (E1 : Z.to_nat (py_bound (Z.of_nat (length l)) (Z.of_nat p)) = p).
  { unfold py_bound. destruct (Z.ltb_spec (Z.of_nat p) 0); [lia|].
    destruct (Z.ltb_spec (Z.of_nat p) 0); [lia|]. destruct (Z.ltb_spec (Z.of_nat (length l)) (Z.of_nat p)); lia. }
  assert (E2 : Z.to_nat (py_bound (Z.of_nat (length l)) (- Z.of_nat p)) = length l - p).
  { unfold py_bound. destruct (Z.ltb_spec (- Z.of_nat p) 0); [|lia].
    destruct (Z.ltb_spec (- Z.of_nat p + Z.of_nat (length l)) 0); [lia|].
    destruct (Z.ltb_spec (Z.of_nat (length l)) (- Z.of_nat p + Z.of_nat (length l))); lia. }
  rewrite E1, E2. split.
  - rewrite firstn_length, skipn_length. lia.
  - intros j d Hj. rewrite nth_firstn_lt by lia. apply nth_skipn_add.
Qed.

Lemma nth_map_combine : forall {A B D} (f : A * B -> D) l1 l2 j d a b,
  length l1 = length l2 -> j < length l1 ->
  nth j (map f (combine l1 l2)) d = f (nth j l1 a, nth j l2 b).
Proof.
  intros. rewrite nth_indep with (d' := f (a, b)) by (rewrite map_length, combine_length; lia).
  rewrite map_nth, combine_nth by auto. reflexivity.
Qed.

(* ---------------------------------------------------------------- argmax *)

Section Argmax.
  Context {A : Type} (ltb : A -> A -> bool).
  Variable le : A -> A -> Prop.
  Hypothesis le_refl : forall a, le a a.
  Hypothesis le_trans : forall a b c, le a b -> le b c -> le a c.
  Hypothesis ltb_true : forall a b, ltb a b = true -> le a b.
  Hypothesis ltb_false : forall a b, ltb a b = false -> le b a.

  Lemma argmax_aux_spec : forall (l : list A) i best bv d pre,
    length pre = i -> best < i -> nth best pre d = bv ->
    (forall j, j < i -> le (nth j pre d) bv) ->
    let r := argmax_aux ltb i best bv l in
    r < i + length l /\ (forall j, j < i + length l -> le (nth j (pre ++ l) d) (nth r (pre ++ l) d)).
  Proof.
    induction l as [|x t IH]; intros i best bv d pre Hl Hb Hv Hm r.
    - subst r. simpl. rewrite app_nil_r. split; [lia|]. intros j Hj. rewrite Hv. apply Hm; lia.
    - subst r. simpl. destruct (ltb bv x) eqn:E.
      + destruct (IH (S i) i x d (pre ++ [x])) as [H1 H2].
        * rewrite app_length; simpl; lia.
        * lia.
        * rewrite app_nth2 by lia. rewrite Hl, Nat.sub_diag. reflexivity.
        * intros j Hj. destruct (Nat.eq_dec j i).
          -- subst j. rewrite app_nth2 by lia. rewrite Hl, Nat.sub_diag. simpl. apply le_refl.
          -- rewrite app_nth1 by lia. eapply le_trans; [apply Hm; lia|]. now apply ltb_true.
        * rewrite <- app_assoc in H2. simpl in H2. split; [lia|]. intros j Hj. apply H2; lia.
      + destruct (IH (S i) best bv d (pre ++ [x])) as [H1 H2].
        * rewrite app_length; simpl; lia.
        * lia.
        * rewrite app_nth1 by lia. exact Hv.
        * intros j Hj. destruct (Nat.eq_dec j i).
          -- subst j. rewrite app_nth2 by lia. rewrite Hl, Nat.sub_diag. simpl. now apply ltb_false.
          -- rewrite app_nth1 by lia. apply Hm; lia.
        * rewrite <- app_assoc in H2. simpl in H2. split; [lia|]. intros j Hj. apply H2; lia.
  Qed.

  Lemma argmax_spec : forall (l : list A) r d, argmax ltb l = Some r ->
    r < length l /\ forall j, j < length l -> le (nth j l d) (nth r l d).
  Proof.
    intros [|x t] r d H; simpl in H; [discriminate|]. injection H as H.
    destruct (argmax_aux_spec t 1 0 x d [x]) as [H1 H2]; simpl; auto.
    - intros [|j] Hj; [apply le_refl|lia].
    - rewrite H in H1, H2. split; [simpl; lia|]. intros j Hj. apply H2. simpl in *. lia.
  Qed.
End Argmax.

Lemma argmax_unique : forall {A} (ltb : A -> A -> bool) (le : A -> A -> Prop) (l : list A) r d,
  (forall a, le a a) -> (forall a b c, le a b -> le b c -> le a c) ->
  (forall a b, ltb a b = true -> le a b) -> (forall a b, ltb a b = false -> le b a) ->
  r < length l -> (forall j, j < length l -> j <> r -> ~ le (nth r l d) (nth j l d)) ->
  argmax ltb l = Some r.
Proof.
  intros A ltb le l r d H1 H2 H3 H4 Hr Hu.
  destruct (argmax ltb l) as [k|] eqn:E.
  - destruct (argmax_spec ltb le H1 H2 H3 H4 l k d E) as [Hk Hm].
    destruct (Nat.eq_dec k r); [congruence|]. exfalso. apply (Hu k Hk n). now apply Hm.
  - destruct l; [simpl in Hr; lia|discriminate].
Qed.

Lemma argmax_some : forall {A} (ltb : A -> A -> bool) (l : list A), l <> [] -> exists r, argmax ltb l = Some r.
Proof. intros A ltb [|x t] H; [congruence|]. simpl. eauto. Qed.

(* ---------------------------------------------------------------- int() *)
Local Open Scope R_scope.
Lemma Rfloor_spec : forall x, IZR (Rfloor x) <= x < IZR (Rfloor x) + 1.
Proof. intros. unfold Rfloor. generalize (base_Int_part x). lra. Qed.

Lemma Rfloor_unique : forall x z, IZR z <= x < IZR z + 1 -> Rfloor x = z.
Proof.
  intros x z H. generalize (Rfloor_spec x). intros H1.
  assert (IZR (Rfloor x) < IZR (z + 1)) by (rewrite plus_IZR; lra).
  assert (IZR z < IZR (Rfloor x + 1)) by (rewrite plus_IZR; lra).
  apply lt_IZR in H0. apply lt_IZR in H2. lia.
Qed.

Lemma py_int_pos : forall x, 0 <= x -> IZR (py_int x) <= x < IZR (py_int x) + 1.
Proof. intros. unfold py_int. destruct Rle_dec; [apply Rfloor_spec|lra]. Qed.

Lemma py_int_neg : forall x, x < 0 -> IZR (py_int x) - 1 < x <= IZR (py_int x).
Proof.
  intros. unfold py_int. destruct Rle_dec; [lra|]. rewrite opp_IZR. generalize (Rfloor_spec (- x)). lra.
Qed.

Lemma py_int_IZR : forall z, py_int (IZR z) = z.
Proof.
  intros. unfold py_int. destruct Rle_dec.
  - apply Rfloor_unique. lra.
  - rewrite <- opp_IZR. rewrite (Rfloor_unique _ (- z)); [lia|]. lra.
Qed.
