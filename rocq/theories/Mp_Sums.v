(** Finite sums over index ranges, for the proofs about the fitter. *)
From Coq Require Import Reals List Arith ZArith Bool Lra Lia Psatz Permutation.
From Verif Require Import PyRes CBase PyList Mp_Model Mp_Spec.
Import ListNotations.
Local Open Scope R_scope.

Lemma total_ssum : forall n f, total n f = ssum 0 n f.
Proof. intros. unfold total, ssum. now rewrite Nat.sub_0_r. Qed.

Lemma ssum_ext : forall lo hi f g, (forall i, (lo <= i < hi)%nat -> f i = g i) -> ssum lo hi f = ssum lo hi g.
Proof.
  intros lo hi f g H. unfold ssum. f_equal. apply map_ext_in. intros i Hi.
  apply in_seq in Hi. apply H. lia.
Qed.

Lemma ssum_empty : forall lo hi f, (hi <= lo)%nat -> ssum lo hi f = 0.
Proof. intros. unfold ssum. replace (hi - lo)%nat with 0%nat by lia. reflexivity. Qed.

Lemma ssum_first : forall lo hi f, (lo < hi)%nat -> ssum lo hi f = f lo + ssum (S lo) hi f.
Proof.
  intros lo hi f H. unfold ssum. replace (hi - lo)%nat with (S (hi - S lo)) by lia. reflexivity.
Qed.

Lemma ssum_split : forall lo mid hi f, (lo <= mid <= hi)%nat -> ssum lo hi f = ssum lo mid f + ssum mid hi f.
Proof.
  intros lo mid hi f H. unfold ssum. rewrite <- rsum_app, <- map_app.
  replace (hi - lo)%nat with ((mid - lo) + (hi - mid))%nat by lia. rewrite seq_app.
  replace (lo + (mid - lo))%nat with mid by lia. reflexivity.
Qed.

Lemma ssum_one : forall i f, ssum i (S i) f = f i.
Proof. intros. unfold ssum. replace (S i - i)%nat with 1%nat by lia. cbn. rewrite rsum_cons, rsum_nil. ring. Qed.

Lemma ssum_last : forall lo hi f, (lo <= hi)%nat -> ssum lo (S hi) f = ssum lo hi f + f hi.
Proof. intros. rewrite (ssum_split lo hi) by lia. now rewrite ssum_one. Qed.

Lemma ssum_plus : forall lo hi f g, ssum lo hi (fun i => f i + g i) = ssum lo hi f + ssum lo hi g.
Proof. intros. apply rsum_map_plus. Qed.

Lemma ssum_scal : forall lo hi c f, ssum lo hi (fun i => c * f i) = c * ssum lo hi f.
Proof. intros. unfold ssum. apply rsum_map_scal. Qed.

Lemma ssum_scal_r : forall lo hi c f, ssum lo hi (fun i => f i * c) = ssum lo hi f * c.
Proof.
  intros. rewrite (Rmult_comm _ c), <- ssum_scal. apply ssum_ext. intros; ring.
Qed.

Lemma ssum_minus : forall lo hi f g, ssum lo hi (fun i => f i - g i) = ssum lo hi f - ssum lo hi g.
Proof.
  intros. replace (ssum lo hi f - ssum lo hi g) with (ssum lo hi f + (-1) * ssum lo hi g) by ring.
  rewrite <- ssum_scal, <- ssum_plus. apply ssum_ext. intros; ring.
Qed.

Lemma ssum_0 : forall lo hi f, (forall i, (lo <= i < hi)%nat -> f i = 0) -> ssum lo hi f = 0.
Proof.
  intros lo hi f H. unfold ssum. apply rsum_zero. intros i Hi. apply in_seq in Hi. apply H. lia.
Qed.

Lemma ssum_single : forall lo hi k f, (lo <= k < hi)%nat ->
  (forall i, (lo <= i < hi)%nat -> i <> k -> f i = 0) -> ssum lo hi f = f k.
Proof.
  intros lo hi k f Hk H.
  rewrite (ssum_split lo k) by lia. rewrite (ssum_split k (S k)) by lia. rewrite ssum_one.
  rewrite (ssum_0 lo k), (ssum_0 (S k) hi); [ring| |]; intros i Hi; apply H; lia.
Qed.

Lemma ssum_nonneg : forall lo hi f, (forall i, (lo <= i < hi)%nat -> 0 <= f i) -> 0 <= ssum lo hi f.
Proof.
  intros lo hi f H. unfold ssum. apply rsum_nonneg. intros x Hx.
  apply in_map_iff in Hx. destruct Hx as [i [<- Hi]]. apply in_seq in Hi. apply H. lia.
Qed.

Lemma ssum_le_ext : forall lo hi f g, (forall i, (lo <= i < hi)%nat -> f i <= g i) -> ssum lo hi f <= ssum lo hi g.
Proof.
  intros lo hi f g H. unfold ssum. apply rsum_le. intros i Hi. apply in_seq in Hi. apply H. lia.
Qed.

Lemma rsum_swap : forall (f : nat -> nat -> R) la lb,
  rsum (map (fun i => rsum (map (fun j => f i j) lb)) la) = rsum (map (fun j => rsum (map (fun i => f i j) la)) lb).
Proof.
  intros f la. induction la as [|x la IH]; intros lb; cbn [map].
  - rewrite rsum_nil. symmetry. apply rsum_zero. intros. apply rsum_nil.
  - rewrite rsum_cons, IH, <- rsum_map_plus. apply rsum_map_ext. intros j _. now rewrite rsum_cons.
Qed.

Lemma ssum_swap : forall a b c d (f : nat -> nat -> R),
  ssum a b (fun i => ssum c d (fun j => f i j)) = ssum c d (fun j => ssum a b (fun i => f i j)).
Proof. intros. unfold ssum. apply rsum_swap. Qed.

Lemma ssum_sq_zero : forall lo hi f, ssum lo hi (fun i => f i * f i) = 0 ->
  forall i, (lo <= i < hi)%nat -> f i = 0.
Proof.
  intros lo hi f H i Hi.
  rewrite (ssum_split lo i), (ssum_split i (S i)), ssum_one in H by lia.
  assert (0 <= ssum lo i (fun i => f i * f i)) by (apply ssum_nonneg; intros; nra).
  assert (0 <= ssum (S i) hi (fun i => f i * f i)) by (apply ssum_nonneg; intros; nra).
  nra.
Qed.

Lemma ssum_sq_nonneg : forall lo hi f, 0 <= ssum lo hi (fun i => f i * f i).
Proof. intros. apply ssum_nonneg. intros; nra. Qed.

Lemma rsum_perm : forall l l', Permutation l l' -> rsum l = rsum l'.
Proof. induction 1; rewrite ?rsum_cons; lra. Qed.

Definition is_perm (n : nat) (p : nat -> nat) : Prop := Permutation (map p (seq 0 n)) (seq 0 n).

Lemma is_perm_lt : forall n p j, is_perm n p -> (j < n)%nat -> (p j < n)%nat.
Proof.
  intros n p j H Hj. assert (In (p j) (seq 0 n)) as K.
  { eapply Permutation_in; [exact H|]. apply in_map, in_seq. lia. }
  apply in_seq in K. lia.
Qed.

Lemma is_perm_inj : forall n p i j, is_perm n p -> (i < n)%nat -> (j < n)%nat -> p i = p j -> i = j.
Proof.
  intros n p i j H Hi Hj E.
  assert (NoDup (map p (seq 0 n))) as K.
  { eapply Permutation_NoDup; [apply Permutation_sym; exact H|]. apply seq_NoDup. }
  pose proof (proj1 (NoDup_nth (map p (seq 0 n)) 0%nat) K) as L.
  apply L; rewrite ?map_length, ?seq_length; auto.
  assert (forall a, (a < n)%nat -> nth a (map p (seq 0 n)) 0%nat = p a) as M.
  { intros a Ha. rewrite (nth_indep _ 0%nat (p 0%nat)) by (rewrite map_length, seq_length; auto).
    rewrite map_nth, seq_nth by auto. now rewrite Nat.add_0_l. }
  now rewrite !M.
Qed.

Lemma is_perm_surj : forall n p l, is_perm n p -> (l < n)%nat -> exists j, (j < n)%nat /\ p j = l.
Proof.
  intros n p l H Hl. assert (In l (map p (seq 0 n))) as K.
  { eapply Permutation_in; [apply Permutation_sym; exact H|]. apply in_seq. lia. }
  apply in_map_iff in K. destruct K as [j [E Hj]]. apply in_seq in Hj. exists j. split; [lia|auto].
Qed.

Lemma ssum_perm : forall n p f, is_perm n p -> ssum 0 n (fun j => f (p j)) = ssum 0 n f.
Proof.
  intros n p f H. unfold ssum. rewrite Nat.sub_0_r. rewrite <- map_map.
  apply rsum_perm. now apply Permutation_map.
Qed.

Lemma is_perm_id : forall n, is_perm n (fun k => k).
Proof. intros. unfold is_perm. now rewrite map_id. Qed.

Lemma NoDup_map_in : forall (p : nat -> nat) l,
  (forall i j, In i l -> In j l -> p i = p j -> i = j) -> NoDup l -> NoDup (map p l).
Proof.
  intros p l. induction l as [|x l IH]; intros I D; cbn; constructor; inversion D as [|? ? Nx Dl]; subst.
  - intros K. apply in_map_iff in K. destruct K as [y [E Hy]].
    apply Nx. replace x with y; [exact Hy|]. apply I; [now right|now left|exact E].
  - apply IH; auto. intros i j Hi Hj. apply I; now right.
Qed.

Lemma is_perm_of : forall n p, (forall j, (j < n)%nat -> (p j < n)%nat) ->
  (forall i j, (i < n)%nat -> (j < n)%nat -> p i = p j -> i = j) -> is_perm n p.
Proof.
  intros n p B I. unfold is_perm. apply NoDup_Permutation_bis.
  - apply NoDup_map_in; [|apply seq_NoDup].
    intros i j Hi Hj E. apply in_seq in Hi, Hj. apply I; auto; lia.
  - rewrite map_length, seq_length. lia.
  - intros x Hx. apply in_map_iff in Hx. destruct Hx as [j [<- Hj]]. apply in_seq in Hj.
    apply in_seq. specialize (B j). lia.
Qed.

Lemma is_perm_swap : forall n p j k, is_perm n p -> (j < n)%nat -> (k < n)%nat -> j <> k ->
  is_perm n (upd (upd p j (p k)) k (p j)).
Proof.
  intros n p j k H Hj Hk D. apply is_perm_of.
  - intros i Hi. unfold upd. destruct (Nat.eqb_spec i k); [apply is_perm_lt; auto|].
    destruct (Nat.eqb_spec i j); apply is_perm_lt; auto.
  - intros a b Ha Hb. unfold upd.
    destruct (Nat.eqb_spec a k), (Nat.eqb_spec b k), (Nat.eqb_spec a j), (Nat.eqb_spec b j); subst; auto;
      try lia; intros E; apply (is_perm_inj n p) in E; auto; lia.
Qed.

Lemma enorm_nonneg : forall lo hi v, 0 <= enorm lo hi v.
Proof. intros. apply sqrt_pos. Qed.

Lemma enorm_sq : forall lo hi v, enorm lo hi v * enorm lo hi v = ssum lo hi (fun i => v i * v i).
Proof. intros. unfold enorm. apply sqrt_sqrt. apply ssum_sq_nonneg. Qed.

Lemma enorm_zero : forall lo hi v, enorm lo hi v = 0 -> forall i, (lo <= i < hi)%nat -> v i = 0.
Proof. intros lo hi v H. apply ssum_sq_zero. rewrite <- enorm_sq, H. ring. Qed.

Lemma enorm_ext : forall lo hi v w, (forall i, (lo <= i < hi)%nat -> v i = w i) -> enorm lo hi v = enorm lo hi w.
Proof. intros lo hi v w H. unfold enorm. f_equal. apply ssum_ext. intros i Hi. now rewrite (H i Hi). Qed.

Lemma fold_seq_inv : forall {A} (P : nat -> A -> Prop) (step : A -> nat -> A) lo k s,
  P lo s -> (forall j s, (lo <= j < lo + k)%nat -> P j s -> P (S j) (step s j)) ->
  P (lo + k)%nat (fold_left step (seq lo k) s).
Proof.
  intros A P step lo k. revert lo. induction k as [|k IH]; intros lo s H0 H; cbn.
  - now rewrite Nat.add_0_r.
  - replace (lo + S k)%nat with (S lo + k)%nat by lia. apply IH.
    + apply H; auto; lia.
    + intros j t Hj. apply H. lia.
Qed.

Lemma fold_seq_inv0 : forall {A} (P : nat -> A -> Prop) (step : A -> nat -> A) k s,
  P 0%nat s -> (forall j s, (j < k)%nat -> P j s -> P (S j) (step s j)) -> P k (fold_left step (seq 0 k) s).
Proof.
  intros A P step k s H0 H. apply (fold_seq_inv P step 0 k s); auto. intros j t Hj. apply H. lia.
Qed.

(** the loop over nsing-1, ..., 0 *)
Lemma fold_rev_inv : forall {A} (P : nat -> A -> Prop) (step : A -> nat -> A) k s,
  P k s -> (forall j s, (j < k)%nat -> P (S j) s -> P j (step s j)) -> P 0%nat (fold_left step (rev (seq 0 k)) s).
Proof.
  intros A P step k. induction k as [|k IH]; intros s H0 H; [exact H0|].
  rewrite seq_S, rev_app_distr. cbn. apply IH.
  - apply H; auto.
  - intros j t Hj. apply H. lia.
Qed.
