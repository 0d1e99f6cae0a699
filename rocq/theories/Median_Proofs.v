(** Median and MAD. *)
From Coq Require Import Reals List Arith ZArith Bool Lia Lra Permutation Sorted Psatz.
Set Warnings "-ambiguous-paths".
From Coquelicot Require Import Coquelicot.
From Verif Require Import CBase PyRes PyList Clean_Grid Measure_Model.
Import ListNotations.
Local Open Scope R_scope.

Lemma rinsert_perm : forall x l, Permutation (x :: l) (rinsert x l).
Proof.
  intros x. induction l as [|y l IH]; simpl; [reflexivity|]. destruct (Rle_dec x y); [reflexivity|].
  rewrite perm_swap. constructor. exact IH.
Qed.
Lemma rsort_perm : forall l, Permutation l (rsort l).
Proof.
  induction l as [|x l IH]; simpl; [constructor|]. rewrite <- rinsert_perm. constructor. exact IH.
Qed.
Lemma rinsert_sorted : forall x l, StronglySorted Rle l -> StronglySorted Rle (rinsert x l).
Proof.
  intros x. induction l as [|y l IH]; simpl; intros H; [constructor; constructor|].
  inversion H as [|? ? Hl Hy]; subst. destruct (Rle_dec x y) as [L|L].
  - constructor; [exact H|]. constructor; [exact L|]. eapply Forall_impl; [|exact Hy]. intros a Ha. simpl in Ha. lra.
  - constructor; [apply IH; auto|]. rewrite Forall_forall in Hy |- *. intros a Ha.
    apply (Permutation_in _ (Permutation_sym (rinsert_perm x l))) in Ha. destruct Ha as [<- | Ha]; [lra|]. apply Hy, Ha.
Qed.
Lemma rsort_sorted : forall l, StronglySorted Rle (rsort l).
Proof. induction l as [|x l IH]; simpl; [constructor|]. apply rinsert_sorted, IH. Qed.

Lemma sorted_unique : forall l m, Permutation l m -> StronglySorted Rle l -> StronglySorted Rle m -> l = m.
Proof.
  induction l as [|x l IH]; intros m P Sl Sm.
  - apply Permutation_nil in P. auto.
  - destruct m as [|y m]; [apply Permutation_sym, Permutation_nil in P; discriminate|].
    inversion Sl as [|? ? Sl' Fl]; subst. inversion Sm as [|? ? Sm' Fm]; subst. rewrite Forall_forall in Fl, Fm.
    assert (x = y) as ->.
    { assert (In x (y :: m)) as Hx by (apply (Permutation_in _ P); left; auto).
      assert (In y (x :: l)) as Hy by (apply (Permutation_in _ (Permutation_sym P)); left; auto).
      destruct Hx as [? | Hx]; [congruence|]. destruct Hy as [? | Hy]; [congruence|].
      apply Fm in Hx. apply Fl in Hy. lra. }
    f_equal. apply IH; auto. eapply Permutation_cons_inv; eauto.
Qed.

(** the middle of a sorted list *)
Definition mid (v : list R) : R :=
  let n := length v in if Nat.even n then (nth (n / 2 - 1) v 0 + nth (n / 2) v 0) / 2 else nth (n / 2) v 0.

Lemma median_of_sorted : forall l v, l <> [] -> Permutation l v -> StronglySorted Rle v -> median l = Some (mid v).
Proof.
  intros l v Hn P Sv. assert (rsort l = v) as E.
  { apply sorted_unique; auto; [|apply rsort_sorted]. rewrite <- rsort_perm. exact P. }
  unfold median, mid. destruct l as [|x l]; [contradiction|]. rewrite E, (Permutation_length P). reflexivity.
Qed.

Lemma median_is_mid : forall l, l <> [] -> median l = Some (mid (rsort l)).
Proof. intros l H. apply median_of_sorted; auto; [apply rsort_perm|apply rsort_sorted]. Qed.

Lemma median_perm : forall l m, Permutation l m -> median l = median m.
Proof.
  intros l m P. destruct l as [|x l].
  - apply Permutation_nil in P. subst. reflexivity.
  - rewrite (median_of_sorted (x :: l) (rsort m)); [|discriminate| |apply rsort_sorted].
    + symmetry. apply median_is_mid. intros ->. apply Permutation_sym, Permutation_nil in P. discriminate.
    + rewrite P. apply rsort_perm.
Qed.

Lemma sorted_map_mono : forall f l, (forall x y, x <= y -> f x <= f y) -> StronglySorted Rle l -> StronglySorted Rle (map f l).
Proof.
  intros f l Hf. induction l as [|x l IH]; intros H; simpl; [constructor|]. inversion H as [|? ? Hl Hx]; subst.
  constructor; [apply IH; auto|]. rewrite Forall_forall in Hx |- *. intros y Hy. apply in_map_iff in Hy.
  destruct Hy as (z & <- & Hz). apply Hf, Hx, Hz.
Qed.

Lemma sorted_app : forall l m, StronglySorted Rle l -> StronglySorted Rle m -> (forall x y, In x l -> In y m -> x <= y) -> StronglySorted Rle (l ++ m).
Proof.
  induction l as [|x l IH]; intros m Sl Sm H; simpl; auto. inversion Sl as [|? ? Sl' Fl]; subst.
  constructor; [apply IH; auto; intros; apply H; [right|]; auto|].
  rewrite Forall_forall in Fl |- *. intros y Hy. apply in_app_iff in Hy. destruct Hy; [apply Fl; auto|apply H; [left|]; auto].
Qed.

Lemma sorted_rev_anti : forall f l, (forall x y, x <= y -> f y <= f x) -> StronglySorted Rle l -> StronglySorted Rle (rev (map f l)).
Proof.
  intros f l Hf. induction l as [|x l IH]; intros H; simpl; [constructor|]. inversion H as [|? ? Hl Hx]; subst.
  rewrite Forall_forall in Hx.
  apply sorted_app; [apply IH; auto|constructor; constructor|].
  intros a b Ha [<- | []]. apply in_rev, in_map_iff in Ha. destruct Ha as (z & <- & Hz). apply Hf, Hx, Hz.
Qed.

Lemma half_lt : forall n, (0 < n)%nat -> (n / 2 < n)%nat.
Proof. intros. apply Nat.div_lt; lia. Qed.

Lemma even_half : forall n, Nat.even n = true -> (n = 2 * (n / 2))%nat.
Proof.
  intros n H. apply Nat.even_spec in H. destruct H as [k ->]. replace (2 * k)%nat with (k * 2)%nat by lia. rewrite Nat.div_mul; lia.
Qed.
Lemma odd_half : forall n, Nat.even n = false -> (n = 2 * (n / 2) + 1)%nat.
Proof.
  intros n H. assert (Nat.odd n = true) as O by (unfold Nat.odd; rewrite H; reflexivity).
  apply Nat.odd_spec in O. destruct O as [k ->]. replace (2 * k + 1)%nat with (1 + k * 2)%nat by lia.
  rewrite Nat.div_add by lia. simpl (1 / 2)%nat. lia.
Qed.

Lemma mid_map : forall a b v, v <> [] -> mid (map (fun x => a * x + b) v) = a * mid v + b.
Proof.
  intros a b v Hv. unfold mid. rewrite map_length.
  assert (0 < length v)%nat as L by (destruct v; [contradiction|simpl; lia]).
  pose proof (half_lt _ L) as H. destruct (Nat.even (length v)) eqn:E.
  - rewrite !(nth_map_lt _ _ _ _ 0) by lia. field.
  - rewrite (nth_map_lt _ _ _ _ 0) by lia. reflexivity.
Qed.

Lemma mid_rev : forall v, mid (rev v) = mid v.
Proof.
  intros v. unfold mid. rewrite rev_length. destruct v as [|x v]; [reflexivity|]. set (w := x :: v).
  assert (0 < length w)%nat as L by (simpl; lia). clearbody w. pose proof (half_lt _ L) as H.
  destruct (Nat.even (length w)) eqn:E.
  - pose proof (even_half _ E). rewrite !rev_nth by lia.
    replace (length w - S (length w / 2 - 1))%nat with (length w / 2)%nat by lia.
    replace (length w - S (length w / 2))%nat with (length w / 2 - 1)%nat by lia. lra.
  - pose proof (odd_half _ E). rewrite rev_nth by lia. f_equal. lia.
Qed.

(** the median moves with the data *)
Lemma median_affine : forall a b l, median (map (fun x => a * x + b) l) = option_map (fun m => a * m + b) (median l).
Proof.
  intros a b l. destruct l as [|x0 l0] eqn:El; [reflexivity|]. rewrite <- El. assert (Hl : l <> []) by (rewrite El; discriminate). clear El.
  rewrite (median_is_mid l Hl). simpl. assert (rsort l <> []) as Hr.
  { intros E. pose proof (rsort_perm l) as P. rewrite E in P. apply Permutation_sym, Permutation_nil in P. auto. }
  rewrite <- (mid_map a b) by auto.
  assert (map (fun x => a * x + b) l <> []) as Hm by (destruct l; [contradiction|discriminate]).
  destruct (Rle_dec 0 a) as [Ha | Ha].
  - apply median_of_sorted; auto; [apply Permutation_map, rsort_perm|].
    apply sorted_map_mono; [intros; nra|apply rsort_sorted].
  - rewrite <- (mid_rev (map _ (rsort l))). apply median_of_sorted; auto.
    + rewrite <- Permutation_rev. apply Permutation_map, rsort_perm.
    + apply sorted_rev_anti; [intros; nra|apply rsort_sorted].
Qed.

Lemma median_bounds : forall l m lo hi, median l = Some m -> (forall x, In x l -> lo <= x <= hi) -> lo <= m <= hi.
Proof.
  intros l m lo hi E H. assert (l <> []) as Hl by (intros ->; discriminate).
  rewrite (median_is_mid l Hl) in E. injection E as <-.
  assert (L : (0 < length (rsort l))%nat).
  { rewrite <- (Permutation_length (rsort_perm l)). destruct l; [contradiction|simpl; lia]. }
  assert (Hi : forall i, (i < length (rsort l))%nat -> lo <= nth i (rsort l) 0 <= hi).
  { intros i Hi. apply H. apply (Permutation_in _ (Permutation_sym (rsort_perm l))). apply nth_In, Hi. }
  pose proof (half_lt _ L) as Hh. unfold mid. destruct (Nat.even _).
  - pose proof (Hi (length (rsort l) / 2 - 1)%nat ltac:(lia)). pose proof (Hi _ Hh). lra.
  - apply Hi, Hh.
Qed.

(** half of the data are on each side of the median *)
Definition count (P : R -> bool) (l : list R) : nat := length (filter P l).

Lemma count_perm : forall P l m, Permutation l m -> count P l = count P m.
Proof.
  intros P l m H. unfold count. induction H; simpl; auto.
  - destruct (P x); simpl; auto.
  - destruct (P x), (P y); simpl; auto.
  - congruence.
Qed.

Lemma sorted_nth : forall l i j, StronglySorted Rle l -> (i <= j < length l)%nat -> nth i l 0 <= nth j l 0.
Proof.
  induction l as [|x l IH]; intros i j S H; simpl in H; [lia|]. inversion S as [|? ? S' F]; subst. rewrite Forall_forall in F.
  destruct i, j; simpl; try lia; try lra.
  - apply F, nth_In. lia.
  - apply IH; auto. lia.
Qed.

Lemma count_ge : forall P l n, (n <= length l)%nat -> (forall i, (i < n)%nat -> P (nth i l 0) = true) -> (n <= count P l)%nat.
Proof.
  intros P. induction l as [|x l IH]; intros n Hn H; simpl in Hn; [lia|]. destruct n; [lia|].
  assert (n <= count P l)%nat as IHn by (apply IH; [lia|intros i Hi; apply (H (S i)); lia]).
  assert (H0 : P x = true) by (apply (H 0%nat); lia). unfold count in *. simpl. rewrite H0. simpl. lia.
Qed.

Theorem median_halves : forall l m, median l = Some m ->
  (length l <= 2 * count (fun x => Rleb x m) l)%nat /\ (length l <= 2 * count (fun x => Rleb m x) l)%nat.
Proof.
  intros l m E. assert (l <> []) as Hl by (intros ->; discriminate).
  rewrite (median_is_mid l Hl) in E. injection E as <-.
  pose proof (rsort_perm l) as P. pose proof (rsort_sorted l) as Sv. set (v := rsort l) in *.
  rewrite !(count_perm _ _ _ P), (Permutation_length P).
  assert (L : (0 < length v)%nat).
  { rewrite <- (Permutation_length P). destruct l; [contradiction|simpl; lia]. }
  pose proof (half_lt _ L) as Hh.
  assert (B : forall a b, a <= b -> Rleb a b = true) by (intros a b Hab; unfold Rleb; destruct (Rle_dec a b); auto; contradiction).
  unfold mid. destruct (Nat.even (length v)) eqn:Ev.
  - pose proof (even_half _ Ev) as Ee.
    assert (M : nth (length v / 2 - 1) v 0 <= nth (length v / 2) v 0) by (apply sorted_nth; auto; lia).
    set (mv := (nth (length v / 2 - 1) v 0 + nth (length v / 2) v 0) / 2). split.
    + assert (length v / 2 <= count (fun x => Rleb x mv) v)%nat; [|lia].
      apply count_ge; [lia|]. intros i Hi. apply B.
      assert (nth i v 0 <= nth (length v / 2 - 1) v 0) by (apply sorted_nth; auto; lia). unfold mv. lra.
    + rewrite (count_perm _ _ _ (Permutation_rev v)).
      assert (length v / 2 <= count (fun x => Rleb mv x) (rev v))%nat; [|lia].
      apply count_ge; [rewrite rev_length; lia|]. intros i Hi. rewrite rev_nth by lia. apply B.
      assert (nth (length v / 2) v 0 <= nth (length v - S i) v 0) by (apply sorted_nth; auto; lia). unfold mv. lra.
  - pose proof (odd_half _ Ev) as Ee. set (mv := nth (length v / 2) v 0). split.
    + assert (length v / 2 + 1 <= count (fun x => Rleb x mv) v)%nat; [|lia].
      apply count_ge; [lia|]. intros i Hi. apply B. apply sorted_nth; auto; lia.
    + rewrite (count_perm _ _ _ (Permutation_rev v)).
      assert (length v / 2 + 1 <= count (fun x => Rleb mv x) (rev v))%nat; [|lia].
      apply count_ge; [rewrite rev_length; lia|]. intros i Hi. rewrite rev_nth by lia. apply B.
      apply sorted_nth; auto; lia.
Qed.

Lemma somes_map : forall (f : R -> R) l, somes (map (option_map f) l) = map f (somes l).
Proof. intros f. induction l as [|[x|] l IH]; simpl; auto. f_equal. exact IH. Qed.

Lemma somes_perm : forall (l m : list (option R)), Permutation l m -> Permutation (somes l) (somes m).
Proof.
  intros l m H. induction H as [|x l m H IH|x y l|l m k H1 IH1 H2 IH2]; simpl.
  - constructor.
  - apply Permutation_app; auto.
  - rewrite !app_assoc. apply Permutation_app_tail, Permutation_app_comm.
  - rewrite IH1. exact IH2.
Qed.

Lemma somes_some : forall l : list R, somes (map Some l) = l.
Proof. induction l; simpl; auto. f_equal. auto. Qed.

(** C48 *)
Theorem MAD_affine : forall a b l, MAD (map (option_map (fun x => a * x + b)) l) = option_map (Rmult (Rabs a)) (MAD l).
Proof.
  intros a b l. unfold MAD. rewrite somes_map, median_affine.
  destruct (median (somes l)) as [d|] eqn:E; simpl; [|reflexivity].
  rewrite map_map.
  rewrite (map_ext _ (fun x => Rabs a * (Rabs (x - d) / (6745 / 10000)) + 0)).
  - rewrite <- (map_map (fun x => Rabs (x - d) / (6745 / 10000)) (fun x => Rabs a * x + 0)).
    rewrite median_affine. destruct (median (map _ (somes l))); simpl; [|reflexivity]. f_equal. lra.
  - intros x. replace (a * x + b - (a * d + b)) with (a * (x - d)) by ring. rewrite Rabs_mult. field.
Qed.

Theorem MAD_perm : forall l m, Permutation l m -> MAD l = MAD m.
Proof.
  intros l m P. apply somes_perm in P. unfold MAD. rewrite (median_perm _ _ P). destruct (median (somes m)); auto.
  apply median_perm. apply Permutation_map, P.
Qed.

Theorem MAD_ignores_nan : forall l, MAD l = MAD (map Some (somes l)).
Proof. intros l. unfold MAD. rewrite somes_some. reflexivity. Qed.

Theorem MAD_nonneg : forall l, (somes l <> [] -> exists m, MAD l = Some m /\ 0 <= m) /\ (somes l = [] -> MAD l = None).
Proof.
  intros l. unfold MAD. split; [|intros ->; reflexivity]. intros H. rewrite (median_is_mid _ H).
  set (d := mid _). assert (map (fun x => Rabs (x - d) / (6745 / 10000)) (somes l) <> []) as Hm by (destruct (somes l); [contradiction|discriminate]).
  pose proof (median_is_mid _ Hm) as E. eexists. split; [exact E|].
  assert (forall x, In x (map (fun x => Rabs (x - d) / (6745 / 10000)) (somes l)) -> 0 <= x) as P.
  { intros x Hx. apply in_map_iff in Hx. destruct Hx as (y & <- & _). pose proof (Rabs_pos (y - d)). lra. }
  assert (exists hi, forall x, In x (map (fun x => Rabs (x - d) / (6745 / 10000)) (somes l)) -> x <= hi) as [hi Hhi].
  { clear. generalize (map (fun x => Rabs (x - d) / (6745 / 10000)) (somes l)) as k. induction k as [|y k [h Hk]]; [exists 0; intros ? []|].
    exists (Rmax y h). intros x [<- | Hx]; [apply Rmax_l|]. eapply Rle_trans; [apply Hk, Hx|apply Rmax_r]. }
  eapply (median_bounds _ _ 0 hi E). intros x Hx. split; [apply P|apply Hhi]; auto.
Qed.

(** the definition in other words: the two medians *)
Theorem MAD_is_median_deviation : forall l s, MAD l = Some s ->
  exists d, median (somes l) = Some d /\ median (map (fun x => Rabs (x - d)) (somes l)) = Some (6745 / 10000 * s).
Proof.
  intros l s0 H. unfold MAD in H. destruct (median (somes l)) as [d|]; [|discriminate]. exists d. split; [reflexivity|].
  rewrite (map_ext _ (fun x => (6745 / 10000) * (Rabs (x - d) / (6745 / 10000)) + 0)) by (intros; field).
  rewrite <- (map_map (fun x => Rabs (x - d) / (6745 / 10000)) (fun x => (6745 / 10000) * x + 0)), median_affine, H. simpl. f_equal. lra.
Qed.
