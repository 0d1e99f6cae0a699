(** Lemmas about strings. *)
From Coq Require Import List Arith ZArith Bool Ascii String Lia Permutation Sorted.
From Verif Require Import PyStr.
Import ListNotations.
Local Arguments Nat.ltb : simpl never.
Local Arguments Nat.leb : simpl never.

Lemma ch_eqb_eq : forall a b, ch_eqb a b = true <-> a = b.
Proof. intros. unfold ch_eqb. apply Ascii.eqb_eq. Qed.
Lemma ch_eqb_refl : forall a, ch_eqb a a = true.
Proof. intros. now apply ch_eqb_eq. Qed.
Lemma ch_eqb_neq : forall a b, a <> b -> ch_eqb a b = false.
Proof. intros a b H. destruct (ch_eqb a b) eqn:E; auto. apply ch_eqb_eq in E. contradiction. Qed.

Lemma str_eqb_eq : forall a b, str_eqb a b = true <-> a = b.
Proof.
  induction a as [|x a IH]; intros [|y b]; cbn; split; intros H; try discriminate; auto.
  - apply andb_true_iff in H. destruct H as [H1 H2]. apply ch_eqb_eq in H1. apply IH in H2. now subst.
  - injection H as -> ->. rewrite ch_eqb_refl. now apply IH.
Qed.
Lemma str_eqb_refl : forall a, str_eqb a a = true.
Proof. intros. now apply str_eqb_eq. Qed.
Lemma str_eqb_neq : forall a b, a <> b -> str_eqb a b = false.
Proof. intros a b H. destruct (str_eqb a b) eqn:E; auto. apply str_eqb_eq in E. contradiction. Qed.
Lemma str_eq_dec : forall a b : str, {a = b} + {a <> b}.
Proof. apply list_eq_dec, ascii_dec. Defined.

(* ------------------------------------------------------------ ordering *)

Definition str_lt (a b : str) : Prop := str_ltb a b = true.

Lemma str_ltb_irrefl : forall a, str_ltb a a = false.
Proof. induction a as [|x a IH]; cbn; auto. rewrite Nat.ltb_irrefl, ch_eqb_refl, IH. reflexivity. Qed.

Lemma nat_of_ascii_inj : forall a b, nat_of_ascii a = nat_of_ascii b -> a = b.
Proof. intros a b H. rewrite <- (ascii_nat_embedding a), <- (ascii_nat_embedding b). now rewrite H. Qed.

Lemma str_ltb_trans : forall a b c, str_ltb a b = true -> str_ltb b c = true -> str_ltb a c = true.
Proof.
  induction a as [|x a IH]; intros [|y b] [|z c] H1 H2; cbn in *; try discriminate; auto.
  apply orb_true_iff in H1. apply orb_true_iff in H2. apply orb_true_iff.
  destruct H1 as [H1|H1], H2 as [H2|H2].
  - left. apply Nat.ltb_lt in H1. apply Nat.ltb_lt in H2. apply Nat.ltb_lt. lia.
  - left. apply andb_true_iff in H2. destruct H2 as [E _]. apply ch_eqb_eq in E. now subst.
  - left. apply andb_true_iff in H1. destruct H1 as [E _]. apply ch_eqb_eq in E. now subst.
  - right. apply andb_true_iff in H1. apply andb_true_iff in H2. destruct H1 as [E1 L1], H2 as [E2 L2].
    apply ch_eqb_eq in E1. apply ch_eqb_eq in E2. subst. rewrite ch_eqb_refl. cbn. eapply IH; eauto.
Qed.

Lemma str_ltb_total : forall a b, str_ltb a b = true \/ a = b \/ str_ltb b a = true.
Proof.
  induction a as [|x a IH]; intros [|y b]; cbn; auto.
  destruct (Nat.lt_trichotomy (nat_of_ascii x) (nat_of_ascii y)) as [H|[H|H]].
  - left. apply Nat.ltb_lt in H. now rewrite H.
  - apply nat_of_ascii_inj in H. subst. rewrite ch_eqb_refl, Nat.ltb_irrefl. cbn.
    destruct (IH b) as [I|[->|I]]; auto.
  - right. right. apply Nat.ltb_lt in H. now rewrite H.
Qed.

Lemma str_ltb_app_same : forall p a b, str_ltb (p ++ a) (p ++ b) = str_ltb a b.
Proof. induction p as [|x p IH]; intros; cbn; auto. rewrite Nat.ltb_irrefl, ch_eqb_refl, IH. reflexivity. Qed.

Lemma str_ltb_app_lt : forall a b u v, List.length a = List.length b -> str_ltb a b = true -> str_ltb (a ++ u) (b ++ v) = true.
Proof.
  induction a as [|x a IH]; intros [|y b] u v L H; cbn in *; try discriminate.
  apply orb_true_iff in H. apply orb_true_iff. destruct H as [H|H]; auto. right.
  apply andb_true_iff in H. destruct H as [E H]. rewrite E. cbn. apply IH; auto.
Qed.

Lemma insert_perm : forall x l, Permutation (x :: l) (insert x l).
Proof.
  induction l as [|y t IH]; cbn; auto. destruct (str_ltb y x); auto.
  rewrite perm_swap. now constructor.
Qed.
Lemma sort_perm : forall l, Permutation l (sort l).
Proof. induction l as [|x l IH]; cbn; auto. rewrite <- insert_perm. now constructor. Qed.

Definition str_le (a b : str) : Prop := str_ltb b a = false.

Lemma insert_sorted : forall x l, StronglySorted str_le l -> StronglySorted str_le (insert x l).
Proof.
  induction l as [|y t IH]; intros H; cbn.
  - repeat constructor.
  - inversion H as [|? ? Ht Hy]; subst. destruct (str_ltb y x) eqn:E.
    + constructor; auto. rewrite <- insert_perm. constructor; auto. unfold str_le.
      destruct (str_ltb x y) eqn:E2; auto. pose proof (str_ltb_trans _ _ _ E E2) as K. rewrite str_ltb_irrefl in K. discriminate.
    + constructor; auto. constructor; auto. rewrite Forall_forall in *. intros z Iz. specialize (Hy z Iz). unfold str_le in *.
      destruct (str_ltb z x) eqn:E2; auto.
      destruct (str_ltb_total x y) as [K|[K|K]].
      * rewrite (str_ltb_trans _ _ _ E2 K) in Hy. discriminate.
      * subst. congruence.
      * congruence.
Qed.
Lemma sort_sorted : forall l, StronglySorted str_le (sort l).
Proof. induction l; cbn; [constructor|]. now apply insert_sorted. Qed.

(** A permutation of a strictly increasing list sorts to it. *)
Lemma sorted_unique : forall l m, StronglySorted str_le l -> StronglySorted str_lt m -> Permutation l m -> l = m.
Proof.
  induction l as [|x l IH]; intros [|y m] Hl Hm P; auto.
  - now apply Permutation_nil in P.
  - symmetry in P. now apply Permutation_nil in P.
  - inversion Hl as [|? ? Sl Fl]; inversion Hm as [|? ? Sm Fm]; subst. rewrite Forall_forall in *.
    assert (x = y) as ->.
    { assert (I : In x (y :: m)) by (eapply Permutation_in; [exact P|now left]).
      destruct I as [->|I]; auto. specialize (Fm x I). unfold str_lt in Fm.
      assert (J : In y (x :: l)) by (eapply Permutation_in; [symmetry; exact P|now left]).
      destruct J as [->|J]; auto. specialize (Fl y J). unfold str_le in Fl. congruence. }
    f_equal. apply IH; auto. now apply Permutation_cons_inv in P.
Qed.

Lemma sort_unique : forall l m, StronglySorted str_lt m -> Permutation l m -> sort l = m.
Proof. intros l m H P. apply sorted_unique; auto; [apply sort_sorted|]. rewrite <- P. symmetry. apply sort_perm. Qed.

(* ------------------------------------------------------------- numbers *)

Lemma digit_code : forall n, n < 10 -> nat_of_ascii (digit n) = 48 + n.
Proof. intros n H. unfold digit. apply nat_ascii_embedding. lia. Qed.
Lemma digit_is_digit : forall n, n < 10 -> is_digit (digit n) = true.
Proof.
  intros n H. unfold is_digit. rewrite digit_code by auto.
  rewrite (proj2 (Nat.leb_le 48 (48 + n))) by lia. rewrite (proj2 (Nat.leb_le (48 + n) 57)) by lia. reflexivity.
Qed.

(** n with exactly d digits *)
Fixpoint fixed (d n : nat) : str :=
  match d with O => [] | S d => fixed d (n / 10) ++ [digit (n mod 10)] end.

Lemma fixed_length : forall d n, List.length (fixed d n) = d.
Proof. induction d; intros; cbn; auto. rewrite app_length, IHd. cbn. lia. Qed.

Lemma fixed_digits : forall d n, forallb is_digit (fixed d n) = true.
Proof.
  induction d; intros; cbn [fixed]; auto. rewrite forallb_app, IHd. cbn [forallb]. rewrite digit_is_digit; auto. apply Nat.mod_upper_bound. lia.
Qed.

Lemma fixed_zero : forall d, fixed d 0 = repeat "0"%char d.
Proof.
  induction d; auto. change (fixed d (0 / 10) ++ [digit (0 mod 10)] = repeat "0"%char (S d)).
  change (0 / 10) with 0. rewrite IHd. change (digit (0 mod 10)) with "0"%char. now rewrite <- repeat_cons.
Qed.

Lemma dec_fuel : forall f n, n < f -> exists k, k = List.length (dec f n) /\ dec f n = fixed k n /\
  (1 <= k) /\ n < 10 ^ k /\ (n = 0 \/ 10 ^ (k - 1) <= n).
Proof.
  induction f as [|f IH]; intros n H; [lia|]. cbn [dec]. destruct (Nat.ltb_spec n 10).
  - exists 1. cbn [List.length fixed]. rewrite Nat.mod_small by auto. repeat split; cbn; lia.
  - destruct (IH (n / 10)) as (k & L & E & K1 & B & C).
    { assert (n / 10 < n) by (apply Nat.div_lt; lia). lia. }
    assert (n / 10 <> 0). { intros Z. apply Nat.div_small_iff in Z; lia. }
    pose proof (Nat.div_mod n 10 ltac:(lia)) as DM. pose proof (Nat.mod_upper_bound n 10 ltac:(lia)).
    exists (S k). rewrite app_length, <- L. cbn [List.length fixed]. rewrite E. rewrite Nat.pow_succ_r'.
    repeat split; try lia. right. destruct C as [C|C]; [contradiction|].
    replace (S k - 1) with (S (k - 1)) by lia. rewrite Nat.pow_succ_r'. lia.
Qed.

Lemma fixed_pad : forall d k n, n < 10 ^ k -> fixed (d + k) n = repeat "0"%char d ++ fixed k n.
Proof.
  intros d k. revert d. induction k as [|k IH]; intros d n H.
  - cbn in H. replace n with 0 by lia. rewrite Nat.add_0_r, fixed_zero. cbn. now rewrite app_nil_r.
  - rewrite Nat.add_succ_r. cbn [fixed]. rewrite IH, app_assoc; auto.
    rewrite Nat.pow_succ_r' in H. apply Nat.div_lt_upper_bound; lia.
Qed.

Lemma format0_fixed : forall d n, n < 10 ^ d -> 1 <= d -> format0 d n = fixed d n.
Proof.
  intros d n H Hd. unfold format0, str_of_nat. destruct (dec_fuel (S n) n) as (k & L & E & K1 & B & C); [lia|].
  rewrite <- L, E. assert (k <= d).
  { destruct C as [->|C]. - vm_compute in L. lia.
    - destruct (Nat.le_gt_cases k d); auto. exfalso. assert (10 ^ d <= 10 ^ (k - 1)) by (apply Nat.pow_le_mono_r; lia). lia. }
  rewrite <- fixed_pad by auto. f_equal. lia.
Qed.

Lemma fixed_lt : forall d i j, i < j -> j < 10 ^ d -> str_ltb (fixed d i) (fixed d j) = true.
Proof.
  induction d as [|d IH]; intros i j H B; [cbn in B; lia|]. cbn [fixed]. rewrite Nat.pow_succ_r' in B.
  pose proof (Nat.div_mod i 10 ltac:(lia)) as Di. pose proof (Nat.mod_upper_bound i 10 ltac:(lia)) as Mi.
  pose proof (Nat.div_mod j 10 ltac:(lia)) as Dj. pose proof (Nat.mod_upper_bound j 10 ltac:(lia)) as Mj.
  destruct (Nat.eq_dec (i / 10) (j / 10)) as [E|E].
  - rewrite E, str_ltb_app_same. cbn [str_ltb]. rewrite !digit_code by auto.
    apply orb_true_iff. left. apply Nat.ltb_lt. lia.
  - apply str_ltb_app_lt; [now rewrite !fixed_length|]. apply IH; lia.
Qed.

Lemma fixed_inj : forall d i j, i < 10 ^ d -> j < 10 ^ d -> fixed d i = fixed d j -> i = j.
Proof.
  intros d i j Hi Hj E. destruct (Nat.lt_trichotomy i j) as [H|[H|H]]; auto.
  - pose proof (fixed_lt d i j H Hj) as K. rewrite E, str_ltb_irrefl in K. discriminate.
  - pose proof (fixed_lt d j i H Hi) as K. rewrite E, str_ltb_irrefl in K. discriminate.
Qed.

(* ---------------------------------------------------------- startswith *)

Lemma startswith_app : forall p x, startswith p (p ++ x) = true.
Proof. induction p; intros; cbn; auto. rewrite ch_eqb_refl. apply IHp. Qed.
Lemma startswith_spec : forall p x, startswith p x = true <-> exists y, x = p ++ y.
Proof.
  induction p as [|a p IH]; intros x; cbn.
  - split; eauto.
  - destruct x as [|b x]; [split; [discriminate|intros [y H]; discriminate]|].
    rewrite andb_true_iff, IH, ch_eqb_eq. split.
    + intros [-> [y ->]]. eauto.
    + intros [y H]. injection H as -> ->. split; eauto.
Qed.
Lemma endswith_spec : forall p x, endswith p x = true <-> exists y, x = y ++ p.
Proof.
  intros p x. unfold endswith. rewrite startswith_spec. split; intros [y H].
  - exists (rev y). rewrite <- (rev_involutive x), H, rev_app_distr, rev_involutive. reflexivity.
  - exists (rev y). now rewrite H, rev_app_distr.
Qed.
