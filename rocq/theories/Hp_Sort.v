(** Sorting names with numbers in them. *)
From Coq Require Import Reals List Arith ZArith Bool Ascii String Lra Lia Permutation Sorted.
From Verif Require Import PyRes PyStr PyStr_Proofs Cat_Model Cat_Spec Cat_Text Hp_Model Hp_Spec Hp_Config.
Import ListNotations.
Local Notation length := List.length.
Local Open Scope list_scope.
Local Open Scope nat_scope.

Lemma digit_iff : forall c, is_digit c = true <-> a_digit c.
Proof.
  intros c. split; [|intros (d & D & ->); now apply digit_is].
  intros H. unfold is_digit in H. apply andb_true_iff in H. destruct H as [A B]. apply Nat.leb_le in A, B. exists (nat_of_ascii c - 48). split; [lia|].
  unfold digit. replace (48 + (nat_of_ascii c - 48)) with (nat_of_ascii c) by lia. symmetry. apply ascii_nat_embedding.
Qed.
Lemma not_digit : forall c, ~ a_digit c -> is_digit c = false.
Proof. intros c H. destruct (is_digit c) eqn:E; auto. now apply digit_iff in E. Qed.

(* ------------------------------------------------------------------ keys *)

Definition enc (l : list (str * list nat)) (t : str) : list tok := flat_map (fun td => [Text (fst td); Digits (map digit (snd td))]) l ++ [Text t].

Lemma key_text : forall t y, digitless t -> exists w r, nat_key y = Text w :: r /\ nat_key (t ++ y) = Text (t ++ w) :: r.
Proof.
  assert (K : forall y, exists w r, nat_key y = Text w :: r).
  { induction y as [|c y (w & r & IH)]; [cbn; eauto|]. cbn. rewrite IH. destruct (is_digit c); [|eauto]. destruct w; [|eauto]. destruct r as [|[|]]; eauto. }
  intros t y H. destruct (K y) as (w & r & E). exists w, r. split; auto. induction H as [|c t C H IH]; [exact E|]. cbn [app nat_key]. rewrite not_digit, IH by assumption. reflexivity.
Qed.
Lemma key_starts : forall y, starts_digitless y -> y = [] \/ exists c w r, nat_key y = Text (c :: w) :: r.
Proof.
  intros [|c y] H; [auto|]. right. cbn. rewrite not_digit by now apply (H c y). destruct (key_text [] y) as (w & r & -> & _); [constructor|]. eauto.
Qed.
Lemma key_digits : forall d y, d <> [] -> Forall (fun x => x < 10) d -> starts_digitless y -> nat_key (map digit d ++ y) = Text [] :: Digits (map digit d) :: nat_key y.
Proof.
  intros d y N F H. induction F as [|x d X F IH]; [congruence|]. cbn [map app nat_key]. rewrite digit_is by assumption.
  destruct d as [|x2 d].
  - cbn [map app]. destruct (key_starts y H) as [->|(c & w & r & ->)]; reflexivity.
  - rewrite IH by discriminate. reflexivity.
Qed.
Lemma digitless_starts : forall t, digitless t -> starts_digitless t.
Proof. intros t H c u ->. now inversion H. Qed.
Lemma cut_cons : forall t d l rest, cut (flat_map (fun td => fst td ++ map digit (snd td)) ((t, d) :: l) ++ rest) ((t, d) :: l) rest ->
  cut (flat_map (fun td => fst td ++ map digit (snd td)) l ++ rest) l rest /\ starts_digitless (flat_map (fun td => fst td ++ map digit (snd td)) l ++ rest).
Proof.
  intros t d l rest (_ & F & Rs & T). inversion F as [|? ? F1 F2]; subst. cbn [tl] in T. split.
  - split; [reflexivity|]. split; [assumption|]. split; [assumption|]. destruct T; [constructor|assumption].
  - destruct l as [|[t' d'] l]; [now apply digitless_starts|]. inversion T as [|? ? T1]; subst. inversion F2 as [|? ? [F3 _]]; subst. cbn [fst] in *.
    destruct t' as [|c t']; [congruence|]. intros c' u E. cbn in E. injection E as <- _. now inversion F3.
Qed.
Theorem key_cut : forall l x t, cut x l t -> nat_key x = enc l t.
Proof.
  induction l as [|[u d] l IH]; intros x t C; pose proof C as (-> & F & Rs & T).
  - cbn. destruct (key_text t [] Rs) as (w & r & E & E'). cbn in E. injection E as <- <-. rewrite app_nil_r in E'. exact E'.
  - destruct (cut_cons u d l t C) as [C' S]. inversion F as [|? ? (F1 & F2 & F3) _]; subst. cbn [fst snd] in *. cbn [flat_map fst snd]. rewrite <- !app_assoc.
    destruct (key_text u (map digit d ++ flat_map (fun td => fst td ++ map digit (snd td)) l ++ t) F1) as (w & r & E & ->).
    rewrite key_digits in E by assumption. injection E as <- <-. rewrite app_nil_r, (IH _ t C'). reflexivity.
Qed.
Theorem cut_exists : forall x, exists l t, cut x l t.
Proof.
  induction x as [|c x (l & t & -> & F & Rs & T)].
  - exists [], []. repeat split; constructor.
  - destruct (is_digit c) eqn:D.
    + apply digit_iff in D. destruct D as (d & D & ->). destruct l as [|[[|a u] e] l].
      * exists [([], [d])], t. split; [reflexivity|]. split; [|split; [assumption|constructor]]. constructor; [|constructor]. cbn. split. { constructor. } split; [discriminate|constructor; [assumption|constructor]].
      * exists (([], d :: e) :: l), t. split; [reflexivity|]. inversion F as [|? ? (F1 & F2 & F3) F']; subst. split; [|split; [assumption|exact T]].
        constructor; [|assumption]. cbn. split; [constructor|split; [discriminate|constructor; assumption]].
      * exists (([], [d]) :: (a :: u, e) :: l), t. split; [reflexivity|]. split; [|split; [assumption|]].
        { constructor; [|assumption]. cbn. split; [constructor|split; [discriminate|constructor; [assumption|constructor]]]. }
        cbn [tl] in *. constructor; [discriminate|exact T].
    + assert (C : ~ a_digit c) by (intros X; apply digit_iff in X; congruence). destruct l as [|[u e] l].
      * exists [], (c :: t). split; [reflexivity|]. split; [constructor|]. split; [constructor; assumption|constructor].
      * exists ((c :: u, e) :: l), t. split; [reflexivity|]. inversion F as [|? ? (F1 & F2 & F3) F']; subst. split; [|split; [assumption|exact T]].
        constructor; [|assumption]. cbn. split; [constructor; assumption|split; assumption].
Qed.

(* ------------------------------------------------------------- the order *)

Lemma text_lt_iff : forall x y, str_ltb x y = true <-> text_lt x y.
Proof.
  split.
  - revert y. induction x as [|a x IH]; intros [|b y] H; try discriminate; [left; exists b, y; reflexivity|]. cbn in H. apply orb_true_iff in H. destruct H as [H|H].
    + right. exists [], a, b, x, y. apply Nat.ltb_lt in H. auto.
    + apply andb_true_iff in H. destruct H as [E H]. apply ch_eqb_eq in E. subst b. apply IH in H. destruct H as [(c & t & ->)|(p & c & d & u & v & -> & -> & H)].
      * left. exists c, t. reflexivity.
      * right. exists (a :: p), c, d, u, v. auto.
  - intros [(c & t & ->)|(p & a & b & u & v & -> & -> & H)].
    + rewrite <- (app_nil_r x) at 1. rewrite str_ltb_app_same. reflexivity.
    + rewrite str_ltb_app_same. cbn [str_ltb]. apply Nat.ltb_lt in H. now rewrite H.
Qed.
Lemma int_of_digits : forall d, Forall (fun x => x < 10) d -> int_of (map digit d) = wholeZ d.
Proof.
  intros d F. unfold int_of. assert (G : forall a, fold_left (fun a c => 10 * a + digit_val c)%Z (map digit d) a = (a * 10 ^ Z.of_nat (length d) + wholeZ d)%Z).
  { induction F as [|x d X F IH]; intros a; [cbn; ring|]. cbn [map fold_left]. rewrite IH, digit_val_is by assumption. cbn [wholeZ List.length].
    rewrite Nat2Z.inj_succ, Z.pow_succ_r by lia. ring. }
  rewrite G. ring.
Qed.

Lemma less_iff : forall l t m u, Forall (fun td => Forall (fun d => d < 10) (snd td)) l -> Forall (fun td => Forall (fun d => d < 10) (snd td)) m ->
  key_ltb (enc l t) (enc m u) = true <-> less l t m u.
Proof.
  assert (A : forall x y a b, key_ltb (Text x :: a) (Text y :: b) = true <-> text_lt x y \/ (x = y /\ key_ltb a b = true)).
  { intros x y a b. cbn [key_ltb tok_cmp]. rewrite <- text_lt_iff. destruct (str_ltb x y) eqn:E; [tauto|]. destruct (str_eqb x y) eqn:F.
    - apply str_eqb_eq in F. intuition congruence.
    - split; [discriminate|]. intros [H|[-> _]]; [discriminate|]. now rewrite str_eqb_refl in F. }
  induction l as [|[t' d] l IH]; intros t m u Fl Fm; destruct m as [|[u' e] m]; unfold enc in *; cbn [flat_map app fst snd less] in *.
  - rewrite A. cbn. intuition discriminate.
  - rewrite A. cbn. tauto.
  - rewrite A. cbn. intuition discriminate.
  - rewrite A. inversion Fl as [|? ? Fd Fl']; subst. inversion Fm as [|? ? Fe Fm']; subst. cbn [snd] in *. specialize (IH t m u Fl' Fm').
    cbn [key_ltb tok_cmp]. rewrite !int_of_digits by assumption. destruct (Z.compare_spec (wholeZ d) (wholeZ e)) as [E|E|E].
    + rewrite IH. split; [intros [|[]]; auto|]. intros [|[? [|[]]]]; auto. lia.
    + split; [intros [|[]]; auto|]. intros [|[]]; auto.
    + split; [intros [|[]]; auto; discriminate|]. intros [|[? [|[]]]]; auto; lia.
Qed.
Lemma cut_small : forall x l t, cut x l t -> Forall (fun td => Forall (fun d => d < 10) (snd td)) l.
Proof. intros x l t (_ & F & _). eapply Forall_impl; [|exact F]. cbn. tauto. Qed.
Theorem smaller_iff : forall x y, key_ltb (nat_key x) (nat_key y) = true <-> smaller x y.
Proof.
  intros x y. split.
  - intros H. destruct (cut_exists x) as (l & t & C). destruct (cut_exists y) as (m & u & D). exists l, t, m, u. split; [auto|]. split; [auto|].
    rewrite (key_cut l x t C), (key_cut m y u D) in H. apply less_iff in H; eauto using cut_small.
  - intros (l & t & m & u & C & D & H). rewrite (key_cut l x t C), (key_cut m y u D). apply less_iff; eauto using cut_small.
Qed.

(* ------------------------------------------------- a total preorder of keys *)

Lemma tok_eq : forall x y, tok_cmp x y = Eq -> forall z, tok_cmp x z = tok_cmp y z /\ tok_cmp z x = tok_cmp z y.
Proof.
  intros [x|x] [y|y] E z; cbn in E; try discriminate.
  - destruct (str_ltb x y); [discriminate|]. destruct (str_eqb x y) eqn:F; [|discriminate]. apply str_eqb_eq in F. subst. auto.
  - apply Z.compare_eq in E. destruct z; cbn; rewrite ?E; auto.
Qed.
Lemma tok_flip : forall x y, tok_cmp y x = CompOpp (tok_cmp x y).
Proof.
  intros [x|x] [y|y]; cbn; try reflexivity; [|apply Z.compare_antisym].
  destruct (str_ltb_total x y) as [H|[->|H]].
  - rewrite H. assert (N : str_ltb y x = false) by (destruct (str_ltb y x) eqn:E; auto; pose proof (str_ltb_trans _ _ _ H E); rewrite str_ltb_irrefl in *; discriminate).
    rewrite N, str_eqb_neq; [reflexivity|]. intros ->. now rewrite str_ltb_irrefl in H.
  - now rewrite str_ltb_irrefl, str_eqb_refl.
  - rewrite H. assert (N : str_ltb x y = false) by (destruct (str_ltb x y) eqn:E; auto; pose proof (str_ltb_trans _ _ _ H E); rewrite str_ltb_irrefl in *; discriminate).
    rewrite N, str_eqb_neq; [reflexivity|]. intros ->. now rewrite str_ltb_irrefl in H.
Qed.
Lemma tok_trans : forall x y z, tok_cmp x y = Lt -> tok_cmp y z = Lt -> tok_cmp x z = Lt.
Proof.
  intros [x|x] [y|y] [z|z]; cbn [tok_cmp]; try discriminate; try reflexivity; intros A B.
  - destruct (str_ltb x y) eqn:E; [|destruct (str_eqb x y); discriminate]. destruct (str_ltb y z) eqn:F; [|destruct (str_eqb y z); discriminate].
    now rewrite (str_ltb_trans _ _ _ E F).
  - rewrite Z.compare_lt_iff in *. lia.
Qed.
Lemma ltb_flip : forall a b, key_ltb a b = true -> key_ltb b a = false.
Proof.
  induction a as [|x a IH]; intros [|y b] H; try discriminate; [reflexivity|]. cbn in *. rewrite tok_flip. destruct (tok_cmp x y); cbn; [auto|reflexivity|discriminate].
Qed.
(** not after, and not after *)
Lemma not_ltb_trans : forall a b c, key_ltb b a = false -> key_ltb c b = false -> key_ltb c a = false.
Proof.
  induction a as [|x a IH]; intros b c H1 H2; [destruct c; reflexivity|]. destruct b as [|y b]; [discriminate|]. destruct c as [|z c]; [discriminate|]. cbn in *.
  destruct (tok_cmp y x) eqn:E1; [|discriminate|].
  - destruct (tok_eq y x E1 z) as [_ G]. rewrite <- G. destruct (tok_cmp z y); [eauto|discriminate|reflexivity].
  - assert (X : tok_cmp x y = Lt) by (rewrite tok_flip, E1; reflexivity). destruct (tok_cmp z y) eqn:E2; [|discriminate|].
    + destruct (tok_eq z y E2 x) as [G _]. rewrite G, E1. reflexivity.
    + assert (Y : tok_cmp y z = Lt) by (rewrite tok_flip, E2; reflexivity). rewrite tok_flip, (tok_trans _ _ _ X Y). reflexivity.
Qed.

(* ------------------------------------------------------------ the sorting *)

Definition ord (a b : str) : Prop := key_ltb (nat_key b) (nat_key a) = false.
Lemma ins_perm : forall x l, Permutation (ins x l) (x :: l).
Proof. induction l as [|y l IH]; [reflexivity|]. cbn. destruct (key_ltb _ _); [|reflexivity]. rewrite IH. apply perm_swap. Qed.
Theorem sort_perm : forall l, Permutation (sort_nicely l) l.
Proof. induction l as [|x l IH]; [reflexivity|]. unfold sort_nicely in *. cbn [fold_right]. rewrite ins_perm. now constructor. Qed.
Lemma ins_sorted : forall x l, StronglySorted ord l -> StronglySorted ord (ins x l).
Proof.
  intros x l S. induction S as [|y l S IH F]; [repeat constructor|]. cbn. destruct (key_ltb (nat_key y) (nat_key x)) eqn:E.
  - constructor; [assumption|]. rewrite Forall_forall in *. intros z I. apply (Permutation_in _ (ins_perm x l)) in I. destruct I as [<-|I]; [|auto]. now apply ltb_flip.
  - constructor; [now constructor|]. constructor; [exact E|]. rewrite Forall_forall in *. intros z I. apply (not_ltb_trans _ (nat_key y)); [exact E|now apply F].
Qed.
Lemma sort_sorted : forall l, StronglySorted ord (sort_nicely l).
Proof. induction l as [|x l IH]; [constructor|]. now apply ins_sorted. Qed.
Theorem sort_order : forall l u a v b w, sort_nicely l = u ++ a :: v ++ b :: w -> ~ smaller b a.
Proof.
  intros l u a v b w E H. apply smaller_iff in H. pose proof (sort_sorted l) as S. rewrite E in S. clear E. induction u as [|c u IH]; cbn in S.
  - inversion S as [|? ? _ F]; subst. rewrite Forall_forall in F. assert (I : In b (v ++ b :: w)) by (apply in_or_app; right; now left). apply F in I. unfold ord in I. congruence.
  - inversion S; subst. auto.
Qed.
(** names of the same key stay as they were *)
Lemma ins_stable : forall (e : str -> bool) x l, (forall y, e y = true -> e x = true -> key_ltb (nat_key y) (nat_key x) = false) ->
  filter e (ins x l) = if e x then x :: filter e l else filter e l.
Proof.
  intros e x l H. induction l as [|y l IH]; [cbn; destruct (e x); reflexivity|]. cbn. destruct (key_ltb (nat_key y) (nat_key x)) eqn:E.
  - cbn. rewrite IH. destruct (e y) eqn:Ey, (e x) eqn:Ex; try reflexivity. rewrite H in E by auto. discriminate.
  - cbn. destruct (e x); reflexivity.
Qed.
Theorem sort_stable : forall l (e : str -> bool), (forall x y, e x = true -> e y = true -> ~ smaller x y) -> filter e (sort_nicely l) = filter e l.
Proof.
  intros l e H. induction l as [|x l IH]; [reflexivity|]. unfold sort_nicely in *. cbn [fold_right filter]. rewrite ins_stable, IH; [reflexivity|].
  intros y Ey Ex. destruct (key_ltb (nat_key y) (nat_key x)) eqn:E; auto. apply smaller_iff in E. now apply H in E.
Qed.

(* --------------------------------------------------------- numbered names *)

(** one number in a name *)
Lemma cut_app : forall p q d, ends_digitless p -> starts_digitless q -> d <> [] -> Forall (fun x => x < 10) d ->
  exists l a r u, forall e, e <> [] -> Forall (fun x => x < 10) e -> cut (p ++ map digit e ++ q) (l ++ (a, e) :: r) u.
Proof.
  intros p q d P Q _ _. destruct (cut_exists p) as (l & a & Ep & Fp & Dp & Tp). destruct (cut_exists q) as (r & u & Eq & Fq & Dq & Tq).
  exists l, a, r, u. intros e N F. split; [|split; [|split]].
  - rewrite Ep, Eq, flat_map_app. cbn [flat_map fst snd]. now rewrite <- !app_assoc.
  - apply Forall_app. split; [assumption|]. constructor; [cbn; auto|assumption].
  - exact Dq.
  - assert (Hr : Forall (fun td : str * list nat => fst td <> []) r).
    { destruct r as [|[t f] r]; [constructor|]. constructor; [|exact Tq]. cbn. intros ->. inversion Fq as [|? ? (_ & Nf & Ff) _]; subst. cbn [snd] in *.
      destruct f as [|x f]; [congruence|]. inversion Ff; subst. apply (Q (digit x) (map digit f ++ flat_map (fun td => fst td ++ map digit (snd td)) r ++ u)).
      - cbn. now rewrite <- app_assoc.
      - exists x. auto. }
    destruct l as [|[t f] l]; cbn [app tl]; [exact Hr|]. apply Forall_app. split; [exact Tp|]. constructor; [|exact Hr]. cbn. intros ->.
    destruct (@exists_last _ ((t, f) :: l)) as (l0 & [t0 f0] & El); [discriminate|]. rewrite El in *. rewrite Forall_app in Fp. destruct Fp as [_ Fp].
    inversion Fp as [|? ? (_ & Nf & Ff) _]; subst. cbn [snd] in *. destruct (@exists_last _ f0 Nf) as (f1 & x & ->). apply Forall_app in Ff. destruct Ff as [_ Ff].
    inversion Ff; subst. apply (P (flat_map (fun td => fst td ++ map digit (snd td)) l0 ++ t0 ++ map digit f1) (digit x)).
    + rewrite app_nil_r, flat_map_app. cbn [flat_map fst snd]. rewrite app_nil_r, map_app. cbn [map]. now rewrite <- !app_assoc.
    + exists x. auto.
Qed.
Lemma text_lt_irrefl : forall x, ~ text_lt x x.
Proof. intros x H. apply text_lt_iff in H. now rewrite str_ltb_irrefl in H. Qed.
Lemma less_irrefl : forall l t, ~ less l t l t.
Proof.
  induction l as [|[a d] l IH]; intros t H; cbn in H; [now apply text_lt_irrefl in H|]. destruct H as [H|[_ [H|[_ H]]]]; [now apply text_lt_irrefl in H|lia|now apply IH in H].
Qed.
Lemma less_mid : forall l a d e r u, less (l ++ (a, d) :: r) u (l ++ (a, e) :: r) u <-> (wholeZ d < wholeZ e)%Z.
Proof.
  induction l as [|[t f] l IH]; intros a d e r u; cbn [app less].
  - split; [intros [H|[_ [H|[_ H]]]]; [now apply text_lt_irrefl in H|exact H|now apply less_irrefl in H]|auto].
  - rewrite IH. split; [|auto]. intros [H|[_ [H|[_ H]]]]; [now apply text_lt_irrefl in H|lia|exact H].
Qed.
Theorem numbered : forall p q d e, ends_digitless p -> starts_digitless q -> d <> [] -> e <> [] -> Forall (fun x => (x < 10)%nat) d -> Forall (fun x => (x < 10)%nat) e ->
  smaller (p ++ map digit d ++ q) (p ++ map digit e ++ q) <-> (wholeZ d < wholeZ e)%Z.
Proof.
  intros p q d e P Q Nd Ne Fd Fe. destruct (cut_app p q d P Q Nd Fd) as (l & a & r & u & C). rewrite <- smaller_iff.
  rewrite (key_cut _ _ _ (C d Nd Fd)), (key_cut _ _ _ (C e Ne Fe)). rewrite less_iff; [apply less_mid| |]; eauto using cut_small.
Qed.

(** Decimals: 0.9 comes before 0.10. *)
Theorem sort_decimals_refuted : ~ (forall a b x y u v w, py_float a = POk (Some x) -> py_float b = POk (Some y) ->
  sort_nicely [a; b] = u ++ a :: v ++ b :: w -> (x <= y)%R).
Proof.
  intros H. specialize (H (s "0.9") (s "0.10")).
  pose proof (float_read [] (mk_num None [0] (Some [9]) None) []) as A. pose proof (float_read [] (mk_num None [0] (Some [1; 0]) None) []) as B.
  assert (E : forall P Q : Prop, P -> (P -> Q) -> Q) by auto.
  specialize (A ltac:(repeat split; cbn; try (repeat constructor; lia); discriminate) ltac:(constructor) ltac:(constructor)).
  specialize (B ltac:(repeat split; cbn; try (repeat constructor; lia); discriminate) ltac:(constructor) ltac:(constructor)).
  specialize (H _ _ [] [] [] A B eq_refl). unfold num_value in H. cbn in H. lra.
Qed.
(** Capitals come before all small letters. *)
Theorem sort_case : sort_nicely [s "apple"; s "Zebra"] = [s "Zebra"; s "apple"].
Proof. reflexivity. Qed.
