(** Cleaning up a text. *)
From Coq Require Import Reals List Arith ZArith Bool Ascii String Lia.
From Verif Require Import PyRes PyStr PyStr_Proofs Cat_Model Cat_Spec Hp_Model Hp_Spec Hp_Config.
Import ListNotations.
Local Notation length := List.length.
Local Open Scope list_scope.
Local Open Scope nat_scope.

Lemma white_b_iff : forall c, white_b c = is_space c.
Proof.
  intros c. destruct (is_space c) eqn:E.
  - apply white_iff in E. unfold white_b. apply existsb_exists. exists (nat_of_ascii c). split; [exact E|apply Nat.eqb_refl].
  - unfold white_b. destruct (existsb _ _) eqn:F; auto. apply existsb_exists in F. destruct F as (n & I & F). apply Nat.eqb_eq in F. subst n.
    apply white_iff in I. congruence.
Qed.

(* ----------------------------------------------------------------- words *)

Definition ne (w : str) : bool := negb (str_eqb w []).
Lemma chop_nonempty : forall x, chop x <> [].
Proof. induction x as [|c x IH]; [discriminate|]. cbn [chop]. destruct (white_b c); [discriminate|]. destruct (chop x); discriminate. Qed.
Lemma words_white : forall c x, is_space c = true -> words_of (c :: x) = words_of x.
Proof. intros c x H. unfold words_of. cbn [chop]. rewrite white_b_iff, H. reflexivity. Qed.
(** the first piece, which grows, and the other words *)
Definition head_piece (x : str) : str := hd [] (chop x).
Definition later (x : str) : list str := filter ne (tl (chop x)).
Lemma words_split : forall x, words_of x = if ne (head_piece x) then head_piece x :: later x else later x.
Proof. intros x. unfold words_of, head_piece, later. fold ne. pose proof (chop_nonempty x). destruct (chop x); [congruence|reflexivity]. Qed.
Lemma head_solid : forall c x, is_space c = false -> head_piece (c :: x) = c :: head_piece x /\ later (c :: x) = later x.
Proof. intros c x H. unfold head_piece, later. cbn [chop]. rewrite white_b_iff, H. pose proof (chop_nonempty x). destruct (chop x); [congruence|split; reflexivity]. Qed.
Lemma head_white : forall c x, is_space c = true -> head_piece (c :: x) = [] /\ later (c :: x) = words_of x.
Proof. intros c x H. unfold head_piece, later, words_of. cbn [chop]. rewrite white_b_iff, H. split; reflexivity. Qed.

Lemma runs_words : forall p r, (forall c, p c = true -> is_space c = true) -> is_space r = true ->
  forall x b, words_of (runs p r b x) = words_of x /\ (b = false -> head_piece (runs p r b x) = head_piece x /\ later (runs p r b x) = later x).
Proof.
  intros p r P Hr x. induction x as [|c x IH]; intros b; [split; [|split]; reflexivity|]. cbn [runs]. destruct (p c) eqn:E.
  - pose proof (P c E) as S. destruct b.
    + split; [|discriminate]. rewrite words_white by assumption. apply (IH true).
    + split; [rewrite !words_white by assumption; apply (IH true)|]. intros _. destruct (head_white r (runs p r true x) Hr) as [-> ->]. destruct (head_white c x S) as [-> ->].
      split; [reflexivity|apply (IH true)].
  - destruct (IH false) as [W H]. destruct (H eq_refl) as [H1 H2]. destruct (is_space c) eqn:S.
    + split; [now rewrite !words_white|]. intros _. destruct (head_white c (runs p r false x) S) as [-> ->]. destruct (head_white c x S) as [-> ->]. auto.
    + destruct (head_solid c (runs p r false x) S) as [A1 A2]. destruct (head_solid c x S) as [B1 B2].
      split; [rewrite !words_split, A1, A2, B1, B2, H1, H2; reflexivity|]. intros _. rewrite A1, A2, B1, B2, H1, H2. auto.
Qed.

Lemma words_lstrip : forall x, words_of (lstrip x) = words_of x.
Proof. induction x as [|c x IH]; [reflexivity|]. cbn [lstrip]. destruct (is_space c) eqn:E; [|reflexivity]. now rewrite words_white. Qed.
Lemma app_white : forall x c, is_space c = true -> head_piece (x ++ [c]) = head_piece x /\ later (x ++ [c]) = later x.
Proof.
  induction x as [|a x IH]; intros c H.
  - cbn [app]. destruct (head_white c [] H) as [-> ->]. split; reflexivity.
  - destruct (IH c H) as [I1 I2]. cbn [app]. destruct (is_space a) eqn:E.
    + destruct (head_white a (x ++ [c]) E) as [-> ->]. destruct (head_white a x E) as [-> ->]. split; [reflexivity|]. now rewrite !words_split, I1, I2.
    + destruct (head_solid a (x ++ [c]) E) as [-> ->]. destruct (head_solid a x E) as [-> ->]. now rewrite I1, I2.
Qed.
Lemma words_rstrip : forall x, words_of (rev (lstrip (rev x))) = words_of x.
Proof.
  induction x as [|c x IH] using rev_ind; [reflexivity|]. rewrite rev_app_distr. cbn [rev app lstrip]. destruct (is_space c) eqn:E.
  - rewrite IH, !words_split. destruct (app_white x c E) as [-> ->]. reflexivity.
  - cbn [rev]. now rewrite rev_involutive.
Qed.
Lemma words_strip : forall x, words_of (strip x) = words_of x.
Proof. intros x. unfold strip. now rewrite words_rstrip, words_lstrip. Qed.

(* ----------------------------------------------------------------- pairs *)

Lemma no_pair_cons : forall (P : ascii -> Prop) c x, no_pair P x -> (forall d t, x = d :: t -> ~ (P c /\ P d)) -> no_pair P (c :: x).
Proof.
  intros P c x N H u v a b E. destruct u as [|e u]; cbn in E; injection E as -> E; [now apply (H b v)|]. now apply (N u v a b).
Qed.
Lemma no_pair_tail : forall (P : ascii -> Prop) c x, no_pair P (c :: x) -> no_pair P x.
Proof. intros P c x N u v a b E. apply (N (c :: u) v a b). now rewrite E. Qed.
(** after a run of p nothing of p follows *)
Lemma runs_start : forall p r x d t, runs p r true x = d :: t -> p d = false.
Proof. intros p r x. induction x as [|c x IH]; intros d t H; [discriminate|]. cbn in H. destruct (p c) eqn:E; [eauto|]. injection H as <- _. exact E. Qed.
Lemma runs_pair : forall p r, p r = true -> forall x b, no_pair (fun c => p c = true) (runs p r b x).
Proof.
  intros p r Pr. induction x as [|c x IH]; intros b; [intros u v a d E; destruct u; discriminate|]. cbn [runs]. destruct (p c) eqn:E.
  - destruct b; [apply IH|]. apply no_pair_cons; [apply IH|]. intros d t H [_ D]. apply runs_start in H. congruence.
  - apply no_pair_cons; [apply IH|]. intros d t H [C _]. congruence.
Qed.
(** pairs of another kind are kept apart *)
Lemma runs_other : forall (Q : ascii -> Prop) p r, ~ Q r -> forall x b, no_pair Q x -> no_pair Q (runs p r b x).
Proof.
  intros Q p r N x. induction x as [|c x IH]; intros b H; [exact H|]. pose proof (no_pair_tail _ _ _ H) as H'. cbn [runs]. destruct (p c) eqn:E.
  - destruct b; [auto|]. apply no_pair_cons; [auto|]. tauto.
  - apply no_pair_cons; [auto|]. intros d t Ed [Qc Qd]. destruct x as [|e x]; [discriminate|]. cbn in Ed. destruct (p e) eqn:Ee.
    + injection Ed as <- _. contradiction.
    + injection Ed as <- _. now apply (H [] x c e).
Qed.
Lemma runs_in : forall p r x b c, In c (runs p r b x) -> c = r \/ (In c x /\ p c = false).
Proof.
  intros p r. induction x as [|a x IH]; intros b c I; [destruct I|]. cbn in I. destruct (p a) eqn:E.
  - destruct b; [apply IH in I; cbn; tauto|]. destruct I as [I|I]; [auto|]. apply IH in I. cbn. tauto.
  - destruct I as [<-|I]; [cbn; auto|]. apply IH in I. cbn. tauto.
Qed.

(* ----------------------------------------------------------------- edges *)

Definition no_edge (x : str) : Prop := (forall c t, x = c :: t -> is_space c = false) /\ (forall t c, x = t ++ [c] -> is_space c = false).
Lemma lstrip_first : forall x c t, lstrip x = c :: t -> is_space c = false.
Proof. induction x as [|a x IH]; intros c t H; [discriminate|]. cbn in H. destruct (is_space a) eqn:E; [eauto|]. injection H as <- _. exact E. Qed.
Lemma lstrip_suffix : forall x, exists u, x = u ++ lstrip x.
Proof. induction x as [|a x [u IH]]; [exists []; reflexivity|]. cbn. destruct (is_space a); [exists (a :: u); cbn; congruence|exists []; reflexivity]. Qed.
Lemma strip_edge : forall x, no_edge (strip x).
Proof.
  intros x. unfold strip. split.
  - intros c t H. destruct (lstrip_suffix (rev (lstrip x))) as [u E]. apply (f_equal (@rev _)) in E. rewrite rev_involutive, rev_app_distr, H in E. now apply lstrip_first in E.
  - intros t c H. apply (f_equal (@rev _)) in H. rewrite rev_involutive, rev_app_distr in H. now apply lstrip_first in H.
Qed.
Lemma runs_last : forall p r, (forall c, p c = true -> is_space c = true) -> forall x b,
  (forall t c, x = t ++ [c] -> is_space c = false) -> forall t c, runs p r b x = t ++ [c] -> is_space c = false.
Proof.
  intros p r P. induction x as [|a x IH]; intros b H t c E; [destruct t; discriminate|].
  assert (H' : forall t c, x = t ++ [c] -> is_space c = false) by (intros t' c' ->; apply (H (a :: t') c'); reflexivity).
  assert (X : x = [] -> p a = false).
  { intros ->. destruct (p a) eqn:Ea; auto. apply P in Ea. specialize (H [] a eq_refl). congruence. }
  assert (Y : forall b d, p a = true -> d :: runs p r b x = t ++ [c] -> is_space c = false).
  { intros b' d Pa Ed. destruct t as [|e t]; injection Ed as _ Ed; [|eauto]. destruct x as [|e x]; [rewrite X in Pa; congruence|].
    exfalso. assert (Z : forall y b, y <> [] -> (forall t c, y = t ++ [c] -> is_space c = false) -> runs p r b y <> []).
    { clear - P. induction y as [|g y IHy]; intros b Ny Hy; [congruence|]. cbn. destruct (p g) eqn:G; [|discriminate]. destruct b; [|discriminate].
      apply IHy; [intros ->; apply P in G; specialize (Hy [] g eq_refl); congruence|]. intros t c ->. apply (Hy (g :: t) c). reflexivity. }
    now apply (Z (e :: x) b'). }
  cbn [runs] in E. destruct (p a) eqn:Ea.
  - destruct b; [eauto|]. eapply Y; eauto.
  - destruct t as [|e t]; cbn in E; injection E as -> E; [|eauto]. destruct x as [|e x]; [apply (H [] c eq_refl)|].
    destruct (is_space c) eqn:S; auto. exfalso. assert (Z : forall y b, y <> [] -> (forall t c, y = t ++ [c] -> is_space c = false) -> runs p r b y <> []).
    { clear - P. induction y as [|g y IHy]; intros b' Ny Hy; [congruence|]. cbn. destruct (p g) eqn:G; [|discriminate]. destruct b'; [|discriminate].
      apply IHy; [intros ->; apply P in G; specialize (Hy [] g eq_refl); congruence|]. intros t c' ->. apply (Hy (g :: t) c'). reflexivity. }
    apply (Z (e :: x) false); [discriminate|exact H'|exact E].
Qed.
Lemma runs_edge : forall p r, (forall c, p c = true -> is_space c = true) -> forall x, no_edge x -> no_edge (runs p r false x).
Proof.
  intros p r P x [A B]. split; [|intros t c; now apply runs_last]. intros c t E. destruct x as [|a x]; [discriminate|]. specialize (A a x eq_refl).
  cbn in E. destruct (p a) eqn:Ea; [apply P in Ea; congruence|]. now injection E as <- _.
Qed.

(* ------------------------------------------------------------- the result *)

Lemma LF_space : forall c, ch_eqb c LF = true -> is_space c = true.
Proof. intros c H. apply ch_eqb_eq in H. subst. reflexivity. Qed.
Lemma CR_space : forall c, ch_eqb c CR = true -> is_space c = true.
Proof. intros c H. apply ch_eqb_eq in H. subst. reflexivity. Qed.
Lemma inl_space : forall c, inline_space c = true -> is_space c = true.
Proof. intros c H. unfold inline_space in H. apply andb_true_iff in H. destruct H as [H _]. apply andb_true_iff in H. tauto. Qed.

Theorem cleanup_words : forall x, words_of (cleanup_str_input x) = words_of x.
Proof.
  intros x. unfold cleanup_str_input. rewrite (proj1 (runs_words inline_space " "%char inl_space eq_refl _ _)), (proj1 (runs_words _ LF LF_space eq_refl _ _)),
    (proj1 (runs_words _ LF CR_space eq_refl _ _)). apply words_strip.
Qed.

Lemma no_edge_white : forall x, no_edge x -> (forall c t, x = c :: t -> ~ white c) /\ (forall t c, x = t ++ [c] -> ~ white c).
Proof.
  intros x [A B]. split; intros; intros W; apply white_iff in W; [apply A in H|apply B in H]; congruence.
Qed.
Lemma no_pair_imp : forall (P Q : ascii -> Prop) x, (forall c, P c -> Q c) -> no_pair Q x -> no_pair P x.
Proof. intros P Q x H N u v a b E [A B]. apply (N u v a b E). auto. Qed.

Theorem cleanup_tidy : forall x, tidy (cleanup_str_input x).
Proof.
  intros x. unfold cleanup_str_input. set (x1 := runs (fun c => ch_eqb c CR) LF false (strip x)). set (x2 := runs (fun c => ch_eqb c LF) LF false x1).
  assert (N1 : ~ In CR x1) by (intros I; apply runs_in in I; destruct I as [I|[_ I]]; [discriminate I|discriminate I]).
  assert (N2 : ~ In CR x2) by (intros I; apply runs_in in I; destruct I as [I|[I _]]; [discriminate I|contradiction]).
  split; [|split; [|split]].
  - intros c I W. apply runs_in in I. destruct I as [->|[I F]]; [auto|]. apply white_iff in W. unfold inline_space in F. rewrite W in F. cbn [andb] in F.
    destruct (ch_eqb c LF) eqn:E; [apply ch_eqb_eq in E; auto|]. cbn in F. apply negb_false_iff, ch_eqb_eq in F. subst c. contradiction.
  - apply (no_pair_imp _ (fun c => inline_space c = true)); [intros c ->; reflexivity|]. apply runs_pair. reflexivity.
  - apply runs_other; [discriminate|]. apply (no_pair_imp _ (fun c => ch_eqb c LF = true)); [intros c ->; reflexivity|]. apply runs_pair. reflexivity.
  - apply no_edge_white. apply runs_edge; [apply inl_space|]. apply runs_edge; [apply LF_space|]. apply runs_edge; [apply CR_space|]. apply strip_edge.
Qed.

(** a tidy text stays *)
Lemma runs_id : forall p r x, (forall c, In c x -> p c = true -> c = r) -> no_pair (fun c => p c = true) x -> runs p r false x = x.
Proof.
  intros p r x. induction x as [|c x IH]; intros H N; [reflexivity|]. cbn [runs]. pose proof (no_pair_tail _ _ _ N) as N'.
  assert (I : runs p r false x = x) by (apply IH; auto; intros d D; apply H; now right). destruct (p c) eqn:E; [|now rewrite I].
  rewrite <- (H c) at 1 by (auto; now left). f_equal. destruct x as [|d x]; [reflexivity|]. assert (D : p d = false).
  { destruct (p d) eqn:D; auto. exfalso. apply (N [] x c d eq_refl). auto. }
  cbn in *. rewrite D in *. injection I as I. now rewrite I.
Qed.
Lemma strip_id : forall x, no_edge x -> strip x = x.
Proof.
  intros x [A B]. unfold strip. assert (L : lstrip x = x) by (destruct x as [|c x]; [reflexivity|]; cbn; now rewrite (A c x eq_refl)). rewrite L.
  assert (M : lstrip (rev x) = rev x); [|now rewrite M, rev_involutive]. destruct (rev x) as [|c t] eqn:E; [reflexivity|]. cbn.
  rewrite (B (rev t) c); [reflexivity|]. apply (f_equal (@rev _)) in E. rewrite rev_involutive in E. exact E.
Qed.
Theorem cleanup_keeps : forall x, tidy x -> cleanup_str_input x = x.
Proof.
  intros x (A & B & C & D & E). unfold cleanup_str_input. rewrite strip_id by (split; intros; apply not_white; eauto).
  assert (NC : ~ In CR x) by (intros I; destruct (A CR I) as [X|X]; [cbn; tauto|discriminate X|discriminate X]).
  rewrite (runs_id _ LF x).
  2:{ intros c I H. apply ch_eqb_eq in H. subst c. contradiction. }
  2:{ intros u v a b X [P Q]. apply ch_eqb_eq in P. subst a. apply NC. rewrite X. apply in_or_app. right. now left. }
  rewrite (runs_id _ LF x).
  2:{ intros c I H. now apply ch_eqb_eq in H. }
  2:{ apply (no_pair_imp _ _ _ (fun c H => proj1 (ch_eqb_eq c LF) H) C). }
  assert (K : forall c, In c x -> inline_space c = true -> c = " "%char).
  { intros c I H. destruct (A c I) as [X|X]; [apply white_iff; now apply inl_space|exact X|]. subst c. discriminate H. }
  apply runs_id; [exact K|]. intros u v a b X [P Q]. apply (B u v a b X). split; apply K; auto; rewrite X; apply in_or_app; right; cbn; auto.
Qed.
Theorem cleanup_twice : forall x, cleanup_str_input (cleanup_str_input x) = cleanup_str_input x.
Proof. intros x. apply cleanup_keeps, cleanup_tidy. Qed.

(** a line of blanks survives *)
Theorem cleanup_blank_refuted : ~ (forall x, Forall (fun l => words_of l <> []) (split "010"%char (cleanup_str_input x))).
Proof.
  intros H. specialize (H ["a"; "010"; " "; "010"; "b"]%char). vm_compute in H. inversion H as [|? ? _ H1]; subst. inversion H1 as [|? ? H2 _]; subst. now apply H2.
Qed.
