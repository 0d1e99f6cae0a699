(** Laws of the beam functions. *)
From Coq Require Import Reals List Arith ZArith Bool Ascii String Lia Lra.
From Verif Require Import PyRes PyStr PyStr_Proofs PyList PyList_Proofs NdArray NdIndex Synth_Model Icube_Model Header_Model Header_Spec Header_Proofs Fits_Model Fits_Spec Fits_Proofs.
Import ListNotations.
Local Open Scope nat_scope.
Local Arguments s : simpl never.

Lemma is_blank_spec : forall c, is_blank c = true <-> blank c.
Proof.
  intros c. unfold is_blank, blank. cbv zeta. rewrite !orb_true_iff, !andb_true_iff, Nat.eqb_eq, !Nat.leb_le. tauto.
Qed.
Lemma is_blank_not : forall c, is_blank c = false <-> ~ blank c.
Proof. intros c. rewrite <- is_blank_spec. destruct (is_blank c); split; congruence. Qed.

Lemma take_word_spec : forall x w r, take_word x = (w, r) <->
  x = (w ++ r)%list /\ Forall (fun c => ~ blank c) w /\ (r = [] \/ exists d t, r = d :: t /\ blank d).
Proof.
  induction x as [|a x IH]; intros w r; cbn [take_word].
  - split.
    + intros [= <- <-]. auto.
    + intros (E & _ & _). symmetry in E. apply app_eq_nil in E. destruct E as [-> ->]. reflexivity.
  - destruct (is_blank a) eqn:B.
    + apply is_blank_spec in B. split.
      * intros [= <- <-]. split; [reflexivity|]. split; [constructor|]. right. eauto.
      * intros (E & F & _). destruct w as [|b w]; cbn in E; [now rewrite E|]. injection E as <- _. inversion F. contradiction.
    + apply is_blank_not in B. destruct (take_word x) as [w0 r0] eqn:T. split.
      * intros [= <- <-]. destruct (proj1 (IH _ _) eq_refl) as (-> & F & Hr). split; [reflexivity|]. split; [constructor; assumption|exact Hr].
      * intros (E & F & Hr). destruct w as [|b w].
        { cbn in E. subst r. destruct Hr as [Hr|(d & t & [= <- <-] & Hd)]; [discriminate|contradiction]. }
        injection E as <- E. inversion F; subst. assert (H := proj2 (IH w r) (conj eq_refl (conj H2 Hr))). now injection H as -> ->.
Qed.

Definition starts_word (x : str) : Prop := x = [] \/ exists c t, x = c :: t /\ ~ blank c.

Lemma skip_blank_spec : forall x y, skip_blank x = y <-> starts_word y /\ exists b, Forall blank b /\ x = (b ++ y)%list.
Proof.
  induction x as [|a x IH]; intros y; cbn [skip_blank].
  - split.
    + intros <-. split; [now left|]. exists []. auto.
    + intros (_ & b & _ & E). symmetry in E. apply app_eq_nil in E. now destruct E as [_ ->].
  - destruct (is_blank a) eqn:B.
    + apply is_blank_spec in B. rewrite IH. split.
      * intros (Hs & b & F & ->). split; [exact Hs|]. exists (a :: b). auto.
      * intros (Hs & b & F & E). split; [exact Hs|]. destruct b as [|a' b].
        { cbn in E. subst y. destruct Hs as [Hs|(c & t & [= <- <-] & Hc)]; [discriminate|contradiction]. }
        injection E as <- ->. inversion F; subst. eauto.
    + apply is_blank_not in B. split.
      * intros <-. split; [right; eauto|]. exists []. auto.
      * intros (_ & b & F & E). destruct b as [|a' b]; [now rewrite E|]. injection E as <- _. inversion F. contradiction.
Qed.

Lemma blanks1_spec : forall x y, blanks1 x = Some y <-> starts_word y /\ exists b, blanks b /\ x = (b ++ y)%list.
Proof.
  intros [|a x] y; cbn [blanks1].
  - split; [discriminate|]. intros (_ & b & (N & _) & E). symmetry in E. apply app_eq_nil in E. destruct E. congruence.
  - destruct (is_blank a) eqn:B.
    + apply is_blank_spec in B. split.
      * intros [= E]. apply skip_blank_spec in E. destruct E as (Hs & b & F & ->). split; [exact Hs|]. exists (a :: b).
        split; [split; [discriminate|constructor; assumption]|reflexivity].
      * intros (Hs & b & (N & F) & E). f_equal. apply skip_blank_spec. split; [exact Hs|]. destruct b as [|a' b]; [congruence|].
        injection E as <- ->. inversion F; subst. eauto.
    + apply is_blank_not in B. split; [discriminate|]. intros (_ & b & (N & F) & E). destruct b as [|a' b]; [congruence|].
      injection E as <- _. inversion F. contradiction.
Qed.

Lemma lit_spec : forall p x y, lit p x = Some y <-> x = (p ++ y)%list.
Proof.
  intros p x y. unfold lit. destruct (startswith p x) eqn:E.
  - apply startswith_spec in E. destruct E as (z & ->). rewrite skipn_app, Nat.sub_diag, skipn_all. cbn. split.
    + now intros [= ->].
    + intros H. apply app_inv_head in H. now subst.
  - split; [discriminate|]. intros ->. rewrite startswith_app in E. discriminate.
Qed.

Definition ends_word (r : str) : Prop := r = [] \/ exists d t, r = d :: t /\ blank d.

Lemma word1_spec : forall x w r, word1 x = Some (w, r) <-> x = (w ++ r)%list /\ a_word w /\ ends_word r.
Proof.
  intros x w r. unfold word1, a_word. destruct (take_word x) as [w0 r0] eqn:T.
  apply take_word_spec in T. destruct T as (-> & F & Hr). split.
  - intros H. assert ((w0, r0) = (w, r) /\ w0 <> []) as [[= <- <-] N] by (destruct w0; [discriminate|]; split; congruence). auto.
  - intros (E & (N & F') & Hr'). assert (T : take_word (w0 ++ r0) = (w0, r0)) by (apply take_word_spec; auto).
    assert (T' : take_word (w0 ++ r0) = (w, r)) by (apply take_word_spec; auto). rewrite T in T'. injection T' as -> ->.
    destruct w; [congruence|reflexivity].
Qed.

Lemma word_starts : forall w r, a_word w -> starts_word (w ++ r)%list.
Proof. intros [|c w] r (N & F); [congruence|]. inversion F; subst. right. exists c, (w ++ r)%list. auto. Qed.

Lemma field_spec : forall p x w r, field p x = Some (w, r) <->
  exists b, blanks b /\ a_word w /\ ends_word r /\ x = (p ++ b ++ w ++ r)%list.
Proof.
  intros p x w r. unfold field, obind. destruct (lit p x) as [y|] eqn:L.
  - apply lit_spec in L. subst x. destruct (blanks1 y) as [z|] eqn:B.
    + apply blanks1_spec in B. destruct B as (Hs & b & Hb & ->). rewrite word1_spec. split.
      * intros (-> & Hw & Hr). exists b. auto.
      * intros (b' & Hb' & Hw & Hr & E). apply app_inv_head in E.
        assert (E1 : blanks1 (b ++ z) = Some z) by (apply blanks1_spec; eauto).
        assert (E2 : blanks1 (b ++ z) = Some (w ++ r)%list) by (apply blanks1_spec; split; [now apply word_starts|eauto]).
        rewrite E1 in E2. injection E2 as ->. auto.
    + split; [discriminate|]. intros (b & Hb & Hw & Hr & E). apply app_inv_head in E. subst y.
      assert (E2 : blanks1 (b ++ w ++ r) = Some (w ++ r)%list) by (apply blanks1_spec; split; [now apply word_starts|eauto]). congruence.
  - split; [discriminate|]. intros (b & Hb & Hw & Hr & ->).
    assert (lit p (p ++ b ++ w ++ r)%list = Some (b ++ w ++ r)%list) by now apply lit_spec. congruence.
Qed.

Lemma lit_starts : forall (w : string) y, match w with String c _ => is_blank c = false | EmptyString => False end -> starts_word (s w ++ y)%list.
Proof. intros [|c w] y H; [destruct H|]. right. unfold s. cbn. exists c, (list_ascii_of_string w ++ y)%list. split; [reflexivity|]. now apply is_blank_not. Qed.

Lemma blanks_ends : forall b y, blanks b -> ends_word (b ++ y)%list.
Proof. intros [|c b] y (N & F); [congruence|]. inversion F; subst. right. exists c, (b ++ y)%list. auto. Qed.

Lemma obind_some : forall {A B} (x : option A) (f : A -> option B) y, obind x f = Some y <-> exists a, x = Some a /\ f a = Some y.
Proof. intros A B [a|] f y; cbn; split; [intros H; eauto|intros (b & [= <-] & H); exact H|discriminate|intros (b & H & _); discriminate]. Qed.

(** which lines hold a beam, and the three words taken from them *)
Theorem beam_line_spec : forall line b m p, beam_line line = Some (b, m, p) <-> beam_text line b m p.
Proof.
  intros line b m p. unfold beam_line, beam_text. split.
  - intros H. apply obind_some in H. destruct H as (x1 & L1 & H). apply lit_spec in L1.
    apply obind_some in H. destruct H as (x2 & L2 & H). apply blanks1_spec in L2. destruct L2 as (_ & s1 & B1 & ->).
    apply obind_some in H. destruct H as (x3 & L3 & H). apply lit_spec in L3. subst x2.
    destruct x3 as [|c x3]; [discriminate|]. destruct (is_blank c) eqn:Bc; [|discriminate]. apply is_blank_spec in Bc.
    apply obind_some in H. destruct H as ([b0 r1] & L4 & H). apply field_spec in L4. destruct L4 as (s2 & B2 & Wb & _ & ->). cbn [fst snd] in H.
    apply obind_some in H. destruct H as (x5 & L5 & H). apply blanks1_spec in L5. destruct L5 as (_ & s3 & B3 & ->).
    apply obind_some in H. destruct H as ([m0 r2] & L6 & H). apply field_spec in L6. destruct L6 as (s4 & B4 & Wm & _ & ->). cbn [fst snd] in H.
    apply obind_some in H. destruct H as (x7 & L7 & H). apply blanks1_spec in L7. destruct L7 as (_ & s5 & B5 & ->).
    apply obind_some in H. destruct H as ([p0 r3] & L8 & H). apply field_spec in L8. destruct L8 as (s6 & B6 & Wp & Er & ->). cbn [fst snd] in H.
    injection H as <- <- <-. do 3 (split; [assumption|]). exists s1, c, s2, s3, s4, s5, s6, r3. do 8 (split; [assumption|]).
    rewrite L1. now rewrite <- ?app_assoc.
  - intros (Wb & Wm & Wp & s1 & c & s2 & s3 & s4 & s5 & s6 & r & B1 & Bc & B2 & B3 & B4 & B5 & B6 & Er & ->).
    apply obind_some. eexists. split; [now apply lit_spec|].
    apply obind_some. exists (s "CLEAN" ++ [c] ++ s "BMAJ=" ++ s2 ++ b ++ s3 ++ s "BMIN=" ++ s4 ++ m ++ s5 ++ s "BPA=" ++ s6 ++ p ++ r)%list.
    split; [apply blanks1_spec; split; [now apply lit_starts|eauto]|].
    apply obind_some. eexists. split; [now apply lit_spec|]. cbn [app]. rewrite (proj2 (is_blank_spec c) Bc).
    apply obind_some. exists (b, (s3 ++ s "BMIN=" ++ s4 ++ m ++ s5 ++ s "BPA=" ++ s6 ++ p ++ r)%list).
    split; [apply field_spec; exists s2; do 2 (split; [assumption|]); split; [now apply blanks_ends|reflexivity]|]. cbn [fst snd].
    apply obind_some. exists (s "BMIN=" ++ s4 ++ m ++ s5 ++ s "BPA=" ++ s6 ++ p ++ r)%list.
    split; [apply blanks1_spec; split; [now apply lit_starts|eauto]|].
    apply obind_some. exists (m, (s5 ++ s "BPA=" ++ s6 ++ p ++ r)%list).
    split; [apply field_spec; exists s4; do 2 (split; [assumption|]); split; [now apply blanks_ends|reflexivity]|]. cbn [fst snd].
    apply obind_some. exists (s "BPA=" ++ s6 ++ p ++ r)%list.
    split; [apply blanks1_spec; split; [now apply lit_starts|eauto]|].
    apply obind_some. exists (p, r).
    split; [apply field_spec; exists s6; do 2 (split; [assumption|]); split; [exact Er|reflexivity]|]. reflexivity.
Qed.

Lemma beam_line_none : forall line, (forall b m p, ~ beam_text line b m p) -> beam_line line = None.
Proof. intros line H. destruct (beam_line line) as [[[b m] p]|] eqn:E; [|reflexivity]. apply beam_line_spec in E. now apply H in E. Qed.

Lemma beam_history_app : forall float l l' b, Forall (fun x => forall b m p, ~ beam_text x b m p) l -> beam_history float (l ++ l') b = beam_history float l' b.
Proof.
  intros float l l' b H. induction H as [|x l Hx _ IH]; cbn [app beam_history]; [reflexivity|]. now rewrite (beam_line_none x Hx).
Qed.

(** the cards first; else the last line with a beam *)
Theorem beam_found : forall float hist h x y z,
  (forall a b, onum (s "BMAJ") h = Some a -> onum (s "BMIN") h = Some b ->
     get_beam_from_header float hist h = (Some a, Some b, onum (s "BPA") h)) /\
  (onum (s "BMAJ") h = None \/ onum (s "BMIN") h = None ->
   (hist = None \/ (exists l, hist = Some l /\ Forall (fun t => forall b m p, ~ beam_text t b m p) l) ->
      get_beam_from_header float hist h = (onum (s "BMAJ") h, onum (s "BMIN") h, onum (s "BPA") h)) /\
   (forall pre t post b m p, hist = Some (pre ++ t :: post)%list -> beam_text t b m p ->
      Forall (fun t => forall b m p, ~ beam_text t b m p) post -> float b = Some x -> float m = Some y -> float p = Some z ->
      get_beam_from_header float hist h = (Some x, Some y, Some z))).
Proof.
  intros float hist h x y z. unfold get_beam_from_header. split.
  - intros a b -> ->. reflexivity.
  - intros N. assert (is_none (onum (s "BMAJ") h) || is_none (onum (s "BMIN") h) = true) as ->.
    { destruct N as [-> | ->]; [reflexivity|apply orb_true_r]. }
    split.
    + intros [-> |(l & -> & F)]; [reflexivity|]. rewrite <- (app_nil_r (rev l)). rewrite beam_history_app by (now apply Forall_rev). reflexivity.
    + intros pre t post b m p -> Ht F Hx Hy Hz. rewrite rev_app_distr. cbn [rev]. rewrite <- app_assoc.
      rewrite beam_history_app by (now apply Forall_rev). cbn [app beam_history]. rewrite (proj2 (beam_line_spec t b m p) Ht), Hx, Hy, Hz. reflexivity.
Qed.

(** a line whose words are not numbers: what stands before the first of them is
    taken, the rest stays as the cards give it, and no older line is read *)
Theorem beam_unreadable : forall float pre t post b m p h,
  onum (s "BMAJ") h = None \/ onum (s "BMIN") h = None -> beam_text t b m p ->
  Forall (fun t => forall b m p, ~ beam_text t b m p) post ->
  let r := get_beam_from_header float (Some (pre ++ t :: post)%list) h in
  (float b = None -> r = (onum (s "BMAJ") h, onum (s "BMIN") h, onum (s "BPA") h)) /\
  (forall x, float b = Some x -> float m = None -> r = (Some x, onum (s "BMIN") h, onum (s "BPA") h)) /\
  (forall x y, float b = Some x -> float m = Some y -> float p = None -> r = (Some x, Some y, onum (s "BPA") h)).
Proof.
  intros float pre t post b m p h N Ht F r. unfold r, get_beam_from_header.
  assert (is_none (onum (s "BMAJ") h) || is_none (onum (s "BMIN") h) = true) as ->.
  { destruct N as [-> | ->]; [reflexivity|apply orb_true_r]. }
  rewrite rev_app_distr. cbn [rev]. rewrite <- app_assoc. rewrite beam_history_app by (now apply Forall_rev).
  cbn [app beam_history]. rewrite (proj2 (beam_line_spec t b m p) Ht). split; [|split].
  - now intros ->.
  - now intros x -> ->.
  - now intros x y -> -> ->.
Qed.

(** the area under a Gaussian with these widths at half height, in pixels *)
Local Open Scope R_scope.
Theorem beam_area : forall a b p, p <> 0 ->
  get_beam_area a b p = POk (PI * a * b / (4 * ln 2 * p ^ 2)).
Proof.
  intros a b p Hp. unfold get_beam_area. cbv zeta.
  assert (P2 : 0 < p ^ 2) by (replace (p ^ 2) with (Rsqr p) by (unfold Rsqr; ring); now apply Rlt_0_sqr). rewrite Rabs_right by lra.
  destruct (Req_EM_T (p ^ 2) 0); [lra|]. f_equal.
  assert (L : 0 < ln 2) by (rewrite <- ln_1; apply ln_increasing; lra).
  assert (Q : sqrt (2 * ln 2) * sqrt (2 * ln 2) = 2 * ln 2) by (apply sqrt_sqrt; lra).
  assert (Q0 : 0 < sqrt (2 * ln 2)) by (apply sqrt_lt_R0; lra).
  replace (2 * PI * (a / (2 * sqrt (2 * ln 2))) * (b / (2 * sqrt (2 * ln 2))) / p ^ 2) with
    (2 * PI * a * b / (4 * (sqrt (2 * ln 2) * sqrt (2 * ln 2)) * p ^ 2)) by (field; repeat split; try exact Hp; lra).
  rewrite Q. field. repeat split; try exact Hp; lra.
Qed.
