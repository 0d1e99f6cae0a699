(** Command lines: how single words are taken. *)
From Coq Require Import Reals List Arith ZArith Bool Ascii String Lia.
From Verif Require Import CBase PyRes PyStr PyStr_Proofs Cat_Model Cat_Spec Cat_Text Hp_Spec Hp_Sort Cl_Model Cl_Spec.
Import ListNotations.
Local Notation length := List.length.
Local Notation Forall := List.Forall.
Local Open Scope list_scope.

(* ------------------------------------------------------------------ values *)

Lemma conv_reads : forall t w v, reads_as (type_of t) w v -> conv t w = Some v.
Proof.
  intros [| |] w v H; cbn [type_of reads_as conv] in *.
  - now subst.
  - destruct H as (g & ds & D & N & -> & ->).
    assert (X : int_text (show_sign g ++ map digit ds) = Some ((if minus g then -1 else 1) * wholeZ ds)%Z).
    { unfold int_text. pose proof (strip_padded [] (show_sign g ++ map digit ds) []) as P. cbn [app] in P. rewrite app_nil_r in P. rewrite P; [|constructor|constructor|].
      - assert (Y : sign_of (show_sign g ++ map digit ds) = ((if minus g then -1 else 1)%Z, map digit ds)).
        { destruct g as [[|]|]; cbn [show_sign minus app s list_ascii_of_string sign_of]; try reflexivity.
          destruct ds as [|d ds]; [congruence|]. inversion D; subst. cbn [map sign_of].
          rewrite (digit_not "-"%char d) by (auto; reflexivity). rewrite (digit_not "+"%char d) by (auto; reflexivity). reflexivity. }
        rewrite Y. pose proof (digs_run ds [] 0 0 D Logic.I) as Q. rewrite app_nil_r in Q. rewrite Q.
        destruct ds as [|d ds]; [congruence|]. cbn [List.length Nat.add]. f_equal.
      - unfold solid. split; [destruct g as [[|]|]; destruct ds; cbn; congruence|].
        rewrite forallb_app. rewrite digits_solid by exact D. destruct g as [[|]|]; reflexivity. }
    now rewrite X.
  - destruct H as [(n & O & -> & ->)|[-> ->]].
    + pose proof (float_read [] n [] O) as F. cbn [app] in F. rewrite app_nil_r in F. rewrite F by constructor. reflexivity.
    + reflexivity.
Qed.

Lemma conv_all_reads : forall t ws vs, Forall2 (reads_as (type_of t)) ws vs -> conv_all t ws = Some vs.
Proof. intros t ws vs H. induction H as [|w v ws vs R _ IH]; [reflexivity|]. cbn [conv_all]. now rewrite (conv_reads _ _ _ R), IH. Qed.

(* ----------------------------------------------------------------- options *)

Lemma opt_named : forall c n, In n (all_names c) <-> exists o, In o (c_opts c) /\ In n (o_names o).
Proof. intros c n. unfold all_names. rewrite in_flat_map. split; intros (o & A & B); exists o; auto. Qed.
Lemma find_none_neg : forall {A} (f : A -> bool) l, find f l = None -> forall x, In x l -> f x = false.
Proof. intros A f l H x I. exact (List.find_none f l H x I). Qed.
Lemma find_none : forall c n, ~ In n (all_names c) -> find_opt c n = None.
Proof.
  intros c n H. unfold find_opt. destruct (find _ (c_opts c)) as [o|] eqn:E; [|reflexivity]. exfalso. apply find_some in E. destruct E as [I X].
  apply existsb_exists in X. destruct X as (m & Im & Em). apply str_eqb_eq in Em. subst m. apply H, opt_named. eauto.
Qed.
Lemma nodup_flat : forall {A B} (f : A -> list B) l a b x, NoDup (flat_map f l) -> In a l -> In b l -> In x (f a) -> In x (f b) -> a = b.
Proof.
  intros A B f l. induction l as [|h l IH]; intros a b x N Ia Ib Xa Xb; [destruct Ia|]. cbn [flat_map] in N.
  assert (D : forall y, In y (f h) -> ~ In y (flat_map f l)).
  { intros y H. revert N. generalize (flat_map f l). intros r N. apply in_split in H. destruct H as (u & v & E). rewrite E, <- app_assoc in N. cbn in N. apply NoDup_remove_2 in N.
    intros R. apply N. rewrite !in_app_iff. auto. }
  assert (N' : NoDup (flat_map f l)). { clear - N. induction (f h) as [|y g IHg]; auto. inversion N; auto. }
  destruct Ia as [->|Ia], Ib as [->|Ib]; auto.
  - exfalso. apply (D x Xa). apply in_flat_map. eauto.
  - exfalso. apply (D x Xb). apply in_flat_map. eauto.
  - eapply IH; eauto.
Qed.
Lemma find_none_false : forall c o n, find (fun o => existsb (str_eqb n) (o_names o)) (c_opts c) = None -> In o (c_opts c) -> In n (o_names o) -> False.
Proof.
  intros c o n E I J. apply (find_none_neg _ _ E) in I. rewrite <- Bool.not_true_iff_false in I. apply I. apply existsb_exists. exists n. split; [exact J|apply str_eqb_refl].
Qed.
Lemma find_declared : forall c o n, NoDup (all_names c) -> In o (c_opts c) -> In n (o_names o) -> find_opt c n = Some o.
Proof.
  intros c o n N I J. unfold find_opt. destruct (find _ (c_opts c)) as [p|] eqn:E.
  - f_equal. apply find_some in E. destruct E as [K X]. apply existsb_exists in X. destruct X as (m & Im & Em). apply str_eqb_eq in Em. subst m.
    eapply nodup_flat; eauto.
  - exfalso. apply (find_none_false c o n E I J).
Qed.

(* ------------------------------------------------------------ single words *)

Lemma digit_form : forall c, is_digit c = true <-> exists d, (d < 10)%nat /\ c = digit d.
Proof. intros c. apply digit_iff. Qed.
Lemma digits_form : forall t, forallb is_digit t = true <-> exists a, digits a /\ t = map digit a.
Proof.
  induction t as [|c t IH]; cbn [forallb].
  - split; [|reflexivity]. intros _. exists []. split; [constructor|reflexivity].
  - rewrite andb_true_iff, digit_form, IH. split.
    + intros ((d & D & ->) & a & A & ->). exists (d :: a). split; [constructor; auto|reflexivity].
    + intros ([|d a] & A & E); [discriminate E|]. injection E as -> ->. inversion A; subst. split; eauto.
Qed.
Lemma isnumeric_iff : forall t, isnumeric t = true <-> exists a, digits a /\ a <> [] /\ t = map digit a.
Proof.
  intros t. destruct t as [|c t].
  - split; [discriminate|]. intros ([|d a] & _ & N & E); [congruence|discriminate E].
  - unfold isnumeric. rewrite digits_form. split; intros (a & A & E).
    + exists a. repeat split; auto. intros ->. discriminate E.
    + destruct E as [_ E]. eauto.
Qed.
Lemma after_digits_split : forall t, exists a, digits a /\ t = map digit a ++ after_digits t.
Proof.
  induction t as [|c t (a & A & E)].
  - exists []. split; [constructor|reflexivity].
  - cbn [after_digits]. destruct (is_digit c) eqn:D.
    + apply digit_form in D. destruct D as (d & D & ->). exists (d :: a). split; [constructor; auto|]. cbn. now rewrite <- E.
    + exists []. split; [constructor|reflexivity].
Qed.
Lemma after_digits_point : forall a t, digits a -> after_digits (map digit a ++ "."%char :: t) = "."%char :: t.
Proof.
  induction a as [|d a IH]; intros t A; [reflexivity|]. inversion A; subst. cbn [map app after_digits]. rewrite (proj2 (digit_form (digit d))) by eauto. auto.
Qed.
Lemma negative_iff : forall w, negative_like w = true <-> negative w.
Proof.
  intros [|c t].
  - split; [discriminate|]. intros (a & b & _ & _ & [[_ E]|[_ E]]); discriminate E.
  - cbn [negative_like]. rewrite andb_true_iff, ch_eqb_eq, orb_true_iff, isnumeric_iff. unfold negative. split.
    + intros (-> & [(a & A & N & ->)|H]).
      * exists a, []. repeat split; auto. constructor.
      * destruct (after_digits_split t) as (a & A & E). destruct (after_digits t) as [|x u]; [discriminate H|].
        apply andb_true_iff in H. destruct H as [H1 H2]. apply ch_eqb_eq in H1. subst x. apply isnumeric_iff in H2. destruct H2 as (b & B & N & ->).
        exists a, b. repeat split; auto. right. split; auto. now rewrite E.
    + intros (a & b & A & B & [[N E]|[N E]]); injection E as -> ->; (split; [reflexivity|]).
      * left. eauto.
      * right. rewrite after_digits_point by exact A. apply andb_true_iff. split; [reflexivity|]. apply isnumeric_iff. eauto.
Qed.

Lemma split_eq_none : forall x, ~ In "="%char x -> split_eq x = None.
Proof.
  induction x as [|c x IH]; intros H; [reflexivity|]. cbn [split_eq]. rewrite ch_eqb_neq by (intros ->; apply H; now left). rewrite IH; [reflexivity|]. intros I. apply H. now right.
Qed.
Lemma split_eq_some : forall n w, ~ In "="%char n -> split_eq (n ++ "="%char :: w) = Some (n, w).
Proof.
  induction n as [|c n IH]; intros w H; [reflexivity|]. cbn [app split_eq]. rewrite ch_eqb_neq by (intros ->; apply H; now left). rewrite IH; [reflexivity|]. intros I. apply H. now right.
Qed.

Lemma names_fst : forall c, map fst (names_of c) = all_names c.
Proof.
  intros c. unfold names_of, all_names. induction (c_opts c) as [|o l IH]; [reflexivity|]. cbn [flat_map]. rewrite map_app, IH, map_map. cbn [fst]. now rewrite map_id.
Qed.
Lemma names_in : forall c n o, In (n, o) (names_of c) <-> In o (c_opts c) /\ In n (o_names o).
Proof.
  intros c n o. unfold names_of. rewrite in_flat_map. split.
  - intros (p & I & H). apply in_map_iff in H. destruct H as (m & E & J). injection E as -> ->. auto.
  - intros (I & J). exists o. split; auto. apply in_map_iff. eauto.
Qed.
Lemma flat_none : forall {A B} (f : A -> list B) l, (forall x, In x l -> f x = []) -> flat_map f l = [].
Proof. induction l as [|x l IH]; intros H; [reflexivity|]. cbn. rewrite (H x) by now left. apply IH. intros y I. apply H. now right. Qed.
Lemma flat_one : forall {B} (f : str * opt -> list B) l n o k, NoDup (map fst l) -> In (n, o) l ->
  (forall x, In x l -> fst x <> n -> f x = []) -> f (n, o) = [k] -> flat_map f l = [k].
Proof.
  intros B f l. induction l as [|[m p] l IH]; intros n o k N I H E; [destruct I|]. cbn [map fst] in N. inversion N as [|? ? N1 N2]; subst. cbn [flat_map].
  destruct I as [I|I].
  - injection I as -> ->. rewrite E. rewrite flat_none; [reflexivity|]. intros x J. apply H; [now right|]. intros X. apply N1. apply in_map_iff. exists x. auto.
  - rewrite (H (m, p)); [|now left|]. { cbn. eapply IH; eauto. intros x J. apply H. now right. }
    cbn. intros ->. apply N1. apply in_map_iff. exists (n, o). auto.
Qed.

Lemma good_cases : forall c n, usual c -> In n (all_names c) -> good_name n.
Proof. intros c n (_ & _ & G) I. rewrite List.Forall_forall in G. now apply G. Qed.

Theorem word_plain : forall c w, usual c -> plain w -> classify c w = Some KArg.
Proof.
  intros c w U [->|[(a & t & -> & N)|[->|H]]].
  - reflexivity.
  - cbn [classify]. now rewrite (ch_eqb_neq a dash N).
  - cbn [classify s list_ascii_of_string]. change (ch_eqb "-" dash) with true. cbn [negb]. rewrite find_none; [reflexivity|].
    intros I. destruct (good_cases c _ U I) as (a & t & E & _). discriminate E.
  - pose proof (proj2 (negative_iff w) H) as NL.
    assert (X : exists b t, w = "-"%char :: b :: t /\ ((exists d, (d < 10)%nat /\ b = digit d) \/ b = "."%char) /\ ~ In "="%char w).
    { destruct H as (a & b & A & B & [[N E]|[N E]]).
      - destruct a as [|d a]; [congruence|]. inversion A; subst. exists (digit d), (map digit a). repeat split; eauto.
        intros [X|X]; [discriminate X|]. change (digit d :: map digit a) with (map digit (d :: a)) in X. apply in_map_iff in X. destruct X as (e & X & I).
        apply (proj1 (List.Forall_forall _ _) A) in I. pose proof (digit_not "="%char e I eq_refl) as Y. rewrite X in Y. discriminate Y.
      - assert (Q : ~ In "="%char w).
        { rewrite E. rewrite !in_app_iff. intros [X|[X|[X|X]]]; try (destruct X as [X|[]]; discriminate X);
            apply in_map_iff in X; destruct X as (e & X & I); [apply (proj1 (List.Forall_forall _ _) A) in I|apply (proj1 (List.Forall_forall _ _) B) in I];
            pose proof (digit_not "="%char e I eq_refl) as Y; rewrite X in Y; discriminate Y. }
        destruct a as [|d a].
        + exists "."%char, (map digit b). repeat split; auto.
        + inversion A; subst. exists (digit d), (map digit a ++ s "." ++ map digit b). repeat split; eauto. }
    destruct X as (b & t & -> & B & Q).
    assert (G : forall n r, In n (all_names c) -> n <> "-"%char :: b :: r).
    { intros n r I ->. destruct (good_cases c _ U I) as (x & y & E & G1 & G2 & _). injection E as -> ->. destruct B as [(d & D & ->)|B]; [now apply (G1 d)|auto]. }
    assert (Bd : ch_eqb b dash = false). { apply ch_eqb_neq. destruct B as [(d & D & ->)| ->]; [|discriminate]. intros E. pose proof (digit_not "-"%char d D eq_refl) as Y. rewrite E in Y. discriminate Y. }
    unfold classify. change (ch_eqb "-" dash) with true. cbn [negb].
    rewrite find_none by (intros I; exact (G _ t I eq_refl)). rewrite (split_eq_none _ Q).
    unfold option_tuples. rewrite Bd. rewrite flat_none.
    + rewrite NL. replace (existsb _ (names_of c)) with false; [reflexivity|]. symmetry. apply not_true_iff_false. intros X. apply existsb_exists in X. destruct X as ([n o] & I & X).
      cbn [fst] in X. assert (J : In n (all_names c)) by (rewrite <- names_fst; apply in_map_iff; exists (n, o); auto).
      apply negative_iff in X. destruct (good_cases c n U J) as (x & y & -> & G1 & G2 & _).
      destruct X as (a1 & b1 & A1 & B1 & [[N1 E1]|[N1 E1]]).
      * destruct a1 as [|d a1]; [congruence|]. inversion A1; subst. injection E1 as -> ->. now apply (G1 d).
      * destruct a1 as [|d a1]; [injection E1 as -> ->; congruence|]. inversion A1; subst. injection E1 as -> ->. now apply (G1 d).
    + intros [n o] I. cbn [fst snd]. assert (J : In n (all_names c)) by (rewrite <- names_fst; apply in_map_iff; exists (n, o); auto).
      rewrite str_eqb_neq by (apply G; exact J). destruct (startswith _ n) eqn:S; [|reflexivity]. exfalso. apply startswith_spec in S. destruct S as (y & ->). now apply (G _ (t ++ y) J).
Qed.

Theorem word_name : forall c o n, usual c -> In o (c_opts c) -> In n (o_names o) -> classify c n = Some (KOpt o n None).
Proof.
  intros c o n U I J. assert (K : In n (all_names c)) by (apply opt_named; eauto). destruct (good_cases c n U K) as (a & t & -> & _).
  unfold classify. change (ch_eqb "-" dash) with true. cbn [negb]. destruct U as (U & _). now rewrite (find_declared c o _ U I J).
Qed.

Theorem word_equals : forall c o n w, usual c -> In o (c_opts c) -> In n (o_names o) -> classify c (n ++ s "=" ++ w) = Some (KOpt o n (Some w)).
Proof.
  intros c o n w U I J. assert (K : In n (all_names c)) by (apply opt_named; eauto). destruct (good_cases c n U K) as (a & t & E & _ & _ & Q).
  assert (F : find_opt c (n ++ s "=" ++ w) = None).
  { apply find_none. intros X. destruct (good_cases c _ U X) as (_ & _ & _ & _ & _ & Q'). apply Q'. rewrite !in_app_iff. right. left. now left. }
  assert (S : split_eq (n ++ s "=" ++ w) = Some (n, w)) by (apply split_eq_some; exact Q).
  unfold classify. rewrite F, S. destruct U as (U & _). rewrite (find_declared c o _ U I J). subst n. reflexivity.
Qed.

Theorem word_short : forall c o a b r, usual c -> In o (c_opts c) -> In ["-"%char; a] (o_names o) -> a <> "-"%char -> ~ In "="%char (a :: b :: r) ->
  (forall n y, In n (all_names c) -> n <> ("-"%char :: a :: b :: r) ++ y) ->
  classify c ("-"%char :: a :: b :: r) = Some (KOpt o ["-"%char; a] (Some (b :: r))).
Proof.
  intros c o a b r U I J D Q G.
  unfold classify. change (ch_eqb "-" dash) with true. cbn [negb].
  rewrite find_none by (intros X; apply (G _ [] X); now rewrite app_nil_r). rewrite split_eq_none by (intros [X|X]; [discriminate X|auto]).
  unfold option_tuples. rewrite (ch_eqb_neq a dash D).
  assert (F : forall T, T = [KOpt o ["-"%char; a] (Some (b :: r))] -> match T with [k] => Some k | _ :: _ :: _ => None | [] => if negative_like ("-"%char :: a :: b :: r) && negb (existsb (fun no => negative_like (fst no)) (names_of c)) then Some KArg else if existsb (ch_eqb " "%char) ("-"%char :: a :: b :: r) then Some KArg else Some KUnknown end = Some (KOpt o ["-"%char; a] (Some (b :: r)))) by (intros T ->; reflexivity).
  apply F. clear F. eapply (flat_one _ _ ["-"%char; a] o).
  - rewrite names_fst. apply U.
  - apply names_in. auto.
  - intros [n p] K N. cbn [fst snd firstn] in *. rewrite str_eqb_neq by exact N. destruct (startswith _ n) eqn:S; [|reflexivity]. exfalso. apply startswith_spec in S. destruct S as (y & ->).
    apply (G ("-"%char :: a :: b :: r ++ y) y); [|reflexivity]. rewrite <- names_fst. apply in_map_iff. eexists. split; [|exact K]. reflexivity.
  - cbn [fst snd firstn skipn]. now rewrite str_eqb_refl.
Qed.

Theorem word_stray : forall c w, usual c -> stray c w -> classify c w = Some KUnknown.
Proof.
  intros c w U (a & t & -> & Q & B & N & G & S).
  unfold classify. change (ch_eqb "-" dash) with true. cbn [negb].
  rewrite find_none by (intros X; apply (G _ [] X); now rewrite app_nil_r). rewrite split_eq_none by exact Q.
  assert (F : option_tuples c ("-"%char :: a :: t) = []).
  { assert (Z : forall n o, In (n, o) (names_of c) -> startswith ("-"%char :: a :: t) n = false).
    { intros n o I. destruct (startswith _ n) eqn:E; [|reflexivity]. exfalso. apply startswith_spec in E. destruct E as (y & ->). apply (G _ y) with (2 := eq_refl). rewrite <- names_fst. apply in_map_iff. eexists. split; [|exact I]. reflexivity. }
    unfold option_tuples. destruct (ch_eqb a dash).
    - rewrite split_eq_none by exact Q. apply flat_none. intros [n o] I. cbn [fst snd]. now rewrite (Z n o I).
    - apply flat_none. intros [n o] I. cbn [fst snd firstn]. rewrite (Z n o I). rewrite str_eqb_neq; [reflexivity|]. intros ->. apply S. rewrite <- names_fst. apply in_map_iff. eexists. split; [|exact I]. reflexivity. }
  rewrite F. destruct (negative_like _) eqn:E; [exfalso; apply N; now apply negative_iff|]. cbn [andb].
  destruct (existsb _ _) eqn:X; [|reflexivity]. exfalso. apply B. apply existsb_exists in X. destruct X as (x & I & X). apply ch_eqb_eq in X. now subst.
Qed.
