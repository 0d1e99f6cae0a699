(** Configuration files. *)
From Coq Require Import Reals List Arith ZArith Bool Ascii String Lia.
From Verif Require Import PyRes PyStr PyStr_Proofs Cat_Model Cat_Spec Cat_Text Pixfit_Model Pixfit_Proofs Hp_Model Hp_Spec.
Import ListNotations.
Local Notation length := List.length.
Local Open Scope list_scope.
Local Open Scope nat_scope.

Lemma white_iff : forall c, is_space c = true <-> white c.
Proof.
  intros c. unfold is_space, white. cbv zeta. rewrite !orb_true_iff, !andb_true_iff, Nat.eqb_eq, !Nat.leb_le. cbn [In]. lia.
Qed.
Lemma not_white : forall c, ~ white c -> is_space c = false.
Proof. intros c H. destruct (is_space c) eqn:E; auto. now apply white_iff in E. Qed.
Lemma plain_not : forall c, plain c -> is_space c = false /\ c <> ","%char /\ c <> "|"%char /\ c <> "'"%char /\ c <> "#"%char.
Proof. intros c [W N]. split; [now apply not_white|]. cbn in N. intuition. Qed.
Lemma word_solid : forall w, word w -> solid w.
Proof.
  intros w [N F]. split; auto. apply forallb_forall. intros c I. rewrite Forall_forall in F. apply F in I. apply plain_not in I.
  destruct I as [-> _]. reflexivity.
Qed.
Lemma word_no : forall w, word w -> ~ In "#"%char w /\ ~ In "'"%char w.
Proof. intros w [N F]. rewrite Forall_forall in F. split; intros I; apply F, plain_not in I; tauto. Qed.
Lemma pad_in : forall b c, pad b -> In c b -> c = " "%char \/ c = "009"%char.
Proof. intros b c P I. unfold pad in P. rewrite Forall_forall in P. now apply P. Qed.

(* ----------------------------------------------------------------- strip *)

Lemma strip_edges : forall b x c a t z t', pad b -> pad c -> x = a :: t -> is_space a = false -> rev x = z :: t' -> is_space z = false ->
  strip (b ++ x ++ c) = x.
Proof.
  intros b x c a t z t' B K E A E' Z. unfold strip. rewrite lstrip_pad by assumption.
  assert (L : lstrip (x ++ c) = x ++ c) by (rewrite E; cbn; now rewrite A). rewrite L, rev_app_distr, lstrip_pad by now apply pad_rev.
  rewrite E'. cbn [lstrip]. rewrite Z, <- E'. apply rev_involutive.
Qed.

Definition good (l : list (str * str)) : Prop := Forall (fun gw => gap (fst gw) /\ word (snd gw)) l.

Lemma word_first : forall w, word w -> exists a t, w = a :: t /\ is_space a = false /\ a <> "#"%char.
Proof. intros [|a t] [N F]; [congruence|]. inversion F as [|? ? A]; subst. apply plain_not in A. exists a, t. tauto. Qed.
Lemma word_last : forall w, word w -> exists a t, rev w = a :: t /\ is_space a = false.
Proof.
  intros w [N F]. destruct (rev w) as [|a t] eqn:E; [apply (f_equal (@rev _)) in E; rewrite rev_involutive in E; cbn in E; congruence|].
  exists a, t. split; auto. rewrite Forall_forall in F. assert (I : In a w) by (apply in_rev; rewrite E; now left). apply F, plain_not in I. tauto.
Qed.
Lemma value_last : forall l w, word w -> good l -> exists a t, rev (value_text w l) = a :: t /\ is_space a = false.
Proof.
  intros l. induction l as [|[g v] l IH] using rev_ind; intros w W G.
  - unfold value_text. cbn. rewrite app_nil_r. now apply word_last.
  - apply Forall_app in G. destruct G as [_ G]. inversion G as [|? ? [_ V]]; subst. cbn [snd] in V. unfold value_text. rewrite flat_map_app. cbn [flat_map fst snd].
    rewrite app_nil_r, !rev_app_distr, <- !app_assoc. destruct (word_last v V) as (a & t & -> & A). cbn. eauto.
Qed.

(* ---------------------------------------------------------------- shrink *)

Lemma shrink_in : forall p x, pad p -> shrink true (p ++ x) = shrink true x.
Proof.
  induction p as [|c p IH]; intros x P; [reflexivity|]. inversion P as [|? ? C P']; subst. cbn [app shrink]. rewrite pad_space by assumption. now apply IH.
Qed.
Lemma shrink_gap : forall g v x, gap g -> word v -> exists h, (h = s " " \/ h = s "," \/ h = s ", ") /\ short_gap h = short_gap g /\
  shrink false (g ++ v ++ x) = h ++ v ++ shrink false x.
Proof.
  intros g v x [[P N]|(b & P & ->)] V.
  - destruct g as [|c p]; [congruence|]. exists (s " "). inversion P as [|? ? C P']; subst. split; [auto|]. split.
    + cbn. destruct C as [->| ->]; reflexivity.
    + cbn [app shrink]. rewrite pad_space by assumption. rewrite shrink_in by assumption. now rewrite shrink_solid by now apply word_solid.
  - destruct b as [|c p].
    + exists (s ","). split; [auto|]. split; [reflexivity|]. cbn [app shrink]. change (is_space ","%char) with false. cbv iota.
      now rewrite shrink_solid by now apply word_solid.
    + exists (s ", "). split; [auto|]. split; [reflexivity|]. inversion P as [|? ? C P']; subst. cbn [app shrink]. change (is_space ","%char) with false. cbv iota.
      rewrite pad_space by assumption. rewrite shrink_in by assumption. now rewrite shrink_solid by now apply word_solid.
Qed.
Lemma shrink_gaps : forall l, good l -> exists l', map snd l' = map snd l /\ map (fun gw => short_gap (fst gw)) l' = map (fun gw => short_gap (fst gw)) l /\
  Forall (fun gw => (fst gw = s " " \/ fst gw = s "," \/ fst gw = s ", ") /\ word (snd gw)) l' /\
  shrink false (flat_map (fun gw => fst gw ++ snd gw) l) = flat_map (fun gw => fst gw ++ snd gw) l'.
Proof.
  induction 1 as [|[g v] l [G V] F IH]; [exists []; repeat split; constructor|]. cbn [fst snd] in *. destruct IH as (l' & E1 & E2 & F' & E3).
  cbn [flat_map fst snd]. rewrite <- app_assoc. destruct (shrink_gap g v (flat_map (fun gw => fst gw ++ snd gw) l) G V) as (h & H & Sh & ->).
  exists ((h, v) :: l'). cbn [map fst snd flat_map]. rewrite E1, E2, Sh, E3, <- app_assoc. repeat split; auto.
Qed.

Lemma filter_all : forall {A} (f : A -> bool) l, (forall x, In x l -> f x = true) -> filter f l = l.
Proof. induction l as [|a l IH]; intros H; [reflexivity|]. cbn. rewrite (H a) by now left. f_equal. apply IH. intros x I. apply H. now right. Qed.

Lemma commas_word : forall v b x, word v -> commas b (v ++ x) = v ++ commas false x.
Proof.
  intros v b x [N F]. revert b N. induction F as [|c v C F IH]; intros b N; [congruence|]. apply plain_not in C. destruct C as (S & K & _).
  cbn [app commas]. rewrite S, andb_false_r, (ch_eqb_neq _ _ K). f_equal. destruct v as [|d v]; [reflexivity|]. apply IH. discriminate.
Qed.
Lemma commas_gaps : forall l, Forall (fun gw => (fst gw = s " " \/ fst gw = s "," \/ fst gw = s ", ") /\ word (snd gw)) l ->
  commas false (flat_map (fun gw => fst gw ++ snd gw) l) = flat_map (fun gw => short_gap (fst gw) ++ snd gw) l.
Proof.
  induction 1 as [|[g v] l [G V] F IH]; [reflexivity|]. cbn [flat_map fst snd] in *. rewrite <- app_assoc.
  destruct G as [->|[->| ->]]; cbn; rewrite commas_word, IH by assumption; reflexivity.
Qed.

Lemma clean_value_text : forall b w l c, pad b -> pad c -> word w -> good l ->
  clean_value (b ++ value_text w l ++ c) = value_text w (map (fun gw => (short_gap (fst gw), snd gw)) l).
Proof.
  intros b w l c B K W G. unfold clean_value. destruct (word_first w W) as (a & t & E & A & _). destruct (value_last l w W G) as (z & t' & E' & Z).
  rewrite (strip_edges b (value_text w l) c a (t ++ flat_map (fun gw => fst gw ++ snd gw) l) z t') by (auto; unfold value_text; rewrite E; reflexivity).
  unfold value_text at 1. rewrite shrink_solid by now apply word_solid. destruct (shrink_gaps l G) as (l' & E1 & E2 & F & ->).
  rewrite filter_all.
  - rewrite commas_word, commas_gaps by assumption. unfold value_text. f_equal. clear - E1 E2. revert l E1 E2.
    induction l' as [|[g v] l' IH]; intros [|[g2 v2] l] E1 E2; cbn in *; try discriminate; [reflexivity|]. injection E1 as -> E1. injection E2 as -> E2. now rewrite (IH l).
  - intros x I. apply negb_true_iff, ch_eqb_neq. intros ->. apply in_app_or in I. destruct I as [I|I]; [now apply word_no in I|].
    apply in_flat_map in I. destruct I as ([g v] & I & J). rewrite Forall_forall in F. apply F in I. cbn [fst snd] in *. destruct I as [H V]. apply in_app_or in J.
    destruct J as [J|J]; [|now apply word_no in J]. destruct H as [->|[->| ->]]; cbn in J; intuition discriminate.
Qed.

Lemma is_sep_plain : forall c, plain c -> is_sep c = false.
Proof. intros c C. apply plain_not in C. destruct C as (S & A & B & _). unfold is_sep. now rewrite S, !ch_eqb_neq. Qed.
Lemma split_word : forall w x, Forall plain w -> split_if is_sep (w ++ x) = match split_if is_sep x with h :: t => (w ++ h) :: t | [] => [] end.
Proof.
  assert (N : forall x, split_if is_sep x <> []).
  { induction x as [|a x IH]; [discriminate|]. cbn. destruct (is_sep a); [discriminate|]. destruct (split_if is_sep x); discriminate. }
  intros w x F. induction F as [|c w C F IH]; [cbn; destruct (split_if is_sep x); reflexivity|]. cbn [app split_if]. rewrite is_sep_plain, IH by assumption.
  destruct (split_if is_sep x) eqn:E; [now apply N in E|reflexivity].
Qed.
Lemma split_value : forall l w, word w -> good l -> split_if is_sep (value_text w (map (fun gw => (short_gap (fst gw), snd gw)) l)) = w :: map snd l.
Proof.
  intros l w [_ W] G. unfold value_text. rewrite split_word by assumption.
  assert (X : split_if is_sep (flat_map (fun gw => fst gw ++ snd gw) (map (fun gw => (short_gap (fst gw), snd gw)) l)) = [] :: map snd l).
  { induction G as [|[g v] l [G V] F IH]; [reflexivity|]. cbn [map flat_map fst snd] in *. rewrite <- app_assoc.
    assert (H : exists h, short_gap g = [h] /\ is_sep h = true).
    { destruct G as [[P N]|(b & P & ->)]; [|exists ","%char; split; reflexivity]. destruct g as [|c p]; [congruence|]. inversion P as [|? ? C]; subst.
      exists " "%char. split; [|reflexivity]. cbn. destruct C as [->| ->]; reflexivity. }
    destruct H as (h & -> & H). cbn [app split_if]. rewrite H. rewrite split_word by apply V. rewrite IH. now rewrite app_nil_r. }
  rewrite X. now rewrite app_nil_r.
Qed.

(* ------------------------------------------------------------- one line *)

Lemma split1_at : forall x y, ~ In "="%char x -> split1 (x ++ "="%char :: y) = Some (x, y).
Proof.
  induction x as [|c x IH]; intros y N; [reflexivity|]. cbn [app split1]. rewrite ch_eqb_neq by (intros ->; apply N; now left). rewrite IH; [reflexivity|].
  intros I. apply N. now right.
Qed.
Lemma eq_then_at : forall x c t, eq_then (x ++ "="%char :: c :: t) = true.
Proof. induction x as [|a x IH]; intros c t; cbn [app eq_then]; [reflexivity|]. rewrite IH. apply orb_true_r. Qed.
Lemma eq_then_no : forall x, ~ In "="%char x -> eq_then x = false.
Proof. induction x as [|c x IH]; intros N; [reflexivity|]. cbn in *. rewrite ch_eqb_neq by (intros ->; apply N; now left). rewrite IH by tauto. reflexivity. Qed.
Lemma eq_then_end : forall x, ~ In "="%char x -> eq_then (x ++ ["="%char]) = false.
Proof. induction x as [|c x IH]; intros N; [reflexivity|]. cbn in *. rewrite ch_eqb_neq by (intros ->; apply N; now left). rewrite IH by tauto. reflexivity. Qed.

Lemma line_silent : forall b line, silent_line line -> config_line b line = POk None.
Proof.
  intros b line [(t & ->)|[N|(x & N & H)]]; [reflexivity| |].
  - destruct line as [|c t]; [reflexivity|]. cbn. destruct (ch_eqb c "#"%char); [reflexivity|]. rewrite eq_then_no; [reflexivity|]. intros I. apply N. now right.
  - destruct H as [->| ->].
    + cbn. now rewrite eq_then_no.
    + destruct x as [|c t]; [reflexivity|]. cbn. destruct (ch_eqb c "#"%char); [reflexivity|]. rewrite eq_then_end; [reflexivity|]. intros I. apply N. now right.
Qed.

Lemma line_sets : forall b k ws t line, sets_line k ws t line ->
  config_line b line = POk (Some (k, if b then as_value ws else One t)).
Proof.
  intros b k ws t line (b1 & b2 & b3 & b4 & w & l & r & B1 & B2 & B3 & B4 & [K KE] & W & G & Rm & -> & -> & ->). fold (good l) in G.
  assert (H : exists c x, b1 ++ k ++ b2 = c :: x /\ c <> "#"%char).
  { destruct (word_first k K) as (a & t & -> & _ & A). destruct b1 as [|c b1]; cbn [app]; [eauto|]. exists c. eexists. split; [reflexivity|].
    intros ->. destruct (pad_in _ "#"%char B1); [now left|discriminate|discriminate]. }
  destruct H as (c & x & E & C). destruct (word_first w W) as (a & t & Ew & _ & _).
  assert (V : exists d y, b3 ++ value_text w l ++ b4 ++ r = d :: y).
  { unfold value_text. rewrite Ew. destruct b3; cbn; eauto. }
  destruct V as (d & y & V).
  assert (L : b1 ++ k ++ b2 ++ s "=" ++ b3 ++ value_text w l ++ b4 ++ r = c :: x ++ "="%char :: d :: y).
  { rewrite <- V. rewrite !app_assoc. rewrite !app_assoc in E. rewrite E. cbn. now rewrite <- !app_assoc. }
  rewrite L. cbn [config_line]. rewrite (ch_eqb_neq _ _ C). cbn [key_val]. rewrite eq_then_at, <- L.
  assert (PK : forall b, pad b -> ~ In "="%char b /\ ~ In "#"%char b) by (intros q Q; split; intros I; destruct (pad_in q _ Q I); discriminate).
  assert (U : uncomment (b1 ++ k ++ b2 ++ s "=" ++ b3 ++ value_text w l ++ b4 ++ r) = (b1 ++ k ++ b2) ++ "="%char :: b3 ++ value_text w l ++ b4).
  { rewrite <- (uncomment_app ((b1 ++ k ++ b2) ++ "="%char :: b3 ++ value_text w l ++ b4) r); [f_equal; rewrite <- !app_assoc; cbn [app]; rewrite <- !app_assoc; reflexivity| |exact Rm].
    intros I. rewrite !in_app_iff in I. cbn [In] in I. rewrite !in_app_iff in I.
    destruct I as [[I|[I|I]]|[I|[I|[I|I]]]]; try discriminate; try (now apply PK in I); try (now apply word_no in I).
    unfold value_text in I. apply in_app_or in I. destruct I as [I|I]; [now apply word_no in I|]. apply in_flat_map in I. destruct I as ([g v] & I & J).
    unfold good in G. rewrite Forall_forall in G. apply G in I. destruct I as [H V']. cbn [fst snd] in *. apply in_app_or in J. destruct J as [J|J]; [|now apply word_no in J].
    destruct H as [[P _]|(q & P & ->)]; [now apply PK in J|]. destruct J as [J|J]; [discriminate|now apply PK in J]. }
  rewrite U. rewrite split1_at.
  - rewrite clean_value_text by assumption. unfold clean_key. rewrite strip_padded by (auto using word_solid).
    rewrite filter_all.
    + destruct b; [|reflexivity]. rewrite split_value by assumption. unfold as_value. destruct l; reflexivity.
    + intros z I. apply negb_true_iff. apply not_white. destruct K as [_ K]. rewrite Forall_forall in K. now apply K.
  - intros I. rewrite !in_app_iff in I. destruct I as [I|[I|I]]; [now apply PK in I|contradiction|now apply PK in I].
Qed.

(* ------------------------------------------------------------- the file *)

Lemma read_lines : forall b lines said,
  Forall2 (fun l r => match r with Some (k, (ws, t)) => sets_line k ws t l | None => silent_line l end) lines said ->
  forall d, fold_left (fun d line => pybind d (fun d => pybind (config_line b line) (fun o =>
    POk (match o with Some (k, v) => dset d k v | None => d end)))) lines (POk d) =
  POk (fold_left (fun d kv => dset d (fst kv) (if b : bool then as_value (fst (snd kv)) else One (snd (snd kv))))
    (flat_map (fun r => match r with Some e => [e] | None => [] end) said) d).
Proof.
  intros b lines said F. induction F as [|line r lines said H F IH]; intros d; [reflexivity|]. cbn [fold_left pybind flat_map].
  destruct r as [[k [ws t]]|].
  - rewrite (line_sets b k ws t line H). cbn [pybind app fold_left fst snd]. apply IH.
  - rewrite (line_silent b line H). cbn [pybind app]. apply IH.
Qed.

Lemma dict_said : forall {A V} (f : A -> V) (sets : list (str * A)),
  let d := fold_left (fun d kv => dset d (fst kv) (f (snd kv))) sets [] in
  NoDup (map fst d) /\ forall k v, In (k, v) d <-> exists a, last_said sets k a /\ v = f a.
Proof.
  intros A V f sets. cbv zeta. induction sets as [|[k a] sets IH] using rev_ind.
  - split; [constructor|]. intros k v. split; [intros []|]. intros (a & (l1 & l2 & E & _) & _). destruct l1; discriminate.
  - rewrite fold_left_app. cbn [fold_left fst snd]. set (d := fold_left _ sets []) in *. destruct IH as [N IH]. split; [now apply dset_nodup|].
    assert (M : forall d : list (str * V), NoDup (map fst d) -> forall k v, In (k, v) d <-> dget d k = POk v).
    { clear. induction d as [|[k' v'] d IH]; intros N k v; [split; [intros []|discriminate]|]. inversion N as [|? ? Nk N']; subst. cbn [In dget].
      destruct (str_eqb k k') eqn:E.
      - apply str_eqb_eq in E. subst k'. split.
        + intros [H|H]; [now injection H as ->|]. exfalso. apply Nk. apply (in_map fst) in H. exact H.
        + intros H. injection H as ->. now left.
      - rewrite <- IH by assumption. split; [intros [H|H]; auto|auto]. injection H as -> ->. now rewrite str_eqb_refl in E. }
    intros k0 v. rewrite (M _ (dset_nodup d k (f a) N)), dget_dset. destruct (str_eqb k0 k) eqn:E.
    + apply str_eqb_eq in E. subst k0. split.
      * intros H. injection H as <-. exists a. split; auto. exists sets, []. split; auto.
      * intros (a' & (l1 & l2 & E & NI) & ->). destruct l2 as [|e l2 _] using rev_ind; [apply app_inj_tail in E; destruct E as [_ E]; now injection E as ->|].
        exfalso. apply NI. rewrite app_comm_cons, app_assoc in E. apply app_inj_tail in E. destruct E as [_ <-]. rewrite map_app, in_app_iff. right. now left.
    + rewrite <- (M d N), IH. split.
      * intros (a' & (l1 & l2 & -> & NI) & ->). exists a'. split; auto. exists l1, (l2 ++ [(k, a)]). split; [now rewrite <- app_assoc|].
        rewrite map_app, in_app_iff. intros [I|[I|[]]]; [auto|]. cbn in I. subst k0. now rewrite str_eqb_refl in E.
      * intros (a' & (l1 & l2 & Eq & NI) & ->). exists a'. split; auto. destruct l2 as [|e l2 _] using rev_ind.
        { apply app_inj_tail in Eq. destruct Eq as [_ Eq]. injection Eq as -> ->. now rewrite str_eqb_refl in E. }
        rewrite app_comm_cons, app_assoc in Eq. apply app_inj_tail in Eq. destruct Eq as [-> <-]. exists l1, l2. split; auto.
        intros I. apply NI. rewrite map_app, in_app_iff. now left.
Qed.

Theorem config_reads : forall b text sets, config text sets ->
  exists d, config_read b text = POk d /\ NoDup (map fst d) /\
  forall k v, In (k, v) d <-> exists a, last_said sets k a /\ v = (if b then as_value (fst a) else One (snd a)).
Proof.
  intros b text sets (lines & said & N & F & -> & H & ->). unfold config_read. rewrite split_join by assumption. rewrite (read_lines b lines said H []).
  eexists. split; [reflexivity|]. apply (dict_said (fun a : list str * str => if b then as_value (fst a) else One (snd a))).
Qed.

(** A comment that is indented, or follows text, and has an equals sign. *)
Theorem config_comment : forall b k x, ~ In "="%char k -> ~ In "#"%char k -> k <> [] -> In "="%char x -> last x "="%char <> "="%char ->
  ~ In "010"%char (k ++ x) -> config_read b (k ++ "#"%char :: x) = PErr.
Proof.
  intros b k x K H N I Lx L. unfold config_read. rewrite Chunk_Laws.split_none.
  2:{ intros J. apply in_app_or in J. apply L. rewrite in_app_iff. destruct J as [J|[J|J]]; [auto|discriminate|auto]. }
  cbn [fold_left pybind]. destruct k as [|c k]; [congruence|].
  assert (E : config_line b ((c :: k) ++ "#"%char :: x) = PErr); [|now rewrite E].
  cbn [app config_line]. rewrite ch_eqb_neq by (intros ->; apply H; now left). cbn [key_val].
  assert (E1 : eq_then (k ++ "#"%char :: x) = true).
  { apply in_split in I. destruct I as (u & v & ->). destruct v as [|d v]; [now rewrite last_last in Lx|].
    change (k ++ "#"%char :: u ++ "="%char :: d :: v) with (k ++ ("#"%char :: u) ++ "="%char :: d :: v). rewrite app_assoc. apply eq_then_at. }
  rewrite E1. rewrite app_comm_cons, (uncomment_app (c :: k) ("#"%char :: x) H) by (right; eauto).
  assert (E2 : forall y, ~ In "="%char y -> split1 y = None).
  { induction y as [|a y IH]; intros Y; [reflexivity|]. cbn. rewrite ch_eqb_neq by (intros ->; apply Y; now left). rewrite IH; [reflexivity|]. intros J. apply Y. now right. }
  now rewrite E2.
Qed.

Theorem config_comment_refuted : ~ (forall b k x text sets, config text sets -> pad k -> ~ In "010"%char x ->
  config_read b (k ++ "#"%char :: x ++ "010"%char :: text) = config_read b text).
Proof.
  intros H. specialize (H true (s "  ") (s " a = b") [] []). assert (C : config [] []).
  { exists [[]], [None]. repeat split; [discriminate|repeat constructor; intros []|]. constructor; [|constructor]. right. left. intros []. }
  assert (P : pad (s "  ")) by (repeat constructor; auto). specialize (H C P). assert (N : ~ In "010"%char (s " a = b")) by (cbn; intuition discriminate).
  specialize (H N). vm_compute in H. discriminate H.
Qed.

(** A quoted value with a space is split all the same. *)
Theorem config_quotes : config_read true (s "name = 'my file.txt'") = POk [(s "name", Many [s "my"; s "file.txt"])].
Proof. reflexivity. Qed.
Theorem config_quotes_refuted : ~ (forall k v, keyword k -> Forall (fun c => plain c \/ c = " "%char) v -> v <> [] ->
  exists x, config_read true (k ++ s "='" ++ v ++ s "'") = POk [(k, One x)]).
Proof.
  intros H. specialize (H (s "n") (s "a b")).
  assert (Wn : forall c, In c ["a"; "b"; "n"]%char -> plain c).
  { intros c I. split; [intros W; apply white_iff in W|]; cbn in I; destruct I as [<-|[<-|[<-|[]]]]; try discriminate W; cbn; intuition discriminate. }
  destruct H as [x H].
  - split; [split; [discriminate|constructor; [apply Wn; cbn; auto|constructor]]|cbn; intuition discriminate].
  - constructor; [left; apply Wn; cbn; auto|]. constructor; [right; reflexivity|]. constructor; [left; apply Wn; cbn; auto|constructor].
  - discriminate.
  - vm_compute in H. discriminate H.
Qed.
(** A blank before a comma gives an empty value; a bar separates like a comma. *)
Theorem config_blank_comma : config_read true (s "x = 1 , 2") = POk [(s "x", Many [s "1"; []; s "2"])].
Proof. reflexivity. Qed.
Theorem config_bar : config_read true (s "x = a|b") = POk [(s "x", Many [s "a"; s "b"])].
Proof. reflexivity. Qed.
