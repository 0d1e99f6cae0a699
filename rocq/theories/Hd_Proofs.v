(** Proofs about the headers of the 3-D products. *)
From Coq Require Import Reals Lra Lia List Arith ZArith Bool Ascii String Sorted.
From Verif Require Import PyRes PyStr PyStr_Proofs PyList NdArray Setup_Spec Setup_Model Setup_Proofs Synth_Model Measure_Model Cube_Model Cube_Spec Cube_Proofs
  Icube_Model Header_Model Header_Spec Header_Proofs Fits_Model Fits_Spec Fits_Proofs Hd_Model Hd_Spec.
Import ListNotations.
Local Open Scope nat_scope.

(* ------------------------------------------------------------ keywords *)

Lemma str_of_nat_inj : forall i j, str_of_nat i = str_of_nat j -> i = j.
Proof.
  intros i j E. unfold str_of_nat in E.
  destruct (dec_fuel (S i) i) as (k & L & F & _ & B & _); [lia|]. destruct (dec_fuel (S j) j) as (k' & L' & F' & _ & B' & _); [lia|].
  assert (k = k') by congruence. subst k'. apply (fixed_inj (List.length (dec (S i) i))); congruence.
Qed.
Lemma str_of_nat_digits : forall n, forallb is_digit (str_of_nat n) = true.
Proof. intros n. unfold str_of_nat. destruct (dec_fuel (S n) n) as (k & _ & E & _); [lia|]. rewrite E. apply fixed_digits. Qed.

Definition nodigit (x : str) : bool := forallb (fun c => negb (is_digit c)) x.
Lemma split_word : forall a b x y, nodigit a = true -> nodigit b = true -> forallb is_digit x = true -> forallb is_digit y = true ->
  (a ++ x)%list = (b ++ y)%list -> a = b /\ x = y.
Proof.
  induction a as [|c a IH]; intros [|d b] x y Ha Hb Hx Hy E; cbn in *; auto.
  - subst x. cbn in Hx. apply andb_prop in Hx, Hb. destruct Hx as [Hx _], Hb as [Hb _]. rewrite Hx in Hb. discriminate Hb.
  - subst y. cbn in Hy. apply andb_prop in Hy, Ha. destruct Hy as [Hy _], Ha as [Ha _]. rewrite Hy in Ha. discriminate Ha.
  - injection E as -> E. apply andb_prop in Ha, Hb. destruct (IH b x y) as [-> ->]; tauto.
Qed.
Lemma key_inj : forall w w' i j, nodigit (s w) = true -> nodigit (s w') = true -> key w i = key w' j -> s w = s w' /\ i = j.
Proof.
  intros w w' i j A B E. unfold key in E. destruct (split_word _ _ _ _ A B (str_of_nat_digits i) (str_of_nat_digits j) E) as [E1 E2].
  split; auto. now apply str_of_nat_inj.
Qed.
Lemma key_lit : forall w i k, nodigit (s w) = true -> nodigit k = true -> key w i <> k.
Proof.
  intros w i k A B E. unfold key in E. rewrite <- (app_nil_r k) in E.
  destruct (split_word _ _ _ [] A B (str_of_nat_digits i) eq_refl E) as [_ E2]. destruct (str_of_nat_cons i) as (c & t & F). congruence.
Qed.

(** distinct keywords *)
Ltac kneq :=
  let E := fresh "E" in
  try match goal with |- ?x = ?y -> False => change (x <> y) end;
  match goal with
  | |- key ?w ?i <> key ?w' ?j => intro E; apply key_inj in E; [destruct E as [E ?]; first [discriminate E | congruence | lia]|reflexivity|reflexivity]
  | |- key ?w ?i <> _ => apply key_lit; reflexivity
  | |- _ <> key ?w ?i => intro E; symmetry in E; revert E; apply key_lit; reflexivity
  | |- _ <> _ => intro E; discriminate E
  end.

(* --------------------------------------------------------------- cards *)

Lemma hget_cards : forall k (h : fheader), hget k h = option_map snd (hd_error (cards k h)).
Proof. intros k h. unfold hget, cards. f_equal. induction h as [|c h IH]; cbn; auto. destruct (str_eqb k (fst c)); auto. Qed.
Lemma cards_key : forall k (h : fheader) c, In c (cards k h) -> fst c = k.
Proof. intros k h c H. apply filter_In in H. destruct H as [_ H]. apply str_eqb_eq in H. auto. Qed.
Lemma hget_says : forall k h v, hget k h = Some v <-> says h k v.
Proof.
  intros k h v. rewrite hget_cards. unfold says. destruct (cards k h) as [|[k' v'] t] eqn:E; cbn.
  - split; intro H; discriminate H.
  - pose proof (cards_key k h (k', v')) as K. rewrite E in K. cbn in K. rewrite (K (or_introl eq_refl)). split; intros [= ->]; reflexivity.
Qed.
Lemma hget_lacks : forall k h, hget k h = None <-> lacks h k.
Proof. intros k h. rewrite hget_cards. unfold lacks. destruct (cards k h); cbn; split; intro H; auto; discriminate H. Qed.
Lemma says_fun : forall h k v v', says h k v -> says h k v' -> v = v'.
Proof. intros h k v v' A B. apply hget_says in A, B. congruence. Qed.

Lemma says_set : forall h k v, says (hset k v h) k v.
Proof. intros. unfold says. rewrite cards_hset_same. reflexivity. Qed.
Lemma says_set_o : forall h k k' v v', k <> k' -> says h k v -> says (hset k' v' h) k v.
Proof. intros. unfold says. rewrite cards_hset_other; auto. Qed.
Lemma says_pop_o : forall h k k' v, k <> k' -> says h k v -> says (hpop k' h) k v.
Proof. intros. unfold says. rewrite cards_hpop_other; auto. Qed.
Lemma lacks_pop : forall h k, lacks (hpop k h) k.
Proof. intros. unfold lacks. apply cards_none. intros c H. apply hpop_in in H. apply H. Qed.
Lemma lacks_set_o : forall h k k' v', k <> k' -> lacks h k -> lacks (hset k' v' h) k.
Proof. intros. unfold lacks. rewrite cards_hset_other; auto. Qed.
Lemma lacks_pop_o : forall h k k', k <> k' -> lacks h k -> lacks (hpop k' h) k.
Proof. intros. unfold lacks. rewrite cards_hpop_other; auto. Qed.

Lemma sb_refl : forall T h, same_but T h h.
Proof. intros T h p _. reflexivity. Qed.
Lemma sb_set : forall (T : str -> Prop) h h' k v, T k -> same_but T h h' -> same_but T h (hset k v h').
Proof. intros T h h' k v Hk H p Hp. rewrite filter_hset; auto. Qed.
Lemma sb_pop : forall (T : str -> Prop) h h' k, T k -> same_but T h h' -> same_but T h (hpop k h').
Proof. intros T h h' k Hk H p Hp. rewrite filter_hpop; auto. Qed.
Lemma sb_trans : forall (T : str -> Prop) h h' h'', same_but T h h' -> same_but T h' h'' -> same_but T h h''.
Proof. intros T h h' h'' A B p Hp. rewrite B, A; auto. Qed.
Lemma sb_weak : forall (T T' : str -> Prop) h h', (forall k, T k -> T' k) -> same_but T h h' -> same_but T' h h'.
Proof. intros T T' h h' W A p Hp. apply A. intros k Hk. apply Hp, W, Hk. Qed.
Lemma sb_cards : forall (T : str -> Prop) h h' k, same_but T h h' -> ~ T k -> cards k h' = cards k h.
Proof.
  intros T h h' k A N. unfold cards. apply (A (str_eqb k)). intros k' Hk'. apply str_eqb_neq. intros ->. contradiction.
Qed.
Lemma sb_says : forall (T : str -> Prop) h h' k v, same_but T h h' -> ~ T k -> says h k v <-> says h' k v.
Proof. intros T h h' k v A N. unfold says. now rewrite (sb_cards T h h' k A N). Qed.

Ltac card :=
  first [ eassumption | apply says_set | apply lacks_pop
        | apply says_set_o; [kneq|card] | apply says_pop_o; [kneq|card]
        | apply lacks_set_o; [kneq|card] | apply lacks_pop_o; [kneq|card] ].

(* ----------------------------------------------------------- the axes *)

Lemma naxis_says : forall h n, naxis_of h = POk n <-> exists z, says h (s "NAXIS") (HInt z) /\ n = Z.to_nat z.
Proof.
  intros h n. unfold naxis_of, hint. pose proof (hget_says (s "NAXIS") h) as G. destruct (hget (s "NAXIS") h) as [[z|x|t]|]; cbn.
  - split; [intros [= <-]; exists z; split; auto; apply G; reflexivity|]. intros (z' & A & ->). apply G in A. injection A as ->. reflexivity.
  - split; [intro H; discriminate H|]. intros (z' & A & _). apply G in A. discriminate A.
  - split; [intro H; discriminate H|]. intros (z' & A & _). apply G in A. discriminate A.
  - split; [intro H; discriminate H|]. intros (z' & A & _). apply G in A. discriminate A.
Qed.
Lemma naxis_of_nat : forall h n, says h (s "NAXIS") (HInt (Z.of_nat n)) -> naxis_of h = POk n.
Proof. intros h n H. apply naxis_says. exists (Z.of_nat n). split; auto. now rewrite Nat2Z.id. Qed.
Lemma naxis_cards : forall h h', cards (s "NAXIS") h' = cards (s "NAXIS") h -> naxis_of h' = naxis_of h.
Proof. intros h h' E. unfold naxis_of, hint. rewrite !hget_cards, E. reflexivity. Qed.

Lemma ctype_says : forall h i t, ctype_of h i = Some t <-> says h (key "CTYPE" i) (HStr t).
Proof.
  intros h i t. rewrite <- hget_says. unfold ctype_of, kw, key. destruct (hget _ h) as [[z|x|t']|]; split; intro H; try discriminate H; congruence.
Qed.
Lemma ctype_cards : forall h h' i, cards (key "CTYPE" i) h' = cards (key "CTYPE" i) h -> ctype_of h' i = ctype_of h i.
Proof. intros h h' i E. unfold ctype_of. change (kw "CTYPE" i) with (key "CTYPE" i). rewrite !hget_cards, E. reflexivity. Qed.
Lemma ctypes_list : forall h n, type_list h n (ctypes h n).
Proof.
  intros h n. unfold type_list, ctypes. rewrite map_length, seq_length. split; auto. intros i Hi t.
  rewrite (nth_map_seq (ctype_of h) 1 n (i - 1) None) by lia. replace (1 + (i - 1)) with i by lia. apply ctype_says.
Qed.

Lemma has_part_iff : forall m x, contains m x = true <-> has_part m x.
Proof. intros. apply contains_spec. Qed.

Definition st_hit (h : fheader) (i : nat) : bool := match ctype_of h i with Some t => contains (s "STOKES") t | None => false end.
Lemma last_hit : forall (p : nat -> bool) l acc, StronglySorted lt l ->
  let r := fold_left (fun acc i => if p i then Some i else acc) l acc in
  match r with
  | Some a => (In a l /\ p a = true /\ forall j, In j l -> a < j -> p j = false) \/ (acc = Some a /\ forall j, In j l -> p j = false)
  | None => acc = None /\ forall j, In j l -> p j = false
  end.
Proof.
  intros p l. induction l as [|i l IH]; intros acc H; cbn zeta.
  - cbn. destruct acc; [right; split; auto; intros j []|split; auto; intros j []].
  - apply StronglySorted_inv in H. destruct H as [H F]. rewrite Forall_forall in F. cbn [fold_left].
    specialize (IH (if p i then Some i else acc) H). cbv zeta in IH. destruct (fold_left _ l _) as [a|].
    + destruct IH as [(A & B & C)|(A & B)].
      * left. split; [now right|]. split; auto. intros j [<-|Hj] L; [specialize (F a A); lia|auto].
      * destruct (p i) eqn:E.
        -- injection A as <-. left. split; [now left|]. split; auto. intros j [<-|Hj] L; [lia|auto].
        -- right. split; auto. intros j [<-|Hj]; auto.
    + destruct IH as [A B]. destruct (p i) eqn:E; [discriminate A|]. split; auto. intros j [<-|Hj]; auto.
Qed.
Lemma seq_sorted : forall n st, StronglySorted lt (seq st n).
Proof.
  induction n; intros st; cbn; constructor; auto. apply Forall_forall. intros x Hx. apply in_seq in Hx. lia.
Qed.

(** what [stokes_axis] finds *)
Lemma stokes_axis_spec : forall h n sa, naxis_of h = POk n -> (stokes_axis h = POk sa <->
  (forall i, 1 <= i <= n -> exists t, says h (key "CTYPE" i) (HStr t)) /\
  match sa with Some a => 1 <= a <= n /\ st_hit h a = true /\ (forall j, a < j <= n -> st_hit h j = false)
              | None => forall j, 1 <= j <= n -> st_hit h j = false end).
Proof.
  intros h n sa N. unfold stokes_axis. rewrite N. cbn [pybind].
  assert (A : forallb (fun c => is_some c) (ctypes h n) = true <-> (forall i, 1 <= i <= n -> exists t, says h (key "CTYPE" i) (HStr t))).
  { unfold ctypes. rewrite forallb_forall. split.
    - intros H i Hi. specialize (H (ctype_of h i)). destruct (ctype_of h i) as [t|] eqn:E.
      + exists t. apply ctype_says, E.
      + discriminate H. rewrite <- E. apply in_map, in_seq. lia.
    - intros H x Hx. apply in_map_iff in Hx. destruct Hx as (i & <- & Hi). apply in_seq in Hi. destruct (H i ltac:(lia)) as [t Ht].
      apply ctype_says in Ht. rewrite Ht. reflexivity. }
  set (F := fold_left _ (seq 1 n) None).
  assert (EF : F = fold_left (fun acc i => if st_hit h i then Some i else acc) (seq 1 n) None).
  { unfold F. apply fold_ext. intros acc i. unfold st_hit. destruct (ctype_of h i); reflexivity. }
  pose proof (last_hit (st_hit h) (seq 1 n) None (seq_sorted n 1)) as L. cbv zeta in L. rewrite <- EF in L.
  destruct (forallb _ _) eqn:Q.
  - split.
    + intros [= <-]. split; [now apply A|]. destruct F as [a|].
      * destruct L as [(I & Ha & Hj)|(I & _)]; [|discriminate I]. apply in_seq in I. split; [lia|]. split; auto.
        intros j Hj'. apply Hj; [apply in_seq; lia|lia].
      * destruct L as [_ L]. intros j Hj. apply L, in_seq. lia.
    + intros [_ H]. f_equal. destruct F as [a|], sa as [b|]; auto.
      * destruct L as [(I & Ha & Hj)|(I & _)]; [|discriminate I]. apply in_seq in I. destruct H as (Hb & H1 & H2). f_equal.
        destruct (Nat.lt_trichotomy a b) as [X|[X|X]]; auto.
        -- rewrite (Hj b) in H1 by (try apply in_seq; lia). discriminate H1.
        -- rewrite (H2 a) in Ha by lia. discriminate Ha.
      * destruct L as [(I & Ha & _)|(I & _)]; [|discriminate I]. apply in_seq in I. rewrite H in Ha by lia. discriminate Ha.
      * destruct L as [_ L]. destruct H as (Hb & H1 & _). rewrite L in H1 by (apply in_seq; lia). discriminate H1.
  - split; [intro H; discriminate H|]. intros [H _]. apply A in H. congruence.
Qed.

Lemma stokes_axis_cards : forall h h', cards (s "NAXIS") h' = cards (s "NAXIS") h -> (forall i, cards (key "CTYPE" i) h' = cards (key "CTYPE" i) h) ->
  stokes_axis h' = stokes_axis h.
Proof.
  intros h h' N C. unfold stokes_axis. rewrite (naxis_cards h h' N). destruct (naxis_of h) as [n|]; [|reflexivity]. cbn [pybind].
  replace (ctypes h' n) with (ctypes h n).
  2:{ unfold ctypes. apply map_ext. intro i. symmetry. apply ctype_cards, C. }
  destruct (forallb _ _); auto. f_equal. apply fold_ext. intros acc i. rewrite (ctype_cards h h' i (C i)). reflexivity.
Qed.

(** the header with the Stokes axis [sa] set *)
Definition put_stokes (sa : option nat) (num : Z) (st : str) (h : fheader) : fheader :=
  hset (s "STOKES") (HStr st) (match sa with Some a => hset (key "CRVAL" a) (HInt num) (hset (key "CRPIX" a) (HNum 1) h) | None => h end).
Lemma put_cards : forall sa num st h k, k <> s "STOKES" -> (forall a, k <> key "CRVAL" a) -> (forall a, k <> key "CRPIX" a) ->
  cards k (put_stokes sa num st h) = cards k h.
Proof.
  intros sa num st h k A B C. unfold put_stokes. rewrite cards_hset_other by auto. destruct sa; auto. rewrite !cards_hset_other; auto.
Qed.
Lemma put_axis : forall sa num st h, stokes_axis (put_stokes sa num st h) = stokes_axis h.
Proof. intros. apply stokes_axis_cards; intros; apply put_cards; intros; kneq. Qed.

Lemma three_spec : forall h t, three h = POk t <-> exists sa, stokes_axis h = POk sa /\
  let q := put_stokes sa 2 (s "Q") h in let u := put_stokes sa 3 (s "U") q in t = (q, u, hpop (s "STOKES") (put_stokes sa 0 (s "PI") u)).
Proof.
  intros h t. unfold three, setStokes. destruct (stokes_axis h) as [sa|] eqn:E.
  - cbn [pybind]. change (hset (s "STOKES") (HStr (s "Q")) _) with (put_stokes sa 2 (s "Q") h). rewrite put_axis, E. cbn [pybind].
    change (hset (s "STOKES") (HStr (s "U")) _) with (put_stokes sa 3 (s "U") (put_stokes sa 2 (s "Q") h)). rewrite !put_axis, E. cbn [pybind].
    split; [intros [= <-]; exists sa; split; reflexivity|]. intros (sa' & [= <-] & ->). reflexivity.
  - cbn. split; [intro H; discriminate H|]. intros (sa & H & _). discriminate H.
Qed.

(* -------------------------------------------------------- RM-synthesis *)

Lemma type_list_eq : forall h n l, type_list h n l -> l = ctypes h n.
Proof.
  intros h n l [L A]. destruct (ctypes_list h n) as [L' B]. apply (nth_ext _ _ None None); [congruence|]. intros i Hi.
  specialize (A (S i) ltac:(lia)). specialize (B (S i) ltac:(lia)). replace (S i - 1) with i in A, B by lia.
  destruct (nth i l None) as [t|]; destruct (nth i (ctypes h n) None) as [t'|]; auto.
  - symmetry. apply B, A. reflexivity.
  - symmetry. apply B, A. reflexivity.
  - apply A, B. reflexivity.
Qed.
Lemma freq_axis_spec : forall h n l f, type_list h n l -> spectral_axis (s "FREQ") l f -> freq_axis h n = f /\ 1 <= f <= n.
Proof.
  intros h n l f T H. pose proof (type_list_eq _ _ _ T) as E. destruct T as [L _]. destruct (find_axis_spec _ _ _ caps_FREQ H) as [A _].
  unfold freq_axis. rewrite <- E, <- A, L. split; [reflexivity|]. destruct H as [H _]. rewrite L in H. rewrite <- L in H at 1. rewrite <- L, A. lia.
Qed.

Definition flat_base (tmpl : fheader) (f : nat) (lam0 : option R) : fheader :=
  hpop (s "DATAMIN") (hpop (s "DATAMAX") (hset (s "LAMSQ0") (HNum (match lam0 with Some l => l | None => 0%R end))
    (hset (key "CUNIT" f) (HStr (s "rad/m^2")) (hset (key "CTYPE" f) (HStr (s "FDEP")) tmpl)))).

Lemma flat_base_cards : forall tmpl f lam0 k, (k <> s "DATAMIN" /\ k <> s "DATAMAX" /\ k <> s "LAMSQ0" /\ k <> key "CUNIT" f /\ k <> key "CTYPE" f) ->
  cards k (flat_base tmpl f lam0) = cards k tmpl.
Proof. intros tmpl f lam0 k (A & B & C & D & E). unfold flat_base. rewrite !cards_hpop_other, !cards_hset_other; auto. Qed.

Lemma base_spec : forall tmpl lam0 n h f, naxis_of tmpl = POk n -> (base_header tmpl lam0 = POk (h, f) <->
  f = freq_axis tmpl n /\ 1 <= n /\ (forall i, 1 <= i <= n -> ~ lacks tmpl (key "NAXIS" i)) /\
  ((lacks tmpl (s "BUNIT") /\ h = flat_base tmpl f lam0) \/
   exists u, says tmpl (s "BUNIT") (HStr u) /\ h = hset (s "BUNIT") (HStr (u ++ s "/RMSF")%list) (flat_base tmpl f lam0))).
Proof.
  intros tmpl lam0 n h f N. unfold base_header. rewrite N. cbn [pybind]. set (f0 := freq_axis tmpl n).
  change (hpop (s "DATAMIN") _) with (flat_base tmpl f0 lam0).
  assert (A : forallb (fun i => is_some (hget (kw "NAXIS" i) (flat_base tmpl f0 lam0))) (seq 1 n) = true <-> (forall i, 1 <= i <= n -> ~ lacks tmpl (key "NAXIS" i))).
  { rewrite forallb_forall. unfold lacks. split.
    - intros H i Hi Q. specialize (H i). rewrite hget_cards in H. change (kw "NAXIS" i) with (key "NAXIS" i) in H.
      rewrite flat_base_cards in H by (repeat split; kneq). rewrite Q in H. discriminate H. apply in_seq. lia.
    - intros H i Hi. apply in_seq in Hi. specialize (H i ltac:(lia)). rewrite hget_cards. change (kw "NAXIS" i) with (key "NAXIS" i).
      rewrite flat_base_cards by (repeat split; kneq). destruct (cards (key "NAXIS" i) tmpl); [congruence|reflexivity]. }
  assert (B : hget (s "BUNIT") (flat_base tmpl f0 lam0) = hget (s "BUNIT") tmpl).
  { rewrite !hget_cards, flat_base_cards by (repeat split; kneq). reflexivity. }
  rewrite B. destruct (forallb _ (seq 1 n)); cbn [negb].
  2:{ split; [intro H; discriminate H|]. intros (_ & _ & H & _). apply A in H. discriminate H. }
  destruct (Nat.eqb_spec n 0) as [Z|Z]; [split; [intro H; discriminate H|intros (_ & H & _); lia]|].
  pose proof (hget_says (s "BUNIT") tmpl) as G. pose proof (hget_lacks (s "BUNIT") tmpl) as G0.
  destruct (hget (s "BUNIT") tmpl) as [[z|x|t]|].
  - split; [intro H; discriminate H|]. intros (_ & _ & _ & [[H _]|(u & H & _)]); [apply G0 in H|apply G in H]; discriminate H.
  - split; [intro H; discriminate H|]. intros (_ & _ & _ & [[H _]|(u & H & _)]); [apply G0 in H|apply G in H]; discriminate H.
  - split.
    + intros [= <- <-]. split; auto. split; [lia|]. split; [now apply A|]. right. exists t. split; auto. apply G. reflexivity.
    + intros (-> & _ & _ & [[H _]|(u & H & ->)]); [apply G0 in H; discriminate H|]. apply G in H. injection H as ->. reflexivity.
  - split.
    + intros [= <- <-]. split; auto. split; [lia|]. split; [now apply A|]. left. split; auto. apply G0. reflexivity.
    + intros (-> & _ & _ & [[_ ->]|(u & H & _)]); [reflexivity|]. apply G in H. discriminate H.
Qed.

(** what every header on the way has *)
Definition core (tmpl : fheader) (n f : nat) (lam0 : option R) (h : fheader) : Prop :=
  says h (s "NAXIS") (HInt (Z.of_nat n)) /\ says h (key "CTYPE" f) (HStr (s "FDEP")) /\ says h (key "CUNIT" f) (HStr (s "rad/m^2")) /\
  says h (s "LAMSQ0") (HNum (match lam0 with Some l => l | None => 0%R end)) /\
  lacks h (s "DATAMAX") /\ lacks h (s "DATAMIN") /\ same_but (synth_touched tmpl n f) tmpl h.

Lemma touched_axis : forall tmpl n f w, In w ["CTYPE"; "CUNIT"; "NAXIS"; "CDELT"; "CRPIX"; "CRVAL"]%string -> synth_touched tmpl n f (key w f).
Proof. intros. left. exists w. auto. Qed.
Lemma touched_lit : forall tmpl n f k, In k (map s ["LAMSQ0"; "DATAMAX"; "DATAMIN"; "BUNIT"]%string) -> synth_touched tmpl n f k.
Proof. intros. right. now right. Qed.
Ltac litin H := exfalso; cbn [In map] in H; repeat (destruct H as [H|H]; [symmetry in H; revert H; kneq|]); destruct H.
Ltac cases H := cbn [In] in H; repeat (destruct H as [<-|H]); [..|destruct H].
Ltac inn := cbn [In map]; repeat (first [left; reflexivity | right]).
Ltac sb :=
  first [ assumption | apply sb_refl
        | apply sb_set; [first [apply touched_axis; inn | apply touched_lit; inn | idtac]|sb]
        | apply sb_pop; [first [apply touched_axis; inn | apply touched_lit; inn | idtac]|sb] ].

Lemma base_core : forall tmpl lam0 n h f, says tmpl (s "NAXIS") (HInt (Z.of_nat n)) -> base_header tmpl lam0 = POk (h, f) ->
  core tmpl n f lam0 h /\ unit_rmsf tmpl h.
Proof.
  intros tmpl lam0 n h f N H. apply (base_spec tmpl lam0 n h f (naxis_of_nat _ _ N)) in H. destruct H as (Ef & _ & _ & B).
  assert (core tmpl n f lam0 (flat_base tmpl f lam0)) as (C1 & C2 & C3 & C4 & C5 & C6 & C7).
  { unfold core, flat_base. repeat split; try card. sb. }
  destruct B as [(L & ->)|(u & S & ->)].
  - split; [repeat split; auto|]. unfold unit_rmsf. split.
    + intros u Hu. apply hget_says in Hu. apply hget_lacks in L. congruence.
    + intros _. unfold flat_base. card.
  - split.
    + unfold core. repeat split; try card. sb.
    + split; [|intro L; apply hget_lacks in L; apply hget_says in S; congruence]. intros u' Hu. pose proof (says_fun _ _ _ _ S Hu) as [= <-]. card.
Qed.

Lemma write_depth_spec : forall phi a, write_depth_axis phi = POk a <-> 2 <= List.length phi /\
  a = mk_axis (Z.of_nat (List.length phi)) (INR (List.length phi / 2 + 1)) (nth (List.length phi / 2) phi 0%R) (nth 1 phi 0 - nth 0 phi 0)%R.
Proof.
  intros phi a. unfold write_depth_axis. destruct (le_lt_dec 2 (List.length phi)) as [L|L].
  - destruct (np_diff_head phi L) as [t ->]. split; [intros [= <-]; auto|intros [_ ->]; reflexivity].
  - destruct phi as [|x [|y t]]; cbn in L; try lia; cbn; (split; [intro H; discriminate H|intros [H _]; cbn in H; lia]).
Qed.

Lemma depth_spec : forall tmpl n f lam0 phi h h', core tmpl n f lam0 h -> depth_cards f phi h = POk h' ->
  2 <= List.length phi /\ core tmpl n f lam0 h' /\ depth_axis h' f phi /\ same_but (axis_card f) h h'.
Proof.
  intros tmpl n f lam0 phi h h' (C1 & C2 & C3 & C4 & C5 & C6 & C7) H. unfold depth_cards in H.
  destruct (write_depth_axis phi) as [a|] eqn:E; [|discriminate H]. cbn [pybind] in H. injection H as <-.
  apply write_depth_spec in E. destruct E as [L ->]. cbn [NAXISn CDELT CRVAL].
  change (kw "NAXIS" f) with (key "NAXIS" f). change (kw "CDELT" f) with (key "CDELT" f). change (kw "CRPIX" f) with (key "CRPIX" f). change (kw "CRVAL" f) with (key "CRVAL" f).
  split; auto. split; [|split].
  - unfold core. repeat split; try card. sb.
  - unfold depth_axis. repeat split; try card. exists (List.length phi / 2 + 1). split; [card|].
    assert (List.length phi / 2 < List.length phi) by (apply Nat.div_lt; lia). split; [lia|].
    replace (List.length phi / 2 + 1 - 1) with (List.length phi / 2) by lia. card.
  - assert (W : forall w, In w ["CTYPE"; "CUNIT"; "NAXIS"; "CDELT"; "CRPIX"; "CRVAL"]%string -> axis_card f (key w f)) by (intros w Hw; exists w; auto).
    repeat (apply sb_set; [apply W; inn|]). apply sb_refl.
Qed.
Lemma depth_defined : forall f phi h, (exists h', depth_cards f phi h = POk h') <-> 2 <= List.length phi.
Proof.
  intros f phi h. unfold depth_cards. pose proof (write_depth_spec phi) as W. split.
  - intros [h' H]. destruct (write_depth_axis phi) as [a|]; [|discriminate H]. apply (W a). reflexivity.
  - intros L. rewrite (proj2 (W _) (conj L eq_refl)). cbn [pybind]. eauto.
Qed.

(** the Stokes axis found in such a header is that of the template *)
Lemma core_ctype : forall tmpl n f lam0 h i, core tmpl n f lam0 h -> i <> f -> cards (key "CTYPE" i) h = cards (key "CTYPE" i) tmpl.
Proof.
  intros tmpl n f lam0 h i (_ & _ & _ & _ & _ & _ & S) Hi. apply (sb_cards _ _ _ _ S). intros [(w & Hw & E)|[[E|(a & _ & [E|E])]|E]].
  - apply key_inj in E; [destruct E; congruence|reflexivity|]. cases Hw; reflexivity.
  - revert E. kneq.
  - revert E. kneq.
  - revert E. kneq.
  - litin E.
Qed.
Lemma core_hit : forall tmpl n f lam0 h i, core tmpl n f lam0 h ->
  (st_hit h i = true <-> i <> f /\ exists t, says tmpl (key "CTYPE" i) (HStr t) /\ has_part (s "STOKES") t).
Proof.
  intros tmpl n f lam0 h i C. unfold st_hit. destruct (Nat.eq_dec i f) as [->|Hi].
  - destruct C as (_ & C2 & _). apply ctype_says in C2. rewrite C2. split; [intro H; discriminate H|tauto].
  - rewrite (ctype_cards tmpl h i (core_ctype _ _ _ _ _ _ C Hi)). destruct (ctype_of tmpl i) as [t|] eqn:E.
    + split.
      * intros H. split; auto. exists t. split; [apply ctype_says, E|apply has_part_iff, H].
      * intros (_ & t' & A & B). apply ctype_says in A. rewrite A in E. injection E as <-. apply has_part_iff, B.
    + split; [intro H; discriminate H|]. intros (_ & t' & A & _). apply ctype_says in A. congruence.
Qed.
Lemma core_stokes : forall tmpl n f lam0 h sa, core tmpl n f lam0 h -> stokes_axis h = POk sa ->
  (forall i, 1 <= i <= n -> i <> f -> exists t, says tmpl (key "CTYPE" i) (HStr t)) /\
  match sa with Some a => stokes_at tmpl n f a | None => no_stokes tmpl n f end.
Proof.
  intros tmpl n f lam0 h sa C H. pose proof C as (C1 & _). apply (stokes_axis_spec h n sa (naxis_of_nat _ _ C1)) in H. destruct H as [A B]. split.
  - intros i Hi Ni. destruct (A i Hi) as [t Ht]. exists t. unfold says in *. now rewrite (core_ctype _ _ _ _ _ i C Ni) in Ht.
  - destruct sa as [a|].
    + destruct B as (Ha & B1 & B2). apply (core_hit _ _ _ _ _ a C) in B1. destruct B1 as [Na B1]. repeat split; auto; try lia.
      intros j t Hj Nj Hs Hp. assert (st_hit h j = true) as Q; [apply (core_hit _ _ _ _ _ j C); eauto|]. rewrite B2 in Q by lia. discriminate Q.
    + intros j t Hj Nj Hs Hp. assert (st_hit h j = true) as Q; [apply (core_hit _ _ _ _ _ j C); eauto|]. rewrite B in Q by lia. discriminate Q.
Qed.
Lemma stokes_at_unique : forall h n f a b, stokes_at h n f a -> stokes_at h n f b -> a = b.
Proof.
  intros h n f a b (A1 & A2 & (t & A3 & A4) & A5) (B1 & B2 & (t' & B3 & B4) & B5).
  destruct (Nat.lt_trichotomy a b) as [L|[L|L]]; auto; exfalso; [apply (A5 b t')|apply (B5 a t)]; auto; lia.
Qed.
Lemma core_axis_defined : forall tmpl n f lam0 h, core tmpl n f lam0 h ->
  (forall i, 1 <= i <= n -> i <> f -> exists t, says tmpl (key "CTYPE" i) (HStr t)) -> exists sa, stokes_axis h = POk sa.
Proof.
  intros tmpl n f lam0 h C H. pose proof C as (C1 & C2 & _). unfold stokes_axis. rewrite (naxis_of_nat _ _ C1). cbn [pybind].
  assert (E : forallb (fun c => is_some c) (ctypes h n) = true); [|rewrite E; eauto].
  apply forallb_forall. intros x Hx. apply in_map_iff in Hx. destruct Hx as (i & <- & Hi). apply in_seq in Hi.
  destruct (Nat.eq_dec i f) as [->|Ni]; [apply ctype_says in C2; now rewrite C2|].
  destruct (H i ltac:(lia) Ni) as [t Ht]. rewrite (ctype_cards tmpl h i (core_ctype _ _ _ _ _ _ C Ni)). apply ctype_says in Ht. now rewrite Ht.
Qed.

(** one part *)
Lemma put_spec : forall tmpl n f lam0 h sa num st, core tmpl n f lam0 h ->
  match sa with Some a => stokes_at tmpl n f a | None => no_stokes tmpl n f end ->
  let x := put_stokes sa num st h in
  core tmpl n f lam0 x /\ same_but (stokes_touched tmpl n f) h x /\ says x (s "STOKES") (HStr st) /\ stokes_cards x n f tmpl num.
Proof.
  intros tmpl n f lam0 h sa num st (C1 & C2 & C3 & C4 & C5 & C6 & C7) A x.
  assert (SB : same_but (stokes_touched tmpl n f) h x).
  { unfold x, put_stokes. apply sb_set; [now left|]. destruct sa as [a|]; [|apply sb_refl].
    apply sb_set; [right; exists a; auto|]. apply sb_set; [right; exists a; auto|]. apply sb_refl. }
  split; [|split; [|split]]; auto.
  - unfold core. unfold x, put_stokes in *. destruct sa as [a|].
    + destruct A as (_ & Na & _). repeat split; try card. eapply sb_trans; [exact C7|]. eapply sb_weak; [|exact SB]. intros k Hk. right. now left.
    + repeat split; try card. eapply sb_trans; [exact C7|]. eapply sb_weak; [|exact SB]. intros k Hk. right. now left.
  - unfold x, put_stokes. card.
  - intros a' Ha'. unfold x, put_stokes. destruct sa as [a|].
    + rewrite <- (stokes_at_unique _ _ _ _ _ A Ha'). split; card.
    + exfalso. destruct Ha' as (X & Y & (t & Z & W) & _). exact (A a' t X Y Z W).
Qed.

Lemma sb_lacks : forall (T : str -> Prop) h h' k, same_but T h h' -> ~ T k -> lacks h k <-> lacks h' k.
Proof. intros T h h' k A N. unfold lacks. now rewrite (sb_cards T h h' k A N). Qed.

Lemma stokes_touched_not : forall tmpl n f k, (exists w, k = key w f /\ In w ["CTYPE"; "CUNIT"; "NAXIS"; "CDELT"; "CRPIX"; "CRVAL"]%string) \/
   In k (map s ["NAXIS"; "LAMSQ0"; "DATAMAX"; "DATAMIN"; "BUNIT"; "BTYPE"; "HISTORY"]%string) -> ~ stokes_touched tmpl n f k.
Proof.
  intros tmpl n f k [(w & -> & Hw)|Hk] [E|(a & Ha & E)].
  - cases Hw; revert E; kneq.
  - destruct Ha as (_ & Na & _). destruct E as [E|E]; cases Hw; revert E; kneq.
  - subst k. litin Hk.
  - destruct E as [-> | ->]; litin Hk.
Qed.

Lemma depth_kept : forall tmpl n f phi h h', depth_axis h f phi -> same_but (stokes_touched tmpl n f) h h' -> depth_axis h' f phi.
Proof.
  intros tmpl n f phi h h' (A & B & C & D & c & E & F & G) S.
  assert (W : forall w v, In w ["CTYPE"; "CUNIT"; "NAXIS"; "CDELT"; "CRPIX"; "CRVAL"]%string -> says h (key w f) v -> says h' (key w f) v).
  { intros w v Hw Hv. apply (sb_says _ _ _ (key w f) v S); auto. apply stokes_touched_not. left. eauto. }
  unfold depth_axis. repeat split; try (apply W; [inn|assumption]). exists c. split; [apply W; [inn|assumption]|]. split; auto. apply W; [inn|assumption].
Qed.

Lemma three_core : forall tmpl n f lam0 phi h t, core tmpl n f lam0 h -> depth_axis h f phi -> three h = POk t ->
  three_parts tmpl n f t (fun x => cube_header tmpl n f phi lam0 x /\ same_but (stokes_touched tmpl n f) h x) /\ core tmpl n f lam0 (snd t).
Proof.
  intros tmpl n f lam0 phi h t C D H. apply three_spec in H. destruct H as (sa & H & Et). cbv zeta in Et.
  destruct (core_stokes _ _ _ _ _ _ C H) as [_ A].
  destruct (put_spec tmpl n f lam0 h sa 2 (s "Q") C A) as (Cq & Sq & Kq & Aq). set (q := put_stokes sa 2 (s "Q") h) in *.
  destruct (put_spec tmpl n f lam0 q sa 3 (s "U") Cq A) as (Cu & Su & Ku & Au). set (u := put_stokes sa 3 (s "U") q) in *.
  destruct (put_spec tmpl n f lam0 u sa 0 (s "PI") Cu A) as (Cp & Sp & Kp & Ap). set (p := put_stokes sa 0 (s "PI") u) in *.
  assert (Su' : same_but (stokes_touched tmpl n f) h u) by (eapply sb_trans; eauto).
  assert (Sp' : same_but (stokes_touched tmpl n f) h (hpop (s "STOKES") p)).
  { apply sb_pop; [now left|]. eapply sb_trans; eauto. }
  assert (Cp' : core tmpl n f lam0 (hpop (s "STOKES") p)).
  { destruct Cp as (C1 & C2 & C3 & C4 & C5 & C6 & C7). unfold core. repeat split; try card. apply sb_pop; auto. right. left. now left. }
  assert (G : forall x, core tmpl n f lam0 x -> same_but (stokes_touched tmpl n f) h x -> cube_header tmpl n f phi lam0 x /\ same_but (stokes_touched tmpl n f) h x).
  { intros x (C1 & C2 & C3 & C4 & C5 & C6 & C7) S. split; auto. unfold cube_header. repeat split; auto; try (eapply depth_kept; eauto). }
  subst t. cbn [snd]. split; auto. unfold three_parts.
  refine (conj (G _ Cq Sq) (conj (G _ Cu Su') (conj (G _ Cp' Sp') (conj Kq (conj Ku (conj (lacks_pop _ _) (conj Aq (conj Au _)))))))).
  intros a Ha. destruct (Ap a Ha). split; (apply says_pop_o; [kneq|assumption]).
Qed.

Lemma parts_weak : forall tmpl n f t (P Q : fheader -> Prop), (forall x, P x -> Q x) -> three_parts tmpl n f t P -> three_parts tmpl n f t Q.
Proof. intros tmpl n f [[q u] p] P Q W (A & B & C & D). unfold three_parts. auto. Qed.

Lemma three_defined : forall tmpl n f lam0 h, core tmpl n f lam0 h ->
  ((exists t, three h = POk t) <-> forall i, 1 <= i <= n -> i <> f -> exists t, says tmpl (key "CTYPE" i) (HStr t)).
Proof.
  intros tmpl n f lam0 h C. split.
  - intros [t H]. apply three_spec in H. destruct H as (sa & H & _). exact (proj1 (core_stokes _ _ _ _ _ _ C H)).
  - intro H. destruct (core_axis_defined _ _ _ _ _ C H) as [sa E]. eexists. apply three_spec. exists sa. split; [exact E|reflexivity].
Qed.

(** the axes a celestial keyword may belong to *)
Lemma first_ctype : forall h t, says h (key "CTYPE" 1) (HStr t) -> exists c, In c h /\ celestial_key (fst c).
Proof.
  intros h t H. unfold says in H. destruct (cards (key "CTYPE" 1) h) as [|c l] eqn:E; [discriminate H|]. injection H as ->.
  exists (key "CTYPE" 1, HStr t). split.
  - assert (I : In (key "CTYPE" 1, HStr t) (cards (key "CTYPE" 1) h)) by (rewrite E; now left). apply filter_In in I. apply I.
  - left. exists "CTYPE"%string, 1. repeat split; auto. cbn. auto.
Qed.
Lemma core_set : forall tmpl n f lam0 h v, core tmpl n f lam0 h -> core tmpl n f lam0 (hset (s "BUNIT") v h).
Proof. intros tmpl n f lam0 h v (C1 & C2 & C3 & C4 & C5 & C6 & C7). unfold core. repeat split; try card. sb. Qed.

(** the steps of the function *)
Definition wide (h : fheader) : fheader := hpop (s "BTYPE") (hset (s "BUNIT") (HStr (s "rad/m^2")) h).
Definition rmsf_step (f : nat) (phi2 : option (list R)) (h : fheader) (r2 : fheader * option (fheader * fheader * fheader) * option fheader) : Prop :=
  match phi2 with
  | None => r2 = (h, None, None)
  | Some p2 => exists h2 w t2, depth_cards f p2 h = POk h2 /\
                 remove_header_third_fourth_axis (HInt 2) (wide (hset (s "BUNIT") (HStr []) h2)) = POk w /\
                 three (hset (s "BUNIT") (HStr []) h2) = POk t2 /\ r2 = (snd t2, Some t2, Some w)
  end.
Definition fdf_step (f : nat) (phi : option (list R)) (h : fheader) (r1 : fheader * option (fheader * fheader * fheader)) : Prop :=
  match phi with
  | None => r1 = (h, None)
  | Some p => exists h1 t1, depth_cards f p h = POk h1 /\ three h1 = POk t1 /\ r1 = (snd t1, Some t1)
  end.
Definition peak_step (tmpl : fheader) (f : nat) (phi : option (list R)) (pk : bool) (h : fheader) (r : option (fheader * fheader)) : Prop :=
  match phi with
  | Some p => if pk then exists m, peak_header tmpl f p h = POk m /\ r = Some (m, hset (s "BTYPE") (HStr (s "FDEP")) (hset (s "BUNIT") (HStr (s "rad/m^2")) m)) else r = None
  | None => r = None
  end.
Lemma pybind_ok : forall {A B} (x : pyres A) (k : A -> pyres B) b, pybind x k = POk b <-> exists a, x = POk a /\ k a = POk b.
Proof. intros A B [a|] k b; cbn; [split; [eauto|intros (a' & [= <-] & H); exact H]|split; [intro H; discriminate H|intros (a & H & _); discriminate H]]. Qed.

Lemma synth_steps : forall tmpl phi phi2 lam0 pk o, synth_write tmpl phi phi2 lam0 pk = POk o <->
  (phi <> None \/ phi2 <> None) /\
  exists h f r1 r2 r3, base_header tmpl lam0 = POk (h, f) /\ fdf_step f phi h r1 /\ rmsf_step f phi2 (fst r1) r2 /\ peak_step tmpl f phi pk (fst (fst r2)) r3 /\
    o = mk_sh (snd r1) (snd (fst r2)) (snd r2) r3.
Proof.
  intros tmpl phi phi2 lam0 pk o.
  assert (E : synth_write tmpl phi phi2 lam0 pk = POk o <-> (phi <> None \/ phi2 <> None) /\
    pybind (base_header tmpl lam0) (fun hf => let '(h, f) := hf in
    pybind (match phi with None => POk (h, None) | Some p => pybind (depth_cards f p h) (fun h => pybind (three h) (fun t => POk (snd t, Some t))) end) (fun r1 =>
    let '(h, fdf) := r1 in
    pybind (match phi2 with None => POk (h, None, None) | Some p => pybind (depth_cards f p h) (fun h =>
                        pybind (remove_header_third_fourth_axis (HInt 2) (wide (hset (s "BUNIT") (HStr []) h))) (fun w =>
                        pybind (three (hset (s "BUNIT") (HStr []) h)) (fun t => POk (snd t, Some t, Some w)))) end) (fun r2 =>
    let '(h, rmsf, fwhm) := r2 in
    pybind (match phi with Some p => if pk then pybind (peak_header tmpl f p h) (fun m => POk (Some (m, hset (s "BTYPE") (HStr (s "FDEP")) (hset (s "BUNIT") (HStr (s "rad/m^2")) m)))) else POk None
            | None => POk None end) (fun peak => POk (mk_sh fdf rmsf fwhm peak))))) = POk o).
  { unfold synth_write. destruct phi as [p|], phi2 as [p2|].
    - split; [intro H; split; [left; discriminate|exact H]|intros [_ H]; exact H].
    - split; [intro H; split; [left; discriminate|exact H]|intros [_ H]; exact H].
    - split; [intro H; split; [right; discriminate|exact H]|intros [_ H]; exact H].
    - split; [intro H; discriminate H|intros [[H|H] _]; congruence]. }
  rewrite E. clear E. apply and_iff_compat_l. rewrite pybind_ok. split.
  - intros ([h f] & Hb & H). apply pybind_ok in H. destruct H as ([h1 fdf] & H1 & H). apply pybind_ok in H. destruct H as ([[h2 rmsf] fwhm] & H2 & H).
    apply pybind_ok in H. destruct H as (r3 & H3 & [= <-]). exists h, f, (h1, fdf), (h2, rmsf, fwhm), r3. split; auto. repeat split.
    + unfold fdf_step. destruct phi as [p|]; [|injection H1 as <- <-; reflexivity]. apply pybind_ok in H1. destruct H1 as (x & A & H1). apply pybind_ok in H1. destruct H1 as (t & B & [= <- <-]). eauto.
    + unfold rmsf_step. cbn [fst]. destruct phi2 as [p|]; [|injection H2 as <- <- <-; reflexivity]. apply pybind_ok in H2. destruct H2 as (x & A & H2). apply pybind_ok in H2. destruct H2 as (w & B & H2).
      apply pybind_ok in H2. destruct H2 as (t & D & [= <- <- <-]). exists x, w, t. auto.
    + unfold peak_step. cbn [fst]. destruct phi as [p|]; [|injection H3 as <-; reflexivity]. destruct pk; [|injection H3 as <-; reflexivity]. apply pybind_ok in H3. destruct H3 as (m & A & [= <-]). eauto.
  - intros (h & f & [h1 fdf] & [[h2 rmsf] fwhm] & r3 & Hb & H1 & H2 & H3 & ->). exists (h, f). split; auto. cbn [fst snd] in *. apply pybind_ok. exists (h1, fdf). split.
    + unfold fdf_step in H1. destruct phi as [p|]; [|injection H1 as -> ->; reflexivity]. destruct H1 as (x & t & A & B & [= -> ->]). rewrite A. cbn [pybind]. rewrite B. reflexivity.
    + apply pybind_ok. exists (h2, rmsf, fwhm). split.
      * unfold rmsf_step in H2. destruct phi2 as [p|]; [|injection H2 as -> -> ->; reflexivity]. destruct H2 as (x & w & t & A & B & D & [= -> -> ->]). rewrite A. cbn [pybind]. rewrite B. cbn [pybind]. rewrite D. reflexivity.
      * apply pybind_ok. exists r3. split; auto. unfold peak_step in H3. destruct phi as [p|]; [|subst r3; reflexivity]. destruct pk; [|subst r3; reflexivity].
        destruct H3 as (m & A & ->). rewrite A. reflexivity.
Qed.

Lemma base_axis : forall tmpl lam0 n l f h f', says tmpl (s "NAXIS") (HInt (Z.of_nat n)) -> type_list tmpl n l -> spectral_axis (s "FREQ") l f ->
  base_header tmpl lam0 = POk (h, f') -> f' = f /\ 1 <= f <= n.
Proof.
  intros tmpl lam0 n l f h f' N T F H. apply (base_spec _ _ n _ _ (naxis_of_nat _ _ N)) in H. destruct H as (E & _).
  destruct (freq_axis_spec _ _ _ _ T F) as [A B]. split; congruence || auto.
Qed.

(** the FDF cubes *)
Theorem synth_fdf : forall tmpl phi phi2 lam0 pk o n l f, says tmpl (s "NAXIS") (HInt (Z.of_nat n)) -> type_list tmpl n l -> spectral_axis (s "FREQ") l f ->
  synth_write tmpl (Some phi) phi2 lam0 pk = POk o ->
  exists t, h_fdf o = Some t /\ three_parts tmpl n f t (fun x => cube_header tmpl n f phi lam0 x /\ unit_rmsf tmpl x).
Proof.
  intros tmpl phi phi2 lam0 pk o n l f N T F H. apply synth_steps in H. destruct H as (_ & h & f' & r1 & r2 & r3 & Hb & H1 & _ & _ & ->).
  destruct (base_axis _ _ _ _ _ _ _ N T F Hb) as [-> _]. destruct (base_core _ _ _ _ _ N Hb) as [C U].
  destruct H1 as (h1 & t1 & A & B & ->). cbn [h_fdf snd]. exists t1. split; auto.
  destruct (depth_spec _ _ _ _ _ _ _ C A) as (_ & C1 & D1 & S1). destruct (three_core _ _ _ _ _ _ _ C1 D1 B) as [P _].
  eapply parts_weak; [|exact P]. cbv beta. intros x [X Y]. split; auto.
  assert (K1 : ~ axis_card f (s "BUNIT")). { intros (w & Hw & E). symmetry in E. revert E. cases Hw; kneq. }
  assert (K2 : ~ stokes_touched tmpl n f (s "BUNIT")). { apply stokes_touched_not. right. inn. }
  destruct U as [U1 U2]. split.
  - intros u Hu. apply (sb_says _ _ _ _ _ Y K2), (sb_says _ _ _ _ _ S1 K1), U1, Hu.
  - intros Hl. apply (sb_lacks _ _ _ _ Y K2), (sb_lacks _ _ _ _ S1 K1), U2, Hl.
Qed.

Lemma fdf_core : forall tmpl n f lam0 phi h r1, core tmpl n f lam0 h -> fdf_step f phi h r1 -> core tmpl n f lam0 (fst r1).
Proof.
  intros tmpl n f lam0 [p|] h r1 C H; cbn in H; [|subst r1; exact C]. destruct H as (h1 & t1 & A & B & ->).
  destruct (depth_spec _ _ _ _ _ _ _ C A) as (_ & C1 & D1 & _). exact (proj2 (three_core _ _ _ _ _ _ _ C1 D1 B)).
Qed.

(** the RMSF cubes and the map of the width *)
Theorem synth_rmsf : forall tmpl phi phi2 lam0 pk o n l f, says tmpl (s "NAXIS") (HInt (Z.of_nat n)) -> type_list tmpl n l -> spectral_axis (s "FREQ") l f ->
  synth_write tmpl phi (Some phi2) lam0 pk = POk o ->
  exists t w, h_rmsf o = Some t /\ h_fwhm o = Some w /\
    three_parts tmpl n f t (fun x => cube_header tmpl n f phi2 lam0 x /\ says x (s "BUNIT") (HStr [])) /\
    says w (s "NAXIS") (HInt 2) /\ cards (s "WCSAXES") w = [(s "WCSAXES", HInt 2)] /\ says w (s "BUNIT") (HStr (s "rad/m^2")) /\
    lacks w (s "BTYPE") /\ lacks w (s "STOKES") /\ (forall k, axis_key k -> lacks w k) /\
    same_but (fun k => synth_touched tmpl n f k \/ flat_touched k \/ k = s "BTYPE") tmpl w.
Proof.
  intros tmpl phi phi2 lam0 pk o n l f N T F H. apply synth_steps in H. destruct H as (_ & h & f' & r1 & r2 & r3 & Hb & H1 & H2 & _ & ->).
  destruct (base_axis _ _ _ _ _ _ _ N T F Hb) as [-> _]. destruct (base_core _ _ _ _ _ N Hb) as [C _].
  pose proof (fdf_core _ _ _ _ _ _ _ C H1) as C0. destruct H2 as (h2 & w & t2 & A & W & B & ->). cbn [h_rmsf h_fwhm fst snd]. exists t2, w. split; auto. split; auto.
  destruct (depth_spec _ _ _ _ _ _ _ C0 A) as (_ & C2 & D2 & _).
  assert (C2' := core_set _ _ _ _ _ (HStr []) C2).
  assert (D2' : depth_axis (hset (s "BUNIT") (HStr []) h2) f phi2).
  { destruct D2 as (X1 & X2 & X3 & X4 & c & X5 & X6 & X7). unfold depth_axis. repeat split; try card. exists c. repeat split; auto; try lia; card. }
  split; [|].
  - destruct (three_core _ _ _ _ _ _ _ C2' D2' B) as [P _]. eapply parts_weak; [|exact P]. cbv beta. intros x [X Y]. split; auto.
    apply (sb_says _ _ _ _ _ Y); [|card]. apply stokes_touched_not. right. inn.
  - destruct (header_2d _ _ _ W) as (G1 & G2 & G3 & _ & G5 & _).
    assert (SB : same_but flat_touched (wide (hset (s "BUNIT") (HStr []) h2)) w).
    { intros p Hp. apply G5. intros k Hk. unfold flat_touched in Hp. repeat split; intro Q; rewrite Hp in Hk; try discriminate Hk; auto; subst k; right; inn. }
    assert (NF : forall k, In k (map s ["BUNIT"; "BTYPE"]%string) -> ~ flat_touched k).
    { intros k Hk [Q|Q].
      - destruct (header_2d _ _ _ W) as (Z & _). destruct Q as [(w0 & a & Hw & _ & ->)|(i & j & _ & _ & _ & ->)].
        + change (In (key w0 a) (map s ["BUNIT"; "BTYPE"]%string)) in Hk. cases Hw; litin Hk.
        + cbn in Hk. destruct Hk as [Hk|[Hk|[]]]; discriminate Hk.
      - cbn [In map] in Hk. destruct Hk as [<-|[<-|[]]]; litin Q. }
    repeat split.
    + unfold says. rewrite G2. reflexivity.
    + exact G3.
    + apply (sb_says _ _ _ _ _ SB); [apply NF; inn|]. unfold wide. card.
    + apply (sb_lacks _ _ _ _ SB); [apply NF; inn|]. unfold wide. card.
    + apply cards_none. intros c Hc. apply (G1 c Hc).
    + intros k Hk. apply cards_none. intros c Hc E. subst k. exact (proj1 (G1 c Hc) Hk).
    + eapply sb_trans with (h' := wide (hset (s "BUNIT") (HStr []) h2)); [|eapply sb_weak; [|exact SB]; cbv beta; auto].
      unfold wide. apply sb_pop; [auto|]. apply sb_set; [left; apply touched_lit; inn|]. destruct C2' as (_ & _ & _ & _ & _ & _ & C7). eapply sb_weak; [|exact C7]. cbv beta. auto.
Qed.

Lemma rmsf_core : forall tmpl n f lam0 phi2 h r2, core tmpl n f lam0 h -> rmsf_step f phi2 h r2 -> core tmpl n f lam0 (fst (fst r2)).
Proof.
  intros tmpl n f lam0 [p|] h r2 C H; cbn in H; [|subst r2; exact C]. destruct H as (h1 & w & t1 & A & W & B & ->).
  destruct (depth_spec _ _ _ _ _ _ _ C A) as (_ & C1 & D1 & _). assert (C1' := core_set _ _ _ _ _ (HStr []) C1). cbn [fst].
  assert (D1' : depth_axis (hset (s "BUNIT") (HStr []) h1) f p).
  { destruct D1 as (X1 & X2 & X3 & X4 & c & X5 & X6 & X7). unfold depth_axis. repeat split; try card. exists c. repeat split; auto; try lia; card. }
  exact (proj2 (three_core _ _ _ _ _ _ _ C1' D1' B)).
Qed.
