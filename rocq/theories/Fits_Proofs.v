(** Laws of strip_fits_dims and of the beam functions. *)
From Coq Require Import Reals List Arith ZArith Bool Ascii String Lia Lra.
From Verif Require Import PyRes PyStr PyStr_Proofs PyList PyList_Proofs NdArray NdIndex Synth_Model Icube_Model Header_Model Header_Spec Header_Proofs Fits_Model Fits_Spec.
Import ListNotations.
Local Open Scope nat_scope.
Local Arguments s : simpl never.

(* ------------------------------------------------------- number of axes *)

Lemma fold_max : forall {A} (f : nat -> A -> nat) (g : A -> nat) l n,
  (forall n a, f n a = Nat.max n (g a)) -> fold_left f l n = fold_left Nat.max (map g l) n.
Proof. intros A f g l. induction l as [|a l IH]; intros n H; cbn; [reflexivity|]. rewrite H. now apply IH. Qed.

Lemma fold_max_bounds : forall l n, n <= fold_left Nat.max l n /\ (forall x, In x l -> x <= fold_left Nat.max l n) /\
  (fold_left Nat.max l n = n \/ In (fold_left Nat.max l n) l).
Proof.
  induction l as [|a l IH]; intros n; cbn; [split; [lia|split; [intros x []|auto]]|].
  destruct (IH (Nat.max n a)) as (A & B & D). split; [lia|]. split.
  - intros x [<-|I]; [lia|now apply B].
  - destruct D as [D|D]; [|auto]. rewrite D. destruct (Nat.max_spec n a) as [[_ ->]|[_ ->]]; auto.
Qed.

Lemma forced_spec : forall h f n, forced_naxis h f n = if f =? 0 then n else Nat.max n f.
Proof.
  intros h f n. unfold forced_naxis. destruct (Nat.eqb_spec f 0) as [->|Hf]; [reflexivity|].
  set (inner := fun (n : nat) (key : str) => fold_left (fun n0 i => if has (key ++ str_of_nat i)%list h then if n0 <? i then i else n0 else n0) (seq 0 (f + 1)) n).
  assert (I1 : forall key m, m <= inner m key <= Nat.max m f).
  { intros key m. unfold inner.
    rewrite (fold_max _ (fun i => if has (key ++ str_of_nat i)%list h then i else 0)).
    2:{ intros a b. destruct (has _ h); [|lia]. destruct (Nat.ltb_spec a b); lia. }
    pose proof (fold_max_bounds (map (fun i => if has (key ++ str_of_nat i)%list h then i else 0) (seq 0 (f + 1))) m) as (A & _ & D).
    split; [exact A|]. destruct D as [D|D]; [lia|]. apply in_map_iff in D. destruct D as (i & E & Hi). apply in_seq in Hi.
    rewrite <- E. destruct (has _ h); lia. }
  assert (I2 : forall keys m, m <= fold_left inner keys m <= Nat.max m f).
  { induction keys as [|k keys IH]; intros m; cbn; [lia|]. specialize (IH (inner m k)). specialize (I1 k m). lia. }
  specialize (I2 strip_keys n). set (n1 := fold_left inner strip_keys n) in *.
  assert (J : forall i m, 1 <= i <= f -> fold_left (fun n0 j => if n0 <? Nat.max i j then Nat.max i j else n0) (seq 1 f) m = Nat.max m f).
  { intros i m Hi. rewrite (fold_max _ (fun j => Nat.max i j)). 2:{ intros a b. destruct (Nat.ltb_spec a (Nat.max i b)); lia. }
    pose proof (fold_max_bounds (map (fun j => Nat.max i j) (seq 1 f)) m) as (A & B & D).
    assert (f <= fold_left Nat.max (map (fun j => Nat.max i j) (seq 1 f)) m).
    { replace f with (Nat.max i f) at 1 by lia. apply B, in_map_iff. exists f. split; [lia|]. apply in_seq. lia. }
    destruct D as [D|D]; [lia|]. apply in_map_iff in D. destruct D as (j & E & Hj). apply in_seq in Hj. lia. }
  assert (K : forall l m, (forall i, In i l -> 1 <= i <= f) -> l <> [] ->
    fold_left (fun n0 i => fold_left (fun n2 j => if n2 <? Nat.max i j then Nat.max i j else n2) (seq 1 f) n0) l m = Nat.max m f).
  { induction l as [|i l IH]; intros m H N; [congruence|]. cbn [fold_left]. rewrite J by (apply H; now left).
    destruct l as [|i2 l]; [reflexivity|]. rewrite IH; [lia|intros x Hx; apply H; now right|discriminate]. }
  rewrite K; [|intros i Hi; apply in_seq in Hi; lia|destruct f; [lia|discriminate]]. change (Nat.max n1 f = Nat.max n f). lia.
Qed.

(* ------------------------------------------------------------- deletions *)

Definition axis_pops (m n : nat) : list str := flat_map (fun i => map (fun key => (key ++ str_of_nat i)%list) strip_keys) (seq (m + 1) (n - m)).
Definition pc_pops (m n : nat) : list str := flat_map (fun i => flat_map (fun j => if (m <? i) || (m <? j) then [pc_key i j] else []) (seq 1 n)) (seq 1 n).

Lemma fold_flat : forall {A B X} (f : X -> B -> X) (g : A -> list B) l x,
  fold_left (fun x a => fold_left f (g a) x) l x = fold_left f (flat_map g l) x.
Proof. intros A B X f g l. induction l as [|a l IH]; intros x; cbn; [reflexivity|]. now rewrite fold_left_app, IH. Qed.

Lemma fold_map : forall {A B X} (f : X -> B -> X) (g : A -> B) l x, fold_left (fun x a => f x (g a)) l x = fold_left f (map g l) x.
Proof. intros A B X f g l. induction l as [|a l IH]; intros x; cbn; [reflexivity|]. apply IH. Qed.

Lemma fold_ext : forall {A X} (f g : X -> A -> X) l x, (forall x a, f x a = g x a) -> fold_left f l x = fold_left g l x.
Proof. intros A X f g l. induction l as [|a l IH]; intros x H; cbn; [reflexivity|]. rewrite H. now apply IH. Qed.

Lemma strip_eq : forall h m f h', strip_header h m f = POk h' <->
  exists n0, hint (s "NAXIS") h = POk n0 /\
    let n := forced_naxis h f (Z.to_nat n0) in
    m <= n /\
    h' = hset (s "WCSAXES") (HInt (Z.of_nat m)) (hset (s "NAXIS") (HInt (Z.of_nat m)) (fold_left (fun h k => hpop k h) (axis_pops m n ++ pc_pops m n) h)).
Proof.
  intros h m f h'. unfold strip_header. destruct (hint (s "NAXIS") h) as [n0|]; cbn [pybind].
  2:{ split; [discriminate|]. intros (x & E & _). discriminate. }
  set (n := forced_naxis h f (Z.to_nat n0)). cbv zeta.
  assert (E1 : forall h0 : fheader, fold_left (fun h i => fold_left (fun h key => hpop (key ++ str_of_nat i)%list h) strip_keys h) (seq (m + 1) (n - m)) h0 =
    fold_left (fun h k => hpop k h) (axis_pops m n) h0).
  { intros h0. unfold axis_pops. rewrite <- fold_flat. apply fold_ext. intros x a. apply (fold_map (fun h k => hpop k h)). }
  assert (E2 : forall h0 : fheader, fold_left (fun h i => fold_left (fun h j => if (m <? i) || (m <? j) then hpop (pc_key i j) h else h) (seq 1 n) h) (seq 1 n) h0 =
    fold_left (fun h k => hpop k h) (pc_pops m n) h0).
  { intros h0. unfold pc_pops. rewrite <- fold_flat. apply fold_ext. intros x i. rewrite <- fold_flat. apply fold_ext. intros y j.
    destruct ((m <? i) || (m <? j)); reflexivity. }
  rewrite E1, E2, <- fold_left_app. destruct (Nat.ltb_spec n m).
  - split; [discriminate|]. intros (x & [= <-] & L & _). fold n in L. lia.
  - split.
    + intros [= <-]. exists n0. split; [reflexivity|]. split; [assumption|reflexivity].
    + intros (x & [= <-] & L & ->). reflexivity.
Qed.

Lemma in_axis_pops : forall m n k, In k (axis_pops m n) <-> exists i, m < i <= n /\ axis_kw k i.
Proof.
  intros m n k. unfold axis_pops. rewrite in_flat_map. split.
  - intros (i & Hi & Hk). apply in_seq in Hi. exists i. split; [lia|]. apply in_map_iff in Hk. destruct Hk as (w & <- & Hw).
    unfold strip_keys in Hw. apply in_map_iff in Hw. destruct Hw as (w' & <- & Hw'). exists w'. auto.
  - intros (i & Hi & (w & Hw & ->)). exists i. split; [apply in_seq; lia|]. apply in_map_iff. exists (s w). split; [reflexivity|].
    apply in_map. exact Hw.
Qed.

Lemma in_pc_pops : forall m n k, In k (pc_pops m n) <-> exists i j, 1 <= i <= n /\ 1 <= j <= n /\ (m < i \/ m < j) /\ pc_term k i j.
Proof.
  intros m n k. unfold pc_pops. rewrite in_flat_map. split.
  - intros (i & Hi & Hk). apply in_flat_map in Hk. destruct Hk as (j & Hj & Hk). apply in_seq in Hi. apply in_seq in Hj.
    exists i, j. destruct ((m <? i) || (m <? j)) eqn:E; [|destruct Hk]. apply orb_prop in E. rewrite !Nat.ltb_lt in E.
    destruct Hk as [<-|[]]. split; [lia|]. split; [lia|]. split; [exact E|reflexivity].
  - intros (i & j & Hi & Hj & H & ->). exists i. split; [apply in_seq; lia|]. apply in_flat_map. exists j. split; [apply in_seq; lia|].
    assert ((m <? i) || (m <? j) = true) as ->; [apply orb_true_iff; rewrite !Nat.ltb_lt; exact H|]. now left.
Qed.

Lemma str_of_nat_cons : forall n, exists c t, str_of_nat n = c :: t.
Proof.
  intros n. unfold str_of_nat. cbn [dec]. destruct (n <? 10); [eauto|]. destruct (dec n (n / 10)) as [|c t]; cbn; eauto.
Qed.

Lemma axis_kw_name : forall k i, axis_kw k i -> k <> s "NAXIS" /\ k <> s "WCSAXES".
Proof.
  intros k i (w & Hw & ->). destruct (str_of_nat_cons i) as (c & t & ->).
  repeat (destruct Hw as [<-|Hw]; [split; discriminate|]). destruct Hw.
Qed.
Lemma pc_term_name : forall k i j, pc_term k i j -> k <> s "NAXIS" /\ k <> s "WCSAXES".
Proof. intros k i j ->. split; discriminate. Qed.

(** every other card stays where it is *)
Theorem strip_keeps : forall h m f h' (keep : str -> bool), strip_header h m f = POk h' ->
  (forall k, keep k = true -> untouched m k) ->
  filter (fun c => keep (fst c)) h' = filter (fun c => keep (fst c)) h.
Proof.
  intros h m f h' keep E K. apply strip_eq in E. destruct E as (n0 & _ & L & ->).
  assert (N : forall k, (untouched m k -> False) -> keep k = false) by (intros k F; destruct (keep k) eqn:E; auto; exfalso; auto).
  rewrite filter_hset by (apply N; intros (_ & F & _); now apply F). rewrite filter_hset by (apply N; intros (F & _); now apply F).
  apply filter_hpops. intros k Hk. apply N. intros (_ & _ & A & B). apply in_app_iff in Hk. destruct Hk as [Hk|Hk].
  - apply in_axis_pops in Hk. destruct Hk as (i & Hi & Hk). apply (A i); [lia|exact Hk].
  - apply in_pc_pops in Hk. destruct Hk as (i & j & _ & _ & Hij & Hk). apply (B i j); assumption.
Qed.

Lemma cards_none : forall {V} k (h : list (str * V)), (forall c, In c h -> fst c <> k) -> cards k h = [].
Proof.
  intros V k h H. unfold cards. induction h as [|c h IH]; cbn; [reflexivity|]. rewrite str_eqb_neq.
  - apply IH. intros x Hx. apply H. now right.
  - intros E. apply (H c); [now left|congruence].
Qed.

(** no keyword of an axis that is not kept stays *)
Theorem strip_removes : forall h m f h' n, strip_header h m f = POk h' -> hint (s "NAXIS") h = POk (Z.of_nat n) ->
  (forall k i, axis_kw k i -> m < i <= Nat.max n f -> cards k h' = []) /\
  (forall k i j, pc_term k i j -> 1 <= i <= Nat.max n f -> 1 <= j <= Nat.max n f -> m < i \/ m < j -> cards k h' = []).
Proof.
  intros h m f h' n E HN. apply strip_eq in E. destruct E as (n0 & HN' & L & ->). rewrite HN in HN'. injection HN' as <-. rewrite Nat2Z.id in *.
  rewrite forced_spec in *. assert (EN : (if f =? 0 then n else Nat.max n f) = Nat.max n f) by (destruct (Nat.eqb_spec f 0); lia). rewrite EN in *.
  assert (G : forall k, In k (axis_pops m (Nat.max n f) ++ pc_pops m (Nat.max n f)) -> k <> s "NAXIS" -> k <> s "WCSAXES" ->
    cards k (hset (s "WCSAXES") (HInt (Z.of_nat m)) (hset (s "NAXIS") (HInt (Z.of_nat m)) (fold_left (fun h k => hpop k h) (axis_pops m (Nat.max n f) ++ pc_pops m (Nat.max n f)) h))) = []).
  { intros k Hk N1 N2. apply cards_none. intros c Hc Ec. apply hset_in in Hc. destruct Hc as [->|Hc]; [cbn in Ec; congruence|].
    apply hset_in in Hc. destruct Hc as [->|Hc]; [cbn in Ec; congruence|]. apply hpops_in in Hc. destruct Hc as [_ Hc]. apply Hc. now rewrite Ec. }
  split.
  - intros k i Hk Hi. destruct (axis_kw_name k i Hk). apply G; auto. apply in_app_iff. left. apply in_axis_pops. eauto.
  - intros k i j Hk Hi Hj Hm. destruct (pc_term_name k i j Hk). apply G; auto. apply in_app_iff. right. apply in_pc_pops. exists i, j. auto.
Qed.

Lemma hget_hset_other : forall {V} k k' (v : V) h, k <> k' -> hget k (hset k' v h) = hget k h.
Proof.
  intros V k k' v h N. unfold hget. induction h as [|[a b] h IH]; cbn [hset find fst snd].
  - now rewrite str_eqb_neq.
  - destruct (str_eqb k' a) eqn:E; cbn [find fst snd].
    + apply str_eqb_eq in E. subst a. now rewrite !str_eqb_neq.
    + destruct (str_eqb k a); [reflexivity|exact IH].
Qed.

(** NAXIS and WCSAXES are the number of axes kept; the header handed in tells
    whether there is a result *)
Theorem strip_defined : forall h m f n, hget (s "NAXIS") h = Some (HInt (Z.of_nat n)) ->
  (m <= Nat.max n f <-> exists h', strip_header h m f = POk h') /\
  (forall h', strip_header h m f = POk h' -> hget (s "NAXIS") h' = Some (HInt (Z.of_nat m)) /\ hget (s "WCSAXES") h' = Some (HInt (Z.of_nat m))).
Proof.
  intros h m f n HN.
  assert (HI : hint (s "NAXIS") h = POk (Z.of_nat n)) by (unfold hint; now rewrite HN).
  assert (EN : forced_naxis h f (Z.to_nat (Z.of_nat n)) = Nat.max n f) by (rewrite forced_spec, Nat2Z.id; destruct (Nat.eqb_spec f 0); lia).
  split.
  - split.
    + intros L. eexists. apply strip_eq. exists (Z.of_nat n). split; [exact HI|]. cbv zeta. rewrite EN. split; [exact L|reflexivity].
    + intros (h' & E). apply strip_eq in E. destruct E as (n0 & HN' & L & _). rewrite HI in HN'. injection HN' as <-. now rewrite EN in L.
  - intros h' E. apply strip_eq in E. destruct E as (n0 & _ & _ & ->). split; [|apply hget_hset].
    rewrite hget_hset_other by discriminate. apply hget_hset.
Qed.

(* ------------------------------------------------------------------ data *)

Lemma first_of_spec : forall {A} (d : A) a b, first_of d a = POk b <->
  exists n t, shape a = S n :: t /\ b = tab_nd t (fun idx => at_nd d a (0 :: idx)).
Proof.
  intros A d a b. unfold first_of. destruct (shape a) as [|[|n] t].
  - split; [discriminate|]. intros (n & t & E & _). discriminate.
  - split; [discriminate|]. intros (n' & t' & E & _). discriminate.
  - split.
    + intros [= <-]. eauto.
    + intros (n' & t' & [= <- <-] & ->). reflexivity.
Qed.

(** the data kept: the first element along each axis that goes *)
Theorem strip_data_spec : forall {A} (d : A) a m b, strip_data d a m = POk b ->
  let e := List.length (shape a) - m in
  m <= List.length (shape a) <= m + 3 /\ shape b = skipn e (shape a) /\
  forall idx, valid (shape b) idx -> at_nd d b idx = at_nd d a (repeat 0 e ++ idx)%list.
Proof.
  intros A d a m b E e. unfold strip_data in E. fold e in E. destruct (Nat.ltb_spec (List.length (shape a)) m) as [|L]; [discriminate|].
  destruct e as [|[|[|[|e']]]] eqn:Ee; try discriminate.
  - injection E as <-. split; [lia|]. split; [reflexivity|]. intros. reflexivity.
  - apply first_of_spec in E. destruct E as (n1 & t1 & S1 & ->). split; [lia|]. rewrite S1. split; [reflexivity|].
    intros idx V. cbn [shape tab_nd] in V. rewrite at_tab_nd by exact V. reflexivity.
  - destruct (first_of d a) as [x|] eqn:E1; [|discriminate]. cbn [pybind] in E.
    apply first_of_spec in E1. destruct E1 as (n1 & t1 & S1 & ->).
    apply first_of_spec in E. destruct E as (n2 & t2 & S2 & ->). cbn [shape tab_nd] in S2. subst t1.
    split; [lia|]. rewrite S1. split; [reflexivity|]. intros idx V. cbn [shape tab_nd] in V. rewrite at_tab_nd by exact V.
    rewrite at_tab_nd by (apply valid_cons; split; [lia|exact V]). reflexivity.
  - destruct (first_of d a) as [x|] eqn:E1; [|discriminate]. cbn [pybind] in E.
    apply first_of_spec in E1. destruct E1 as (n1 & t1 & S1 & ->).
    destruct (first_of d (tab_nd t1 (fun idx => at_nd d a (0 :: idx)))) as [x|] eqn:E2; [|discriminate]. cbn [pybind] in E.
    apply first_of_spec in E2. destruct E2 as (n2 & t2 & S2 & ->). cbn [shape tab_nd] in S2. subst t1.
    apply first_of_spec in E. destruct E as (n3 & t3 & S3 & ->). cbn [shape tab_nd] in S3. subst t2.
    split; [lia|]. rewrite S1. split; [reflexivity|]. intros idx V. cbn [shape tab_nd] in V. rewrite at_tab_nd by exact V.
    rewrite at_tab_nd by (apply valid_cons; split; [lia|exact V]).
    rewrite at_tab_nd by (apply valid_cons; split; [lia|apply valid_cons; split; [lia|exact V]]). reflexivity.
Qed.

Theorem strip_data_defined : forall {A} (d : A) a m, m <= List.length (shape a) <= m + 3 -> Forall (fun n => 0 < n) (firstn (List.length (shape a) - m) (shape a)) ->
  exists b, strip_data d a m = POk b.
Proof.
  intros A d a m L P. unfold strip_data. destruct (Nat.ltb_spec (List.length (shape a)) m); [lia|].
  destruct (shape a) as [|n1 t] eqn:S0.
  { cbn in *. replace (0 - m) with 0 by lia. eauto. }
  remember (List.length (n1 :: t) - m) as e. assert (F : forall (x : nd A) n u, shape x = n :: u -> 0 < n -> exists y, first_of d x = POk y /\ shape y = u).
  { intros x n u E Hn. unfold first_of. rewrite E. destruct n; [lia|]. eexists. split; reflexivity. }
  destruct e as [|[|[|[|e]]]]; [eauto| | | |lia].
  - inversion P; subst. destruct (F a n1 t S0 ltac:(assumption)) as (y & -> & _). eauto.
  - destruct t as [|n2 t]; [cbn [List.length] in *; lia|]. inversion P as [|? ? P1 P2]; subst. inversion P2; subst.
    destruct (F a n1 (n2 :: t) S0 P1) as (y & -> & Sy). cbn [pybind]. destruct (F y n2 t Sy ltac:(assumption)) as (z & -> & _). eauto.
  - destruct t as [|n2 [|n3 t]]; [cbn [List.length] in *; lia..|]. inversion P as [|? ? P1 P2]; subst. inversion P2 as [|? ? P3 P4]; subst. inversion P4; subst.
    destruct (F a _ _ S0 P1) as (y & -> & Sy). cbn [pybind]. destruct (F y _ _ Sy P3) as (z & -> & Sz). cbn [pybind].
    destruct (F z _ _ Sz ltac:(assumption)) as (q & -> & _). eauto.
Qed.
