(** Proofs about reading and writing cubes. *)
From Coq Require Import Reals List Arith ZArith Bool Ascii String Lia.
Set Warnings "-ambiguous-paths".
From Coquelicot Require Import Coquelicot.
From Verif Require Import CBase PyRes PyList PyList_Proofs PyStr PyStr_Proofs NdArray NdIndex
  Synth_Model Synth_Spec Synth_Proofs Clean_Model Cube_Model Cube_Spec.
Import ListNotations.
Local Open Scope nat_scope.

(** ** Finding an axis *)
Lemma contains_spec : forall old x, contains old x = true <-> exists a b, x = a ++ old ++ b.
Proof.
  intros old x. split.
  - induction x as [|c t IH]; simpl; intro E; apply orb_true_iff in E; destruct E as [E|E].
    + apply startswith_spec in E. destruct E as (y & E). exists [], y. exact E.
    + discriminate.
    + apply startswith_spec in E. destruct E as (y & E). exists [], y. exact E.
    + destruct (IH E) as (a & b & ->). exists (c :: a), b. reflexivity.
  - intros (a & b & ->). induction a as [|c a IH].
    + simpl app. destruct (old ++ b) eqn:E; cbn [contains]; rewrite <- E, startswith_app; reflexivity.
    + simpl app. cbn [contains]. rewrite IH. apply orb_true_r.
Qed.

Lemma upper_ch_spec : forall c u, 65 <= nat_of_ascii u <= 90 -> (upper_ch c = u <-> same_letter c u).
Proof.
  intros c u Hu. unfold upper_ch, same_letter.
  destruct (Nat.leb_spec 97 (nat_of_ascii c)); destruct (Nat.leb_spec (nat_of_ascii c) 122); simpl.
  2-4: split; [auto|]; intros [E|[_ E]]; [exact E|lia].
  split.
  - intro E. right. split; [exact Hu|].
    assert (E' : nat_of_ascii (ascii_of_nat (nat_of_ascii c - 32)) = nat_of_ascii u) by (rewrite E; reflexivity).
    rewrite nat_ascii_embedding in E' by (pose proof (nat_ascii_bounded c); lia). lia.
  - intros [->|[_ E]]; [lia|].
    rewrite E. replace (nat_of_ascii u + 32 - 32) with (nat_of_ascii u) by lia. apply ascii_nat_embedding.
Qed.

Definition caps (pat : str) : Prop := forall u, In u pat -> 65 <= nat_of_ascii u <= 90.

Lemma mentions_iff : forall pat c, caps pat ->
  (mentions pat c <-> exists ct, c = Some ct /\ contains pat (upper ct) = true).
Proof.
  intros pat c Hp. split.
  - intros (a & m & b & -> & F). eexists. split; [reflexivity|]. apply contains_spec.
    exists (upper a), (upper b). unfold upper. rewrite !map_app. do 2 f_equal.
    clear a b. induction F; simpl; auto. f_equal.
    + apply upper_ch_spec; [apply Hp; left; reflexivity|assumption].
    + apply IHF. intros u Hu. apply Hp. right. exact Hu.
  - intros (ct & -> & E). apply contains_spec in E. destruct E as (a & b & E). unfold upper in E.
    apply map_eq_app in E. destruct E as (a' & r & -> & Ea & E).
    apply map_eq_app in E. destruct E as (m & b' & -> & Em & Eb).
    exists a', m, b'. split; [reflexivity|]. subst pat. clear - Hp.
    induction m; simpl; constructor.
    + apply upper_ch_spec; [apply Hp; left; reflexivity|reflexivity].
    + apply IHm. intros u Hu. apply Hp. right. exact Hu.
Qed.

Lemma caps_FREQ : caps (s "FREQ").
Proof. intros u H. repeat (destruct H as [<-|H]; [cbn; lia|]). destruct H. Qed.
Lemma caps_FDEP : caps (s "FDEP").
Proof. intros u H. repeat (destruct H as [<-|H]; [cbn; lia|]). destruct H. Qed.

Definition hit (pat : str) (c : option str) : bool := match c with Some ct => contains pat (upper ct) | None => false end.
Lemma hit_iff : forall pat c, caps pat -> (hit pat c = true <-> mentions pat c).
Proof.
  intros pat c Hp. rewrite mentions_iff by exact Hp. destruct c as [ct|]; simpl.
  - split; [eauto|]. intros (ct' & E & H). injection E as <-. exact H.
  - split; [discriminate|]. intros (ct' & E & _). discriminate.
Qed.

Lemma find_axis_fold : forall pat dflt ctype, find_axis pat dflt ctype =
  fold_left (fun acc (ic : nat * option str) => if hit pat (snd ic) then fst ic else acc) (combine (seq 1 (List.length ctype)) ctype) dflt.
Proof.
  intros. unfold find_axis. generalize (combine (seq 1 (List.length ctype)) ctype) as l.
  intro l. revert dflt. induction l as [|[i c] l IH]; intro dflt; simpl; auto.
  rewrite IH. destruct c; reflexivity.
Qed.

(** the last hit, counted from [st] *)
Lemma fold_last : forall pat ctype st dflt,
  let r := fold_left (fun acc (ic : nat * option str) => if hit pat (snd ic) then fst ic else acc) (combine (seq st (List.length ctype)) ctype) dflt in
  (exists i, i < List.length ctype /\ r = st + i /\ hit pat (nth i ctype None) = true /\
     forall j, i < j < List.length ctype -> hit pat (nth j ctype None) = false) \/
  (r = dflt /\ forall j, j < List.length ctype -> hit pat (nth j ctype None) = false).
Proof.
  intros pat ctype. induction ctype as [|c t IH]; intros st dflt; simpl.
  - right. split; [reflexivity|]. intros; lia.
  - destruct (IH (S st) (if hit pat c then st else dflt)) as [(i & Hi & E & Hh & Ha)|[E Ha]].
    + left. exists (S i). split; [lia|]. split; [cbv zeta in E; rewrite E; lia|]. split; [exact Hh|].
      intros [|j] Hj; [lia|]. apply Ha. lia.
    + destruct (hit pat c) eqn:Hc.
      * left. exists 0. split; [lia|]. split; [cbv zeta in E; rewrite E; lia|]. split; [exact Hc|].
        intros [|j] Hj; [lia|]. apply Ha. lia.
      * right. split; [exact E|]. intros [|j] Hj; [exact Hc|]. apply Ha. lia.
Qed.

Lemma find_axis_spec : forall pat ctype k, caps pat -> spectral_axis pat ctype k ->
  find_axis pat (List.length ctype) ctype = k /\
  (find_axis pat 0 ctype = k \/ find_axis pat 0 ctype = 0 /\ k = List.length ctype).
Proof.
  intros pat ctype k Hp (Hk & Hafter & Hd). rewrite !find_axis_fold.
  assert (G : forall dflt, let r := fold_left (fun acc (ic : nat * option str) => if hit pat (snd ic) then fst ic else acc) (combine (seq 1 (List.length ctype)) ctype) dflt in
    r = k \/ (r = dflt /\ k = List.length ctype)).
  { intro dflt. destruct (fold_last pat ctype 1 dflt) as [(i & Hi & E & Hh & Ha)|[E Ha]]; cbv zeta; rewrite E.
    - left. assert (M : mentions pat (nth i ctype None)) by (apply hit_iff; assumption).
      destruct Hd as [Hd|[_ Hd]].
      + destruct (lt_eq_lt_dec i (k - 1)) as [[L|L]|L]; [| lia |].
        * assert (F := Ha (k - 1) ltac:(lia)). apply (hit_iff pat) in Hd; [congruence|exact Hp].
        * exfalso. apply (Hafter (S i)); [lia|]. replace (S i - 1) with i by lia. exact M.
      + exfalso. apply (Hd (S i)); [lia|]. replace (S i - 1) with i by lia. exact M.
    - right. split; [reflexivity|]. destruct Hd as [Hd|[Hd _]]; [|exact Hd].
      apply (hit_iff pat) in Hd; [|exact Hp]. rewrite Ha in Hd by lia. discriminate. }
  split.
  - destruct (G (List.length ctype)) as [E|[E Ek]]; [exact E|]. rewrite E. auto.
  - apply G.
Qed.

(** ** Axes in numpy order *)
Lemma axes_split : forall k N, 1 <= k <= N -> seq 1 N = seq 1 (k - 1) ++ k :: seq (S k) (N - k).
Proof.
  intros k N H. replace N with ((k - 1) + S (N - k)) at 1 by lia. rewrite seq_app. simpl. do 2 f_equal; [lia|f_equal; lia].
Qed.

Lemma others_split : forall k N, 1 <= k <= N -> others k N = seq 1 (k - 1) ++ seq (S k) (N - k).
Proof.
  intros k N H. unfold others. rewrite (axes_split k N H), filter_app. simpl. rewrite Nat.eqb_refl. simpl.
  assert (F : forall l, (forall a, In a l -> a <> k) -> filter (fun a => negb (a =? k)) l = l).
  { induction l as [|a l IH]; intro Hl; simpl; auto.
    destruct (Nat.eqb_spec a k) as [E|E]; [exfalso; apply (Hl a); [left; reflexivity|exact E]|]. simpl. f_equal.
    apply IH. intros b Hb. apply Hl. right. exact Hb. }
  rewrite !F; auto; intros a Ha; apply in_seq in Ha; lia.
Qed.

Lemma rev_axes : forall k N, 1 <= k <= N -> rev (seq 1 N) = insert_at (N - k) k (rev (others k N)).
Proof.
  intros k N H. rewrite (axes_split k N H), (others_split k N H). rewrite !rev_app_distr. simpl. rewrite <- app_assoc. simpl.
  rewrite insert_at_app; [reflexivity|]. rewrite rev_length, seq_length. reflexivity.
Qed.

Lemma length_others : forall k N, 1 <= k <= N -> List.length (others k N) = N - 1.
Proof. intros. rewrite others_split by assumption. rewrite app_length, !seq_length. lia. Qed.

Lemma map_insert_at : forall {A B} (f : A -> B) k x l, map f (insert_at k x l) = insert_at k (f x) (map f l).
Proof. intros. unfold insert_at. rewrite map_app. simpl. rewrite firstn_map, skipn_map. reflexivity. Qed.
Lemma map_delete_at : forall {A B} (f : A -> B) k l, map f (delete_at k l) = delete_at k (map f l).
Proof. intros. unfold delete_at. rewrite map_app, firstn_map, skipn_map. reflexivity. Qed.

Lemma numpy_index : forall (p : nat -> nat) k N, 1 <= k <= N ->
  map p (rev (seq 1 N)) = insert_at (N - k) (p k) (map p (rev (others k N))).
Proof. intros. rewrite (rev_axes k N) by assumption. apply map_insert_at. Qed.

Lemma naxis_map : forall naxis, map (len naxis) (seq 1 (List.length naxis)) = naxis.
Proof.
  intro naxis. apply nth_ext with (d := 0) (d' := 0); [rewrite map_length, seq_length; reflexivity|].
  intros i Hi. rewrite map_length, seq_length in Hi. rewrite nth_map_seq by exact Hi.
  unfold len. f_equal. lia.
Qed.

Lemma rev_naxis : forall naxis, rev naxis = map (len naxis) (rev (seq 1 (List.length naxis))).
Proof. intro. rewrite map_rev, naxis_map. reflexivity. Qed.

Lemma in_others : forall k N a, In a (others k N) -> 1 <= a <= N /\ a <> k.
Proof.
  intros k N a H. apply filter_In in H. destruct H as [H E]. apply in_seq in H.
  destruct (Nat.eqb_spec a k); [discriminate|]. lia.
Qed.

Lemma valid_map : forall (sh p : nat -> nat) l, (forall a, In a l -> p a < sh a) -> valid (map sh l) (map p l).
Proof.
  intros sh p l. unfold valid. induction l; simpl; constructor; auto.
Qed.

Lemma in_image_valid : forall naxis p, in_image naxis p -> valid (rev naxis) (map p (rev (seq 1 (List.length naxis)))).
Proof.
  intros naxis p H. rewrite rev_naxis. apply valid_map. intros a Ha. apply in_rev in Ha. apply in_seq in Ha. apply H. lia.
Qed.

Lemma squeeze_map : forall (sh p : nat -> nat) l,
  squeeze_idx (map sh l) (map p l) = map p (filter (fun a => negb (sh a =? 1)) l) /\
  filter (fun n => negb (n =? 1)) (map sh l) = map sh (filter (fun a => negb (sh a =? 1)) l).
Proof.
  intros sh p l. induction l as [|a l [IH1 IH2]]; simpl; auto.
  destruct (Nat.eqb_spec (sh a) 1); simpl; rewrite ?IH1, ?IH2; auto.
Qed.

(** ** Bringing the spectral axis to the front *)
Definition front {A} (d : A) (a : nd A) (N k : nat) : nd A := if k =? N then a else moveaxis d a (N - k) 0.

Lemma insert_at_0 : forall {A} (x : A) l, insert_at 0 x l = x :: l.
Proof. reflexivity. Qed.

Lemma front_spec : forall {A} (d : A) (a : nd A) naxis k, shape a = rev naxis -> wf_nd a -> 1 <= k <= List.length naxis ->
  let N := List.length naxis in
  wf_nd (front d a N k) /\ shape (front d a N k) = map (len naxis) (k :: rev (others k N)) /\
  forall p, in_image naxis p -> at_nd d (front d a N k) (map p (k :: rev (others k N))) = at_nd d a (map p (rev (seq 1 N))).
Proof.
  intros A d a naxis k Hs Hw Hk N. unfold front.
  destruct (Nat.eqb_spec k N) as [->|Hn].
  - assert (E : rev (seq 1 N) = N :: rev (others N N)) by (rewrite (rev_axes N N) by lia; rewrite Nat.sub_diag; reflexivity).
    split; [exact Hw|]. split; [rewrite Hs, rev_naxis; fold N; rewrite E; reflexivity|]. intros p Hp. rewrite E. reflexivity.
  - split; [apply wf_tab_nd|].
    assert (Ls : List.length (shape a) = N) by (rewrite Hs, rev_length; reflexivity).
    assert (Lo : N - k <= List.length (rev (others k N))) by (rewrite rev_length, length_others; lia).
    split.
    + rewrite moveaxis_shape, insert_at_0. rewrite Hs, rev_naxis. fold N. rewrite (numpy_index (len naxis) k N Hk).
      rewrite nth_insert by (rewrite map_length; exact Lo). rewrite delete_insert by (rewrite map_length; exact Lo). reflexivity.
    + intros p Hp.
      rewrite <- (moveaxis_at d a (N - k) 0 (map p (rev (seq 1 N)))).
      * rewrite insert_at_0. rewrite (numpy_index p k N Hk).
        rewrite nth_insert by (rewrite map_length; exact Lo). rewrite delete_insert by (rewrite map_length; exact Lo). reflexivity.
      * lia.
      * lia.
      * rewrite Hs. apply in_image_valid, Hp.
Qed.

Lemma read_is_front : forall {A} (d : A) (f : image A) k, wf_image f -> spectral_axis (s "FREQ") (i_ctype f) k ->
  (if negb (find_freq_axis (i_ctype f) =? 0) && negb (find_freq_axis (i_ctype f) =? List.length (i_naxis f))
   then moveaxis d (i_data f) (List.length (i_naxis f) - find_freq_axis (i_ctype f)) 0 else i_data f)
  = front d (i_data f) (List.length (i_naxis f)) k.
Proof.
  intros A d f k (Hs & Hw & Hl) Hk. unfold find_freq_axis, front.
  destruct (find_axis_spec _ _ _ caps_FREQ Hk) as [_ [->|[-> Ek]]].
  - destruct Hk as (Hk & _). destruct (Nat.eqb_spec k 0); [lia|]. simpl.
    destruct (Nat.eqb_spec k (List.length (i_naxis f))); reflexivity.
  - simpl. rewrite Ek, Hl, Nat.eqb_refl. reflexivity.
Qed.

(** C24: reading *)
Theorem read_cube : forall {A} (d : A) (f : image A) k, wf_image f -> spectral_axis (s "FREQ") (i_ctype f) k ->
  let N := List.length (i_naxis f) in
  let axes := k :: rev (others k N) in
  let kept := if 4 <=? N then long_axes (i_naxis f) axes else axes in
  (List.length kept <= 3 -> exists a, readFitsCube d f = POk a /\ wf_nd a /\ shape a = map (len (i_naxis f)) kept /\
     forall p, in_image (i_naxis f) p -> at_nd d a (map p kept) = vox d f p) /\
  (3 < List.length kept -> readFitsCube d f = PErr).
Proof.
  intros A d f k Wf Hk N axes kept. assert (Wf' := Wf). destruct Wf' as (Hs & Hw & Hl).
  assert (Hk' : 1 <= k <= List.length (i_naxis f)) by (destruct Hk as (H & _); lia).
  destruct (front_spec d (i_data f) (i_naxis f) k Hs Hw Hk') as (W & S & V).
  unfold readFitsCube. cbv zeta. rewrite (read_is_front d f k Wf Hk).
  fold N in W, S, V |- *. fold axes in S, V.
  set (fr := front d (i_data f) N k) in *.
  assert (G : exists a, (if 4 <=? N then squeeze fr else fr) = a /\ wf_nd a /\ shape a = map (len (i_naxis f)) kept /\
     forall p, in_image (i_naxis f) p -> at_nd d a (map p kept) = vox d f p).
  { eexists. split; [reflexivity|]. unfold kept. destruct (4 <=? N).
    - split; [|split].
      + unfold wf_nd, squeeze. simpl. rewrite prodn_squeeze. exact W.
      + unfold squeeze. simpl shape. rewrite S. apply (squeeze_map (len (i_naxis f)) (fun a => a)).
      + intros p Hp. unfold vox. fold N. rewrite <- V by exact Hp.
        rewrite <- (squeeze_at d fr (map p axes)).
        * rewrite S. rewrite (proj1 (squeeze_map (len (i_naxis f)) p axes)). reflexivity.
        * rewrite S. apply valid_map. intros a [<-|Ha]; [apply Hp; lia|]. apply in_rev in Ha. apply in_others in Ha. apply Hp. fold N. lia.
    - split; [exact W|]. split; [exact S|]. intros p Hp. unfold vox. fold N. apply V, Hp. }
  destruct G as (a & -> & Wa & Sa & Va). rewrite Sa, map_length.
  split; intro L; destruct (Nat.ltb_spec 3 (List.length kept)); try lia.
  - exists a. auto.
  - reflexivity.
Qed.

(** ** Writing *)
Lemma length_with_len : forall naxis k n, List.length (with_len naxis k n) = List.length naxis.
Proof. intros. unfold with_len. rewrite map_length, seq_length. reflexivity. Qed.

Lemma len_with_len : forall naxis k n a, 1 <= a <= List.length naxis ->
  len (with_len naxis k n) a = if a =? k then n else len naxis a.
Proof.
  intros. unfold len at 1, with_len. rewrite nth_map_seq by lia. replace (1 + (a - 1)) with a by lia. reflexivity.
Qed.

Lemma rev_with_len : forall naxis k n, 1 <= k <= List.length naxis ->
  rev (with_len naxis k n) = insert_at (List.length naxis - k) n (map (len naxis) (rev (others k (List.length naxis)))).
Proof.
  intros naxis k n Hk. unfold with_len. rewrite <- map_rev, (rev_axes k _ Hk), map_insert_at, Nat.eqb_refl. f_equal.
  apply map_ext_in. intros a Ha. apply in_rev in Ha. apply in_others in Ha. destruct (Nat.eqb_spec a k); [lia|reflexivity].
Qed.

Lemma delete_naxis : forall naxis k, 1 <= k <= List.length naxis ->
  rev (delete_at (k - 1) naxis) = map (len naxis) (rev (others k (List.length naxis))).
Proof.
  intros naxis k Hk. rewrite map_rev. f_equal. rewrite <- (naxis_map naxis) at 1.
  rewrite <- map_delete_at. f_equal. rewrite (axes_split k _ Hk), (others_split k _ Hk).
  rewrite delete_at_app; [reflexivity|]. apply seq_length.
Qed.

Lemma upd_length : forall {A} (l : list A) i f, List.length (upd l i f) = List.length l.
Proof. induction l; intros [|i] f; simpl; auto. Qed.
Lemma upd_nth : forall {A} (l : list A) i f j d, nth j (upd l i f) d = if (j =? i) && (i <? List.length l) then f (nth j l d) else nth j l d.
Proof.
  induction l as [|x l IH]; intros i f j d.
  - simpl. destruct i; simpl; rewrite andb_false_r; destruct j; reflexivity.
  - destruct i, j; simpl; auto. rewrite IH. reflexivity.
Qed.

Lemma moveaxis_back : forall {A} (d : A) (l : list A) n sh dst idx i, dst <= List.length sh ->
  valid sh idx -> i < n ->
  at_nd d (moveaxis d (mk_nd (n :: sh) l) 0 dst) (insert_at dst i idx) = at_nd d (mk_nd (n :: sh) l) (i :: idx).
Proof.
  intros A d l n sh dst idx i Hd V Hi.
  apply (moveaxis_at d (mk_nd (n :: sh) l) 0 dst (i :: idx)); simpl; [lia|lia|].
  constructor; assumption.
Qed.

Lemma at_same_flat : forall {A} (d : A) sh1 i1 sh2 i2 (l : list A), ravel sh1 i1 = ravel sh2 i2 ->
  at_nd d (mk_nd sh1 l) i1 = at_nd d (mk_nd sh2 l) i2.
Proof. intros. unfold at_nd. simpl. rewrite H. reflexivity. Qed.

(** C24: writing *)
Theorem write_cube : forall {A} (d : A) naxis ctype k (cube : nd A) nphi kept,
  List.length ctype = List.length naxis -> spectral_axis (s "FREQ") ctype k ->
  (forall a, 1 <= a <= List.length naxis -> a <> k -> nth (a - 1) ctype None <> None) ->
  kept = rev (others k (List.length naxis)) \/ kept = long_axes naxis (rev (others k (List.length naxis))) ->
  wf_nd cube -> shape cube = nphi :: map (len naxis) kept ->
  exists out, writefits_cube d naxis ctype cube = POk out /\ wf_image out /\
    i_naxis out = with_len naxis k nphi /\
    (forall a, 1 <= a <= List.length naxis -> nth (a - 1) (i_ctype out) None = if a =? k then Some (s "FDEP") else nth (a - 1) ctype None) /\
    forall p, in_image (i_naxis out) p -> vox d out p = at_nd d cube (map p (k :: kept)).
Proof.
  intros A d naxis ctype k cube nphi kept Hl Hk Hct Hkept Hw Hsh.
  assert (Hk' : 1 <= k <= List.length naxis) by (destruct Hk as (H & _); lia).
  assert (Ef : find_axis (s "FREQ") (List.length naxis) ctype = k).
  { rewrite <- Hl. apply (find_axis_spec _ _ _ caps_FREQ Hk). }
  unfold writefits_cube. cbv zeta. rewrite Ef. rewrite (delete_naxis naxis k Hk').
  set (N := List.length naxis) in *. set (os := rev (others k N)) in *.
  assert (Lo : List.length os = N - 1) by (unfold os; rewrite rev_length; apply length_others; exact Hk').
  assert (Rv : forall p : nat -> nat, (forall a, In a os -> p a < len naxis a) -> ravel (map (len naxis) kept) (map p kept) = ravel (map (len naxis) os) (map p os)).
  { intros p Hp. destruct Hkept as [-> | ->]; [reflexivity|]. unfold long_axes.
    destruct (squeeze_map (len naxis) p os) as [E1 E2]. rewrite <- E1, <- E2.
    apply ravel_squeeze. apply valid_map. exact Hp. }
  assert (Pd : prodn (map (len naxis) kept) = prodn (map (len naxis) os)).
  { destruct Hkept as [-> | ->]; [reflexivity|]. unfold long_axes. rewrite <- (proj2 (squeeze_map (len naxis) (fun a => a) os)). apply prodn_squeeze. }
  unfold reshape. rewrite Hsh. cbn [nth].
  replace (prodn (nphi :: map (len naxis) os) =? prodn (nphi :: map (len naxis) kept)) with true
    by (symmetry; apply Nat.eqb_eq; cbn [prodn fold_right]; f_equal; symmetry; exact Pd).
  cbn [pybind].
  assert (Ok : setStokes_ok (upd ctype (k - 1) (fun _ => Some (s "FDEP"))) = true).
  { unfold setStokes_ok. apply forallb_forall. intros c Hc. apply In_nth with (d := None) in Hc.
    destruct Hc as (i & Hi & <-). rewrite upd_length in Hi. rewrite upd_nth.
    destruct (Nat.eqb_spec i (k - 1)) as [->|Hn].
    - replace (k - 1 <? List.length ctype) with true by (symmetry; apply Nat.ltb_lt; lia). reflexivity.
    - simpl. specialize (Hct (S i) ltac:(lia) ltac:(lia)). replace (S i - 1) with i in Hct by lia.
      destruct (nth i ctype None); [reflexivity|congruence]. }
  rewrite Ok. eexists. split; [reflexivity|].
  assert (Em : shape (moveaxis d (mk_nd (nphi :: map (len naxis) os) (flat cube)) 0 (N - k)) = rev (with_len naxis k nphi)).
  { rewrite moveaxis_shape. unfold delete_at. cbn [shape nth firstn skipn app]. rewrite rev_with_len by exact Hk'. reflexivity. }
  split; [|split; [|split]].
  - unfold wf_image. cbn [i_data i_naxis i_ctype]. rewrite rev_involutive. split; [reflexivity|]. split; [apply wf_tab_nd|].
    rewrite upd_length, rev_length, Em, rev_length, length_with_len. exact Hl.
  - cbn [i_naxis]. rewrite Em, rev_involutive. reflexivity.
  - intros a Ha. cbn [i_ctype]. rewrite upd_nth. destruct (Nat.eqb_spec a k) as [->|Hn].
    + rewrite Nat.eqb_refl. replace (k - 1 <? List.length ctype) with true by (symmetry; apply Nat.ltb_lt; lia). reflexivity.
    + destruct (Nat.eqb_spec (a - 1) (k - 1)); [lia|]. reflexivity.
  - intros p Hp. cbn [i_naxis] in Hp. rewrite Em, rev_involutive in Hp.
    assert (Hpk : p k < nphi).
    { specialize (Hp k). rewrite length_with_len, len_with_len, Nat.eqb_refl in Hp by lia. apply Hp. lia. }
    assert (Hpo : forall a, In a os -> p a < len naxis a).
    { intros a Ha. apply in_rev in Ha. apply in_others in Ha. specialize (Hp a).
      rewrite length_with_len, len_with_len in Hp by lia. destruct (Nat.eqb_spec a k); [lia|]. apply Hp. fold N. lia. }
    unfold vox. cbn [i_data i_naxis]. rewrite Em, rev_involutive, length_with_len. fold N.
    rewrite (numpy_index p k N Hk'). fold os.
    rewrite moveaxis_back; [| rewrite map_length; lia | apply valid_map; exact Hpo | exact Hpk].
    destruct cube as [sh fl]. simpl in Hsh. subst sh. cbn [flat]. apply at_same_flat.
    cbn [map ravel]. rewrite Pd, Rv by exact Hpo. reflexivity.
Qed.

(** Finding: an axis without CTYPE can be read but not written. *)
Theorem write_needs_ctype : forall {A} (d : A) naxis ctype k (cube : nd A) a,
  List.length ctype = List.length naxis -> spectral_axis (s "FREQ") ctype k ->
  1 <= a <= List.length naxis -> a <> k -> nth (a - 1) ctype None = None ->
  writefits_cube d naxis ctype cube = PErr.
Proof.
  intros A d naxis ctype k cube a Hl Hk Ha Hn Hc.
  assert (Ef : find_axis (s "FREQ") (List.length naxis) ctype = k).
  { rewrite <- Hl. apply (find_axis_spec _ _ _ caps_FREQ Hk). }
  unfold writefits_cube. cbv zeta. rewrite Ef. destruct (reshape _ _); [|reflexivity]. cbn [pybind].
  assert (E : setStokes_ok (upd ctype (k - 1) (fun _ => Some (s "FDEP"))) = false).
  { unfold setStokes_ok. apply not_true_is_false. rewrite forallb_forall. intro F.
    specialize (F (nth (a - 1) (upd ctype (k - 1) (fun _ => Some (s "FDEP"))) None)).
    destruct Hk as (Hk & _). rewrite upd_nth in F. destruct (Nat.eqb_spec (a - 1) (k - 1)); [lia|]. simpl in F. rewrite Hc in F.
    assert (false = true); [|discriminate]. apply F.
    replace None with (nth (a - 1) (upd ctype (k - 1) (fun _ => Some (s "FDEP"))) None).
    - apply nth_In. rewrite upd_length. lia.
    - rewrite upd_nth. destruct (Nat.eqb_spec (a - 1) (k - 1)); [lia|]. exact Hc. }
  rewrite E. reflexivity.
Qed.
