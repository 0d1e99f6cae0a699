(** Whole runs on cubes: synthesis, cleaning and peak maps. *)
From Coq Require Import Reals List Arith ZArith Bool Ascii String Lia.
Set Warnings "-ambiguous-paths".
From Coquelicot Require Import Coquelicot.
From Verif Require Import CBase PyRes PyList PyList_Proofs PyStr PyStr_Proofs NdArray NdIndex
  Synth_Model Synth_Spec Synth_Proofs Clean_Model Setup_Proofs Cube_Model Cube_Spec Cube_Proofs.
Import ListNotations.
Local Open Scope nat_scope.

Lemma FDEP_axis : forall ctype k, 1 <= k <= List.length ctype -> nth (k - 1) ctype None = Some (s "FDEP") ->
  (forall a, 1 <= a <= List.length ctype -> a <> k -> ~ mentions (s "FDEP") (nth (a - 1) ctype None)) ->
  spectral_axis (s "FDEP") ctype k.
Proof.
  intros ctype k Hk E H. split; [exact Hk|]. split.
  - intros j Hj. apply H; lia.
  - left. rewrite E. exists [], (s "FDEP"), []. rewrite app_nil_r. split; [reflexivity|].
    generalize (s "FDEP"). intro l. induction l; constructor; auto. left. reflexivity.
Qed.

Lemma kept_split : forall naxis k (b : bool), (b = true -> len naxis k <> 1) ->
  (if b then long_axes naxis (k :: rev (others k (List.length naxis))) else k :: rev (others k (List.length naxis)))
  = k :: (if b then long_axes naxis (rev (others k (List.length naxis))) else rev (others k (List.length naxis))).
Proof.
  intros naxis k b Hb. destruct b; [|reflexivity]. unfold long_axes. simpl.
  destruct (Nat.eqb_spec (len naxis k) 1); [exfalso; apply Hb; auto|reflexivity].
Qed.

Lemma at_chan_kept : forall p k j l, ~ In k l -> map (at_chan p k j) l = map p l.
Proof.
  intros p k j l H. apply map_ext_in. intros a Ha. unfold at_chan. destruct (Nat.eqb_spec a k); [subst; contradiction|reflexivity].
Qed.

Lemma long_idem : forall naxis l, long_axes naxis (long_axes naxis l) = long_axes naxis l.
Proof.
  intros. unfold long_axes. induction l as [|a l IH]; simpl; auto.
  destruct (len naxis a =? 1) eqn:E; simpl; auto. rewrite E. simpl. f_equal. exact IH.
Qed.

(** C24: the whole run *)
Theorem rmsynth3d_voxels : forall (Q U : image (option R)) l2 phi wA lam0in k,
  wf_image Q -> wf_image U -> i_naxis U = i_naxis Q -> i_ctype U = i_ctype Q ->
  spectral_axis (s "FREQ") (i_ctype Q) k ->
  (forall a, 1 <= a <= List.length (i_naxis Q) -> a <> k -> nth (a - 1) (i_ctype Q) None <> None) ->
  (List.length (i_naxis Q) <= 3 \/
   len (i_naxis Q) k <> 1 /\ List.length (long_axes (i_naxis Q) (seq 1 (List.length (i_naxis Q)))) <= 3) ->
  len (i_naxis Q) k = List.length l2 ->
  match wA with None => True | Some w => List.length w = List.length l2 end ->
  antisym phi -> 2 <= List.length phi ->
  exists out l0, rmsynth3d_cube Q U l2 phi wA lam0in = POk out /\ wf_image out /\
    i_naxis out = with_len (i_naxis Q) k (List.length phi) /\
    (match lam0in with Some l => l0 = l | None => True end) /\
    ((forall a, 1 <= a <= List.length (i_naxis Q) -> a <> k -> ~ mentions (s "FDEP") (nth (a - 1) (i_ctype Q) None)) ->
     spectral_axis (s "FDEP") (i_ctype out) k) /\
    forall p, in_image (i_naxis out) p ->
      let chs := image_chans Q U k l2 (weights_of (List.length l2) wA) p in
      let c := vox None out p in
      (wsum chs = 0%R -> c = None) /\
      (wsum chs <> 0%R ->
        (c = None <-> forall f, In f phi -> FDF_spec chs l0 f = RtoC 0) /\
        (forall z, c = Some z -> z = FDF_spec chs l0 (nth (p k) phi 0%R))).
Proof.
  intros Q U l2 phi wA lam0in k WQ WU En Ec Hk Hct Hdim Hlen HwA Ha Hphi.
  set (N := List.length (i_naxis Q)) in *.
  assert (HlQ : List.length (i_ctype Q) = N) by (destruct WQ as (_ & _ & H); exact H).
  assert (Hk' : 1 <= k <= N) by (destruct Hk as (H & _); lia).
  destruct (read_cube None Q k WQ Hk) as [RQ _].
  destruct (read_cube None U k WU) as [RU _]; [rewrite Ec; exact Hk|]. rewrite En in RU. fold N in RQ, RU.
  set (os := rev (others k N)) in *.
  set (b := 4 <=? N) in *.
  assert (Hb : b = true -> len (i_naxis Q) k <> 1).
  { intro Eb. destruct Hdim as [Hd|[Hd _]]; [|exact Hd]. apply Nat.leb_le in Eb. lia. }
  set (kept' := if b then long_axes (i_naxis Q) os else os).
  assert (Ek : (if b then long_axes (i_naxis Q) (k :: os) else k :: os) = k :: kept') by (apply kept_split; exact Hb).
  cbv zeta in RQ, RU. rewrite Ek in RQ, RU.
  assert (Lk : List.length (k :: kept') <= 3).
  { destruct Hdim as [Hd|[Hd1 Hd2]].
    - simpl. unfold kept'. assert (b = false) as -> by (apply Nat.leb_gt; lia). unfold os. rewrite rev_length, length_others by exact Hk'. lia.
    - rewrite <- Ek. destruct b eqn:Eb.
      + transitivity (List.length (long_axes (i_naxis Q) (seq 1 N))); [|exact Hd2]. unfold long_axes.
        rewrite (axes_split k N Hk'). unfold os. rewrite (others_split k N Hk'), rev_app_distr. simpl filter.
        rewrite !filter_app. simpl filter.
        assert (Fr : forall l, List.length (filter (fun a => negb (len (i_naxis Q) a =? 1)) (rev l)) = List.length (filter (fun a => negb (len (i_naxis Q) a =? 1)) l)).
        { intro l. induction l as [|x l IH]; simpl; auto. rewrite filter_app, app_length, IH. simpl. destruct (negb _); simpl; lia. }
        destruct (negb (len (i_naxis Q) k =? 1)); simpl; rewrite !app_length, !Fr; simpl; lia.
      + simpl. unfold os. rewrite rev_length, length_others by exact Hk'. apply Nat.leb_gt in Eb. lia. }
  destruct (RQ Lk) as (q & Eq & Wq & Sq & Vq). destruct (RU Lk) as (u & Eu & Wu & Su & Vu). clear RQ RU.
  cbn [map] in Sq, Su, Vq, Vu.
  assert (VS : valid_synth q u l2 wA).
  { unfold valid_synth. rewrite Sq, Su. split; [reflexivity|]. split; [simpl; rewrite map_length; simpl in Lk; lia|]. split; [exact Hlen|exact HwA]. }
  destruct (synth_refines q u l2 phi wA lam0in VS Ha) as (r & Er & Hl0 & Hpix). cbv zeta in Hl0, Hpix.
  set (m := npix q) in *.
  assert (Em : m = prodn (map (len (i_naxis Q)) kept')) by (unfold m, npix; rewrite Sq; reflexivity).
  (* shape of the cube *)
  assert (Lphi : 1 <> List.length phi) by lia.
  assert (Wr : wf_nd (FDFcube r) /\ shape (FDFcube r) = List.length phi :: map (len (i_naxis Q)) (long_axes (i_naxis Q) os)).
  { assert (Er' := Er). unfold do_rmsynth_planes in Er'. cbv zeta in Er'.
    repeat match type of Er' with (if ?c then None else _) = _ => destruct c; [discriminate|] end.
    injection Er' as <-. cbn [FDFcube]. unfold squeeze, wf_nd. cbn [shape flat].
    assert (F : filter (fun n => negb (n =? 1)) (if List.length (shape q) =? 3 then tl (shape q) else [prodn (tl (shape q))])
                = map (len (i_naxis Q)) (long_axes (i_naxis Q) os)).
    { rewrite Sq. cbn [tl List.length].
      assert (E1 : map (len (i_naxis Q)) (long_axes (i_naxis Q) os) = filter (fun n => negb (n =? 1)) (map (len (i_naxis Q)) kept')).
      { rewrite (proj2 (squeeze_map (len (i_naxis Q)) (fun a => a) kept')). f_equal.
        change (filter (fun a => negb (len (i_naxis Q) a =? 1)) kept') with (long_axes (i_naxis Q) kept').
        unfold kept'. destruct b; [rewrite long_idem|]; reflexivity. }
      rewrite E1. destruct (S (List.length (map (len (i_naxis Q)) kept')) =? 3) eqn:E3; [reflexivity|].
      apply Nat.eqb_neq in E3. rewrite map_length in E3. simpl in Lk.
      destruct kept' as [|x1 [|x2 kk]]; simpl; [reflexivity| |simpl in E3, Lk; lia].
      rewrite Nat.mul_1_r. reflexivity. }
    split.
    - rewrite prodn_squeeze, length_tab2.
      change (prodn (?a :: ?l)) with (a * prodn l). f_equal.
      destruct (List.length (shape q) =? 3); [reflexivity|]. simpl. lia.
    - simpl. destruct (Nat.eqb_spec (List.length phi) 1); [lia|]. simpl. f_equal. exact F. }
  destruct Wr as [Wr Sr].
  destruct (write_cube None (i_naxis Q) (i_ctype Q) k (FDFcube r) (List.length phi) (long_axes (i_naxis Q) os)) as (out & Eo & Wo & No & Co & Vo); auto.
  exists out, (synth_lam0 r). unfold rmsynth3d_cube. rewrite Eq, Eu. cbn [pybind]. rewrite Er. cbn [FDFcube].
  split; [exact Eo|]. split; [exact Wo|]. split; [exact No|]. split; [destruct lam0in; auto|]. split.
  { intro Hno.
    assert (Lo : List.length (i_ctype out) = N).
    { destruct Wo as (_ & _ & H). rewrite H, No, length_with_len. reflexivity. }
    apply FDEP_axis.
    - lia.
    - rewrite Co by exact Hk'. rewrite Nat.eqb_refl. reflexivity.
    - intros a Ha1 Ha2. rewrite Co by (fold N; lia). destruct (Nat.eqb_spec a k); [lia|]. apply Hno; [lia|exact Ha2]. }
  intros p Hp. cbv zeta.
  assert (Hp' := Hp). rewrite No in Hp'.
  assert (Hpk : p k < List.length phi).
  { specialize (Hp' k). rewrite length_with_len, len_with_len, Nat.eqb_refl in Hp' by (fold N; lia). apply Hp'. fold N. lia. }
  assert (Hpo : forall a, 1 <= a <= N -> a <> k -> p a < len (i_naxis Q) a).
  { intros a Ha1 Ha2. specialize (Hp' a). rewrite length_with_len, len_with_len in Hp' by (fold N; lia).
    destruct (Nat.eqb_spec a k); [lia|]. apply Hp'. fold N. lia. }
  assert (Hpc : forall j, j < List.length l2 -> in_image (i_naxis Q) (at_chan p k j)).
  { intros j Hj a Ha'. unfold at_chan. destruct (Nat.eqb_spec a k) as [->|Hn]; [lia|]. apply Hpo; assumption. }
  assert (Hos : forall a, In a os -> 1 <= a <= N /\ a <> k) by (intros a Ha'; apply in_rev in Ha'; apply in_others in Ha'; exact Ha').
  assert (Hkept : forall a, In a kept' -> 1 <= a <= N /\ a <> k).
  { intros a Ha'. unfold kept' in Ha'. apply Hos. destruct b; [|exact Ha']. unfold long_axes in Ha'. apply filter_In in Ha'. tauto. }
  set (sky := ravel (map (len (i_naxis Q)) kept') (map p kept')).
  assert (Vs : valid (map (len (i_naxis Q)) kept') (map p kept')).
  { apply valid_map. intros a Ha'. apply Hkept in Ha'. apply Hpo; tauto. }
  assert (Hsky : sky < m) by (rewrite Em; apply ravel_lt; exact Vs).
  assert (Cq : forall j, j < List.length l2 -> nth (j * m + sky) (flat q) None = vox None Q (at_chan p k j)).
  { intros j Hj. rewrite <- Vq by (apply Hpc, Hj). unfold at_nd. rewrite Sq. cbn [ravel map]. rewrite <- Em.
    rewrite at_chan_kept by (intro Hin; apply Hkept in Hin; tauto). fold sky. unfold at_chan. rewrite Nat.eqb_refl. reflexivity. }
  assert (Cu : forall j, j < List.length l2 -> nth (j * m + sky) (flat u) None = vox None U (at_chan p k j)).
  { intros j Hj. rewrite <- Vu by (apply Hpc, Hj). unfold at_nd. rewrite Su. cbn [ravel map]. rewrite <- Em.
    rewrite at_chan_kept by (intro Hin; apply Hkept in Hin; tauto). fold sky. unfold at_chan. rewrite Nat.eqb_refl. reflexivity. }
  assert (Echs : image_chans Q U k l2 (weights_of (List.length l2) wA) p =
                 pixel_chans (List.length l2) m (flat q) (flat u) l2 (weights_of (List.length l2) wA) sky).
  { unfold image_chans, pixel_chans. rewrite !flat_map_concat_map. f_equal. apply map_ext_in. intros j Hj. apply in_seq in Hj.
    rewrite Cq, Cu by lia. reflexivity. }
  assert (Ecell : vox None out p = at2 m None (flat (FDFcube r)) (p k) sky).
  { rewrite Vo by exact Hp. unfold at_nd, at2. rewrite Sr. cbn [map ravel]. f_equal. f_equal.
    - f_equal. rewrite Em. unfold kept', long_axes.
      rewrite <- (proj2 (squeeze_map (len (i_naxis Q)) (fun a => a) os)), prodn_squeeze.
      destruct b; [|reflexivity]. rewrite <- (proj2 (squeeze_map (len (i_naxis Q)) (fun a => a) os)), prodn_squeeze. reflexivity.
    - unfold sky, kept'. destruct b; [reflexivity|]. unfold long_axes.
      destruct (squeeze_map (len (i_naxis Q)) p os) as [E1 E2]. rewrite <- E1, <- E2. apply ravel_squeeze.
      apply valid_map. intros a Ha'. apply Hos in Ha'. apply Hpo; tauto. }
  rewrite Echs, Ecell. apply Hpix; assumption.
Qed.

(** ** RM-CLEAN on cubes *)
Lemma read_FDF_spec : forall {A} (d : A) (f : image A) k, wf_image f -> spectral_axis (s "FDEP") (i_ctype f) k ->
  let kept := long_axes (i_naxis f) (k :: rev (others k (List.length (i_naxis f)))) in
  wf_nd (read_FDF_cube d f) /\ shape (read_FDF_cube d f) = map (len (i_naxis f)) kept /\
  forall p, in_image (i_naxis f) p -> at_nd d (read_FDF_cube d f) (map p kept) = vox d f p.
Proof.
  intros A d f k Wf Hk kept. assert (Wf' := Wf). destruct Wf' as (Hs & Hw & Hl).
  set (N := List.length (i_naxis f)) in *.
  assert (Hk' : 1 <= k <= N) by (destruct Hk as (H & _); lia).
  destruct (front_spec d (i_data f) (i_naxis f) k Hs Hw Hk') as (W & S & V). fold N in W, S, V.
  unfold read_FDF_cube. cbv zeta. unfold find_axes. fold N.
  assert (Ef : find_axis (s "FDEP") N (i_ctype f) = k).
  { rewrite <- Hl. apply (find_axis_spec _ _ _ caps_FDEP Hk). }
  rewrite Ef.
  replace (if negb (k =? N) then moveaxis d (i_data f) (N - k) 0 else i_data f) with (front d (i_data f) N k)
    by (unfold front; destruct (k =? N); reflexivity).
  set (fr := front d (i_data f) N k) in *. split; [|split].
  - unfold wf_nd, squeeze. simpl. rewrite prodn_squeeze. exact W.
  - unfold squeeze. simpl shape. rewrite S. apply (squeeze_map (len (i_naxis f)) (fun a => a)).
  - intros p Hp. unfold vox. fold N. rewrite <- V by exact Hp.
    rewrite <- (squeeze_at d fr (map p (k :: rev (others k N)))).
    + rewrite S. rewrite (proj1 (squeeze_map (len (i_naxis f)) p _)). reflexivity.
    + rewrite S. apply valid_map. intros a [<-|Ha]; [apply Hp; exact Hk'|]. apply in_rev in Ha. apply in_others in Ha. apply Hp. fold N. lia.
Qed.

Lemma filter_ne1 : forall l, (forall n, In n l -> n <> 1) -> filter (fun n => negb (n =? 1)) l = l.
Proof.
  induction l as [|a l IH]; intro H; simpl; auto. destruct (Nat.eqb_spec a 1); [exfalso; apply (H a); [left|]; auto|].
  simpl. f_equal. apply IH. intros n' Hn'. apply H. right. exact Hn'.
Qed.
Lemma filter_ones : forall m l, filter (fun n => negb (n =? 1)) (repeat 1 m ++ l) = filter (fun n => negb (n =? 1)) l.
Proof. induction m; intros; simpl; auto. Qed.

Lemma leading_ones : forall naxis (p : nat -> nat) m os l,
  map (len naxis) os = repeat 1 m ++ l -> (forall n, In n l -> n <> 1) ->
  (forall a, In a os -> p a < len naxis a) ->
  map (len naxis) (long_axes naxis os) = l /\ map p os = repeat 0 m ++ map p (long_axes naxis os) /\
  List.length os = m + List.length l.
Proof.
  intros naxis p m os l E Hl Hp.
  split; [|split].
  - unfold long_axes. rewrite <- (proj2 (squeeze_map (len naxis) p os)), E, filter_ones. apply filter_ne1, Hl.
  - revert os E Hp. induction m as [|m IH]; intros os E Hp; simpl in *.
    + assert (G : long_axes naxis os = os); [|rewrite G; reflexivity].
      unfold long_axes. clear Hp. revert l E Hl. induction os as [|a os IHo]; intros l E Hl; simpl; auto.
      simpl in E. destruct l as [|x l]; [discriminate|]. injection E as E1 E2.
      destruct (Nat.eqb_spec (len naxis a) 1) as [E3|E3]; [exfalso; apply (Hl x); [left; reflexivity|congruence]|].
      simpl. f_equal. apply (IHo l E2). intros n' Hn'. apply Hl. right. exact Hn'.
    + destruct os as [|a os]; [discriminate|]. simpl in E. injection E as E1 E2.
      assert (P0 : p a = 0) by (specialize (Hp a (or_introl eq_refl)); lia).
      unfold long_axes. simpl. rewrite E1. simpl. rewrite P0. f_equal. apply IH; [exact E2|].
      intros b Hb. apply Hp. right. exact Hb.
  - apply (f_equal (@List.length nat)) in E. rewrite map_length, app_length, repeat_length in E. exact E.
Qed.

Lemma ravel_ones : forall m sh idx, ravel (repeat 1 m ++ sh) (repeat 0 m ++ idx) = ravel sh idx.
Proof. induction m; intros; simpl; auto. Qed.
Lemma prodn_ones : forall m sh, prodn (repeat 1 m ++ sh) = prodn sh.
Proof. intros m sh. induction m as [|m IH]; [reflexivity|]. cbn [repeat app]. change (prodn (?a :: ?l)) with (a * prodn l). rewrite IH. lia. Qed.
Lemma valid_ones : forall m sh idx, valid sh idx -> valid (repeat 1 m ++ sh) (repeat 0 m ++ idx).
Proof. unfold valid. induction m; intros; simpl; auto. Qed.

Section Restore.
  Context {A : Type}.
  Variables (d : A) (naxis : list nat) (ctype : list (option str)) (k : nat).
  Hypothesis Hl : List.length ctype = List.length naxis.
  Hypothesis Hk : spectral_axis (s "FDEP") ctype k.
  Hypothesis Hlong : len naxis k <> 1.

  Let N := List.length naxis.
  Let kept := long_axes naxis (k :: rev (others k N)).

  Lemma long_length : forall l, List.length (long_axes naxis l) <= List.length l.
  Proof. intro l. unfold long_axes. induction l as [|a l IH]; simpl; [lia|]. destruct (negb _); simpl; lia. Qed.

  Lemma kept_eq : kept = k :: long_axes naxis (rev (others k N)).
  Proof. unfold kept, long_axes. simpl. destruct (Nat.eqb_spec (len naxis k) 1); [contradiction|reflexivity]. Qed.

  Lemma restore_total : forall c : nd A, shape c = map (len naxis) kept ->
    exists out, restore_axes d naxis ctype c = POk out /\ wf_nd out /\
      shape out = insert_at (N - k) (len naxis k) (repeat 1 (N - List.length kept) ++ map (len naxis) (long_axes naxis (rev (others k N)))).
  Proof.
    intros c Hc.
    assert (Hk' : 1 <= k <= N) by (unfold N; destruct Hk as (H & _); lia).
    assert (Ln : List.length kept <= N).
    { rewrite kept_eq. simpl. pose proof (long_length (rev (others k N))) as H. rewrite rev_length, length_others in H by exact Hk'. lia. }
    unfold restore_axes. cbv zeta. rewrite Hc, map_length. fold N.
    destruct (Nat.ltb_spec N (List.length kept)); [lia|].
    eexists. split; [reflexivity|]. split; [apply wf_tab_nd|].
    rewrite moveaxis_shape. cbn [shape].
    assert (Ef : find_axes ctype N = k) by (unfold find_axes, N; rewrite <- Hl; apply (find_axis_spec _ _ _ caps_FDEP Hk)).
    rewrite Ef. rewrite kept_eq. cbn [map].
    rewrite nth_mid by (rewrite repeat_length; reflexivity).
    rewrite delete_at_app by (rewrite repeat_length; reflexivity). reflexivity.
  Qed.

  Lemma restore_ok : forall c : nd A, shape c = map (len naxis) kept -> degenerate_first naxis k ->
    exists out, restore_axes d naxis ctype c = POk out /\ wf_nd out /\ shape out = rev naxis /\
      forall p, in_image naxis p -> at_nd d out (map p (rev (seq 1 N))) = at_nd d c (map p kept).
  Proof.
    intros c Hc (m & l & E & Hl1).
    assert (Hk' : 1 <= k <= N) by (unfold N; destruct Hk as (H & _); lia).
    fold N in E. set (os := rev (others k N)) in *.
    assert (Lo : List.length os = N - 1) by (unfold os; rewrite rev_length; apply length_others; exact Hk').
    destruct (restore_total c Hc) as (out & Eo & Wo & So). exists out. split; [exact Eo|]. split; [exact Wo|].
    fold os in So.
    assert (El : map (len naxis) (long_axes naxis os) = l /\ List.length os = m + List.length l).
    { split.
      - unfold long_axes. rewrite <- (proj2 (squeeze_map (len naxis) (fun a => a) os)), E, filter_ones. apply filter_ne1, Hl1.
      - apply (f_equal (@List.length nat)) in E. rewrite map_length, app_length, repeat_length in E. exact E. }
    destruct El as [El Em].
    assert (Lk : N - List.length kept = m).
    { rewrite kept_eq. fold os. simpl. assert (List.length (long_axes naxis os) = List.length l) by (rewrite <- El, map_length; reflexivity). lia. }
    rewrite Lk, El, <- E in So. split.
    { rewrite So, (rev_naxis naxis). fold N. unfold os. symmetry. apply numpy_index. exact Hk'. }
    intros p Hp.
    assert (Hpo : forall a, In a os -> p a < len naxis a).
    { intros a Ha. apply in_rev in Ha. apply in_others in Ha. apply Hp. fold N. lia. }
    destruct (leading_ones naxis p m os l E Hl1 Hpo) as (_ & Epp & _).
    unfold restore_axes in Eo. cbv zeta in Eo. rewrite Hc, map_length in Eo. fold N in Eo.
    destruct (Nat.ltb_spec N (List.length kept)); [discriminate|]. injection Eo as <-.
    assert (Ef : find_axes ctype N = k) by (unfold find_axes, N; rewrite <- Hl; apply (find_axis_spec _ _ _ caps_FDEP Hk)).
    rewrite Ef, Lk. rewrite kept_eq. fold os. cbn [map].
    rewrite (numpy_index p k N Hk'). fold os. rewrite Epp.
    set (c' := mk_nd (repeat 1 m ++ len naxis k :: map (len naxis) (long_axes naxis os)) (flat c)).
    assert (V : valid (shape c') (repeat 0 m ++ p k :: map p (long_axes naxis os))).
    { unfold c'. cbn [shape]. apply valid_ones. constructor; [apply Hp; exact Hk'|]. apply valid_map.
      intros a Ha. unfold long_axes in Ha. apply filter_In in Ha. apply Hpo. tauto. }
    assert (Ls : List.length (shape c') = N).
    { unfold c'. cbn [shape]. rewrite app_length, repeat_length. cbn [List.length]. rewrite El. lia. }
    assert (M := moveaxis_at d c' m (N - k) _ ltac:(lia) ltac:(lia) V).
    rewrite nth_mid in M by (rewrite repeat_length; reflexivity).
    rewrite delete_at_app in M by (rewrite repeat_length; reflexivity).
    transitivity (at_nd d c' (repeat 0 m ++ p k :: map p (long_axes naxis os))); [exact M|].
    unfold c', at_nd. cbn [shape flat]. rewrite ravel_ones. rewrite Hc, kept_eq. fold os. reflexivity.
  Qed.

  Lemma restore_shape_iff : forall c : nd A, shape c = map (len naxis) kept ->
    exists out, restore_axes d naxis ctype c = POk out /\ (shape out = rev naxis <-> degenerate_first naxis k).
  Proof.
    intros c Hc. destruct (restore_total c Hc) as (out & Eo & _ & So). exists out. split; [exact Eo|].
    assert (Hk' : 1 <= k <= N) by (unfold N; destruct Hk as (H & _); lia).
    assert (Lo : List.length (rev (others k N)) = N - 1) by (rewrite rev_length; apply length_others; exact Hk').
    split.
    - intro E. exists (N - List.length kept), (map (len naxis) (long_axes naxis (rev (others k N)))). split.
      + rewrite So, (rev_naxis naxis) in E. fold N in E. rewrite (numpy_index (len naxis) k N Hk') in E.
        apply (f_equal (delete_at (N - k))) in E. rewrite !delete_insert in E; [symmetry; exact E| |].
        * rewrite map_length, Lo. lia.
        * rewrite app_length, repeat_length, map_length. rewrite kept_eq. cbn [List.length]. 
          pose proof (long_length (rev (others k N))). lia.
      + intros n' Hn'. apply in_map_iff in Hn'. destruct Hn' as (a & <- & Ha). unfold long_axes in Ha. apply filter_In in Ha.
        destruct Ha as [_ Ha]. destruct (Nat.eqb_spec (len naxis a) 1); [discriminate|assumption].
    - intro D. destruct (restore_ok c Hc D) as (out' & Eo' & _ & S & _). congruence.
  Qed.
End Restore.

Lemma clean_shapes : forall dirty phi RMSF phi2 fwhm cutoff maxIter gain msk pool window r,
  (forall n, In n (shape dirty) -> n <> 1) ->
  do_rmclean_hogbom dirty phi RMSF phi2 fwhm cutoff maxIter gain msk pool window = CRetOk r ->
  shape (cleanFDF r) = shape dirty /\ shape (ccArr r) = shape dirty /\ shape (residFDF r) = shape dirty.
Proof.
  intros dirty phi RMSF phi2 fwhm cutoff maxIter gain msk pool window r H E. unfold do_rmclean_hogbom in E. cbv zeta in E.
  repeat match type of E with (if ?c then CRetNone4 else _) = _ => destruct c; [discriminate|] end.
  match type of E with match ?x with _ => _ end = _ => destruct x; [|discriminate] end.
  injection E as <-. cbn [cleanFDF ccArr residFDF]. unfold squeeze. cbn [shape]. rewrite (filter_ne1 _ H). auto.
Qed.

(** C25 *)
Theorem rmclean3d_axes : forall fdf rmsf phi phi2 fwhm cutoff maxIter gain pool window k,
  wf_image fdf -> spectral_axis (s "FDEP") (i_ctype fdf) k -> len (i_naxis fdf) k <> 1 ->
  let N := List.length (i_naxis fdf) in
  let kept := long_axes (i_naxis fdf) (k :: rev (others k N)) in
  forall cl cc rs,
  run_rmclean_cubes fdf rmsf phi phi2 fwhm cutoff maxIter gain pool window = POk (cl, cc, rs) ->
  (shape cl = rev (i_naxis fdf) <-> degenerate_first (i_naxis fdf) k) /\
  (degenerate_first (i_naxis fdf) k ->
    exists dirty RMSF r, do_rmclean_hogbom dirty phi RMSF phi2 fwhm cutoff maxIter gain None pool window = CRetOk r /\
      wf_nd dirty /\ shape dirty = map (len (i_naxis fdf)) kept /\
      (forall p, in_image (i_naxis fdf) p -> at_nd None dirty (map p kept) = vox None fdf p) /\
      forall out res, In (out, res) [(cl, cleanFDF r); (cc, ccArr r); (rs, residFDF r)] ->
        shape out = rev (i_naxis fdf) /\
        forall p, in_image (i_naxis fdf) p -> at_nd None out (map p (rev (seq 1 N))) = at_nd None res (map p kept)).
Proof.
  intros fdf rmsf phi phi2 fwhm cutoff maxIter gain pool window k Wf Hk Hlong N kept cl cc rs E.
  assert (Hl : List.length (i_ctype fdf) = List.length (i_naxis fdf)) by (destruct Wf as (_ & _ & H); exact H).
  destruct (read_FDF_spec None fdf k Wf Hk) as (Wd & Sd & Vd). fold N in Wd, Sd, Vd. fold kept in Wd, Sd, Vd.
  unfold run_rmclean_cubes in E. destruct (do_rmclean_hogbom _ _ _ _ _ _ _ _ _ _ _) as [| |r] eqn:Er; try discriminate.
  assert (Hne : forall n, In n (shape (read_FDF_cube None fdf)) -> n <> 1).
  { intros n Hn. rewrite Sd in Hn. apply in_map_iff in Hn. destruct Hn as (a & <- & Ha). unfold kept, long_axes in Ha. apply filter_In in Ha.
    destruct Ha as [_ Ha]. destruct (Nat.eqb_spec (len (i_naxis fdf) a) 1); [discriminate|assumption]. }
  destruct (clean_shapes _ _ _ _ _ _ _ _ _ _ _ _ Hne Er) as (S1 & S2 & S3). rewrite Sd in S1, S2, S3.
  destruct (restore_axes None (i_naxis fdf) (i_ctype fdf) (cleanFDF r)) as [cl'|] eqn:E1; [|discriminate]. cbn [pybind] in E.
  destruct (restore_axes None (i_naxis fdf) (i_ctype fdf) (ccArr r)) as [cc'|] eqn:E2; [|discriminate]. cbn [pybind] in E.
  destruct (restore_axes None (i_naxis fdf) (i_ctype fdf) (residFDF r)) as [rs'|] eqn:E3; [|discriminate]. cbn [pybind] in E.
  injection E as <- <- <-. split.
  - destruct (restore_shape_iff None (i_naxis fdf) (i_ctype fdf) k Hl Hk Hlong (cleanFDF r) S1) as (o & Eo & H).
    rewrite E1 in Eo. injection Eo as <-. exact H.
  - intro D. exists (read_FDF_cube None fdf), (read_FDF_cube None rmsf), r.
    split; [exact Er|]. split; [exact Wd|]. split; [exact Sd|]. split; [exact Vd|].
    intros out res [H|[H|[H|[]]]]; injection H as <- <-.
    + destruct (restore_ok None (i_naxis fdf) (i_ctype fdf) k Hl Hk Hlong (cleanFDF r) S1 D) as (o & Eo & _ & So & Vo).
      rewrite E1 in Eo. injection Eo as <-. auto.
    + destruct (restore_ok None (i_naxis fdf) (i_ctype fdf) k Hl Hk Hlong (ccArr r) S2 D) as (o & Eo & _ & So & Vo).
      rewrite E2 in Eo. injection Eo as <-. auto.
    + destruct (restore_ok None (i_naxis fdf) (i_ctype fdf) k Hl Hk Hlong (residFDF r) S3 D) as (o & Eo & _ & So & Vo).
      rewrite E3 in Eo. injection Eo as <-. auto.
Qed.

(** Totality of the restoration: no exception once the cleaning returned. *)
Theorem rmclean3d_total : forall fdf rmsf phi phi2 fwhm cutoff maxIter gain pool window k r,
  wf_image fdf -> spectral_axis (s "FDEP") (i_ctype fdf) k -> len (i_naxis fdf) k <> 1 ->
  do_rmclean_hogbom (read_FDF_cube None fdf) phi (read_FDF_cube None rmsf) phi2 fwhm cutoff maxIter gain None pool window = CRetOk r ->
  exists o, run_rmclean_cubes fdf rmsf phi phi2 fwhm cutoff maxIter gain pool window = POk o.
Proof.
  intros fdf rmsf phi phi2 fwhm cutoff maxIter gain pool window k r Wf Hk Hlong Er.
  assert (Hl : List.length (i_ctype fdf) = List.length (i_naxis fdf)) by (destruct Wf as (_ & _ & H); exact H).
  destruct (read_FDF_spec None fdf k Wf Hk) as (Wd & Sd & Vd).
  assert (Hne : forall n, In n (shape (read_FDF_cube None fdf)) -> n <> 1).
  { intros n Hn. rewrite Sd in Hn. apply in_map_iff in Hn. destruct Hn as (a & <- & Ha). unfold long_axes in Ha. apply filter_In in Ha.
    destruct Ha as [_ Ha]. destruct (Nat.eqb_spec (len (i_naxis fdf) a) 1); [discriminate|assumption]. }
  destruct (clean_shapes _ _ _ _ _ _ _ _ _ _ _ _ Hne Er) as (S1 & S2 & S3). rewrite Sd in S1, S2, S3.
  unfold run_rmclean_cubes. rewrite Er.
  destruct (restore_total None (i_naxis fdf) (i_ctype fdf) k Hl Hk Hlong _ S1) as (o1 & -> & _).
  destruct (restore_total None (i_naxis fdf) (i_ctype fdf) k Hl Hk Hlong _ S2) as (o2 & -> & _).
  destruct (restore_total None (i_naxis fdf) (i_ctype fdf) k Hl Hk Hlong _ S3) as (o3 & -> & _).
  cbn [pybind]. eexists. reflexivity.
Qed.

(** Finding: an image one pixel wide. *)
Theorem restore_one_wide_refuted : exists (f : image nat) k, wf_image f /\ spectral_axis (s "FDEP") (i_ctype f) k /\
  i_naxis f = [1; 2; 3] /\
  exists out, restore_axes 0 (i_naxis f) (i_ctype f) (read_FDF_cube 0 f) = POk out /\ shape out = [3; 1; 2].
Proof.
  exists (mk_image [1; 2; 3] [Some (s "RA---SIN"); Some (s "DEC--SIN"); Some (s "FDEP")] (mk_nd [3; 2; 1] [0; 1; 2; 3; 4; 5])), 3.
  split; [repeat split|]. split.
  - split; [cbn; lia|]. split; [intros j Hj; cbn in Hj; lia|]. left. exists [], (s "FDEP"), []. split; [reflexivity|].
    repeat constructor.
  - split; [reflexivity|]. eexists. split; reflexivity.
Qed.
