(** From images to arrays and back for the 3-D tool. *)
From Coq Require Import Reals List Arith ZArith Bool Ascii String Lra Lia.
Set Warnings "-ambiguous-paths".
From Coquelicot Require Import Coquelicot.
From Verif Require Import CBase PyRes PyStr PyStr_Proofs PyList PyList_Proofs NdArray NdIndex Synth_Model Synth_Spec Synth_Proofs Rmsf_Proofs CleanTop_Model
  Setup_Model Setup_Spec Setup_Proofs Cube_Model Cube_Spec Cube_Proofs Cube_Laws Measure_Model Clean_Grid Run1D_Spec Run1D_Proofs Pixfit_Model Pixfit_Spec Pixfit_Proofs Pixfit_Laws
  Run3D_Model Run3D_Spec.
Import ListNotations.
Local Open Scope nat_scope.

Lemma filter_rev' : forall {A} (f : A -> bool) l, filter f (rev l) = rev (filter f l).
Proof. intros A f l. induction l as [|a l IH]; [reflexivity|]. simpl. rewrite filter_app, IH. simpl. destruct (f a); simpl; [reflexivity|apply app_nil_r]. Qed.

Lemma nodup_others : forall k N, NoDup (others k N).
Proof. intros. apply NoDup_filter, seq_NoDup. Qed.

(** a point with given coordinates on some axes *)
Lemma point_with : forall (axes idx : list nat), NoDup axes -> List.length idx = List.length axes ->
  exists p : nat -> nat, map p axes = idx /\ forall a, ~ In a axes -> p a = 0.
Proof.
  induction axes as [|x axes IH]; intros idx ND L.
  - destruct idx; [|discriminate]. exists (fun _ => 0). auto.
  - destruct idx as [|i idx]; [discriminate|]. inversion ND as [|? ? N1 N2]; subst. destruct (IH idx N2 ltac:(cbn in L; lia)) as (p & E & Z).
    exists (fun a => if a =? x then i else p a). split.
    + cbn. rewrite Nat.eqb_refl. f_equal. rewrite <- E. apply map_ext_in. intros a Ia. destruct (Nat.eqb_spec a x); [subst; contradiction|reflexivity].
    + intros a Ia. destruct (Nat.eqb_spec a x) as [->|Hn]; [destruct Ia; now left|]. apply Z. intros H. apply Ia. now right.
Qed.

Lemma at_chan_same : forall p k, at_chan p k (p k) = p \/ forall a, at_chan p k (p k) a = p a.
Proof. intros. right. intros a. unfold at_chan. destruct (Nat.eqb_spec a k); subst; reflexivity. Qed.

Section Arrays.
  Variables (naxis : list nat) (k n : nat).
  Notation N := (List.length naxis).
  Hypothesis Hk : 1 <= k <= N.
  Hypothesis Hlen : len naxis k = n.
  Hypothesis Hn : 2 <= n.
  Hypothesis Hpos : forall a, 1 <= a <= N -> 0 < len naxis a.
  Hypothesis Hsky : List.length (sky_axes naxis k) <= 2.

  Definition kept : list nat := rev (sky_axes naxis k).
  Definition os : list nat := rev (others k N).

  Lemma kept_eq : kept = if 4 <=? N then long_axes naxis os else os.
  Proof. unfold kept, sky_axes, os. cbv zeta. destruct (4 <=? N); [|reflexivity]. unfold long_axes. symmetry. apply filter_rev'. Qed.
  Lemma kept_short : List.length kept <= 2.
  Proof. unfold kept. rewrite rev_length. exact Hsky. Qed.
  Lemma os_in : forall a, In a os -> 1 <= a <= N /\ a <> k.
  Proof. intros a Ia. unfold os in Ia. apply in_rev in Ia. now apply in_others in Ia. Qed.
  Lemma long_in : forall l a, In a (long_axes naxis l) -> In a l.
  Proof. intros l a Ia. unfold long_axes in Ia. apply filter_In in Ia. tauto. Qed.
  Lemma kept_in : forall a, In a kept -> 1 <= a <= N /\ a <> k.
  Proof. intros a Ia. rewrite kept_eq in Ia. apply os_in. destruct (4 <=? N); [now apply long_in|exact Ia]. Qed.
  Lemma kept_nodup : NoDup (k :: kept).
  Proof.
    constructor; [intros H; apply kept_in in H; tauto|]. rewrite kept_eq. assert (NoDup os) by (unfold os; apply NoDup_rev, nodup_others).
    destruct (4 <=? N); [unfold long_axes; now apply NoDup_filter|assumption].
  Qed.
  Lemma kept_long : long_axes naxis kept = long_axes naxis os.
  Proof. rewrite kept_eq. destruct (4 <=? N); [apply long_idem|reflexivity]. Qed.

  Definition m : nat := prodn (map (len naxis) kept).
  Definition sky (p : nat -> nat) : nat := ravel (map (len naxis) kept) (map p kept).

  Lemma sky_lt : forall p, in_image naxis p -> sky p < m.
  Proof. intros p Hp. apply ravel_lt, valid_map. intros a Ia. apply Hp. now apply kept_in. Qed.

  (** an array whose elements are the voxels [v] *)
  Definition shows {A} (d : A) (a : nd A) (v : (nat -> nat) -> A) : Prop :=
    wf_nd a /\ shape a = n :: map (len naxis) kept /\ forall p, in_image naxis p -> at_nd d a (map p (k :: kept)) = v p.

  Lemma shows_at2 : forall {A} (d : A) a v p j, shows d a v -> in_image naxis p -> j < n -> at2 m d (flat a) j (sky p) = v (at_chan p k j).
  Proof.
    intros A d a v p j (W & S & V) Hp Hj. assert (Hc : in_image naxis (at_chan p k j)).
    { intros b Hb. unfold at_chan. destruct (Nat.eqb_spec b k) as [->|]; [lia|now apply Hp]. }
    rewrite <- V by exact Hc. unfold at_nd, at2. rewrite S. cbn [map ravel]. unfold at_chan at 1. rewrite Nat.eqb_refl.
    rewrite at_chan_kept by (intros H; apply kept_in in H; tauto). reflexivity.
  Qed.

  Lemma read_shows : forall {A} (d : A) (f : image A), wf_image f -> i_naxis f = naxis -> spectral_axis (s "FREQ") (i_ctype f) k ->
    exists a, readFitsCube d f = POk a /\ shows d a (vox d f).
  Proof.
    intros A d f Wf En Hs. destruct (read_cube d f k Wf Hs) as [R _]. cbv zeta in R. rewrite En in R.
    assert (Ek : (if 4 <=? N then long_axes naxis (k :: rev (others k N)) else k :: rev (others k N)) = k :: kept).
    { rewrite kept_eq. apply kept_split. intros _. lia. }
    rewrite Ek in R. destruct (R ltac:(cbn; pose proof kept_short; lia)) as (a & E & W & S & V). exists a. split; [exact E|].
    split; [exact W|]. split; [|exact V]. rewrite S. cbn [map]. now rewrite Hlen.
  Qed.

  Lemma point_of : forall p0, p0 < m -> exists p, in_image naxis p /\ sky p = p0.
  Proof.
    intros p0 H. destruct (unravel_valid (map (len naxis) kept) p0 H) as [V E].
    destruct (point_with kept (unravel (map (len naxis) kept) p0)) as (p & Ep & Z).
    { pose proof kept_nodup as ND. now inversion ND. }
    { rewrite (valid_length _ _ V), map_length. reflexivity. }
    exists p. split; [|unfold sky; now rewrite Ep].
    intros a Ha. destruct (in_dec Nat.eq_dec a kept) as [Ia|Na]; [|rewrite Z by exact Na; now apply Hpos].
    rewrite <- Ep in V. clear -V Ia. induction kept as [|x l IH]; [destruct Ia|]. cbn in V. apply valid_cons in V. destruct V as [V1 V2].
    destruct Ia as [->|Ia]; auto.
  Qed.

  Lemma odiv_shows : forall a b va vb, shows None a va -> shows None b vb ->
    shows None (odiv_nd a b) (fun p => odiv (va p) (vb p)).
  Proof.
    intros a b va vb (Wa & Sa & Va) (Wb & Sb & Vb). unfold shows, odiv_nd. cbn [shape flat]. split; [|split; [exact Sa|]].
    - unfold wf_nd. cbn. rewrite map_length, combine_length. unfold wf_nd in Wa, Wb. rewrite Wa, Wb, Sa, Sb. apply Nat.min_id.
    - intros p Hp. rewrite <- Va, <- Vb by exact Hp. unfold at_nd. cbn [shape flat]. rewrite Sb, <- Sa.
      set (i := ravel (shape a) (map p (k :: kept))). assert (L : i < List.length (flat a)).
      { unfold wf_nd in Wa. rewrite Wa. apply ravel_lt. rewrite Sa. change (n :: map (len naxis) kept) with (n :: map (len naxis) kept).
        rewrite <- Hlen. change (len naxis k :: map (len naxis) kept) with (map (len naxis) (k :: kept)). apply valid_map.
        intros c Ic. apply Hp. destruct Ic as [<-|Ic]; [exact Hk|now apply kept_in]. }
      assert (L2 : List.length (flat b) = List.length (flat a)) by (unfold wf_nd in Wa, Wb; rewrite Wa, Wb, Sa, Sb; reflexivity).
      rewrite (nth_map_lt _ _ _ _ (None, None)) by (rewrite combine_length; lia). rewrite combine_nth by auto. reflexivity.
  Qed.

  (** RM synthesis of such arrays *)
  Lemma synth_shape : forall q u l2 phi wA lam0in r, shape q = n :: map (len naxis) kept -> 2 <= List.length phi ->
    do_rmsynth_planes q u l2 phi wA lam0in = Some r ->
    wf_nd (FDFcube r) /\ shape (FDFcube r) = List.length phi :: map (len naxis) (long_axes naxis os).
  Proof.
    intros q u l2 phi wA lam0in r Sq Hphi Er. pose proof kept_short as Lk.
    unfold do_rmsynth_planes in Er. cbv zeta in Er.
    repeat match type of Er with (if ?c then None else _) = _ => destruct c; [discriminate|] end.
    injection Er as <-. cbn [FDFcube]. unfold squeeze, wf_nd. cbn [shape flat].
    assert (F : filter (fun n => negb (n =? 1)) (if List.length (shape q) =? 3 then tl (shape q) else [prodn (tl (shape q))])
                = map (len naxis) (long_axes naxis os)).
    { rewrite Sq. cbn [tl List.length]. rewrite <- kept_long.
      assert (E1 : map (len naxis) (long_axes naxis kept) = filter (fun n => negb (n =? 1)) (map (len naxis) kept)).
      { symmetry. apply (proj2 (squeeze_map (len naxis) (fun a => a) kept)). }
      rewrite E1. destruct (S (List.length (map (len naxis) kept)) =? 3) eqn:E3; [reflexivity|].
      apply Nat.eqb_neq in E3. rewrite map_length in E3.
      destruct kept as [|x1 [|x2 kk]]; simpl; [reflexivity| |simpl in E3, Lk; lia].
      rewrite Nat.mul_1_r. reflexivity. }
    split.
    - rewrite prodn_squeeze, length_tab2. change (prodn (?a :: ?l)) with (a * prodn l). f_equal.
      destruct (List.length (shape q) =? 3); [reflexivity|]. simpl. lia.
    - simpl. destruct (Nat.eqb_spec (List.length phi) 1); [lia|]. simpl. f_equal. exact F.
  Qed.

  Lemma squeezed_cell : forall {A} (d : A) (c : nd A) nphi p, in_image naxis p ->
    wf_nd c -> shape c = nphi :: map (len naxis) (long_axes naxis os) -> forall j,
    at_nd d c (j :: map p (long_axes naxis os)) = at2 m d (flat c) j (sky p).
  Proof.
    intros A d c nphi p Hp W Sc j. unfold at_nd, at2. rewrite Sc. cbn [ravel]. f_equal. rewrite <- kept_long.
    destruct (squeeze_map (len naxis) p kept) as [E1 E2]. unfold long_axes. rewrite <- E1, <- E2. unfold m, sky. rewrite prodn_squeeze. f_equal.
    apply ravel_squeeze. apply valid_map. intros a Ia. apply Hp. now apply kept_in.
  Qed.
  Lemma full_cell : forall {A} (d : A) (c : nd A) nphi p, in_image naxis p ->
    shape c = nphi :: map (len naxis) kept -> forall j,
    at_nd d c (j :: map p kept) = at2 m d (flat c) j (sky p).
  Proof. intros A d c nphi p Hp Sc j. unfold at_nd, at2. rewrite Sc. reflexivity. Qed.

  (** ** The spectra *)
  Section Synth.
    Variables (Q U : image (option R)) (I : option (image (option R))) (freq : list R) (w : nat -> R) (wA : list (option R)).
    Variables (q u : nd (option R)) (vq vu : (nat -> nat) -> option R) (phi : list R) (lam0in : option R).
    Hypothesis NQ : i_naxis Q = naxis.
    Hypothesis Lf : List.length freq = n.
    Hypothesis Lw : List.length wA = n.
    Hypothesis Ew : forall j, j < n -> nth j (weights_of n (Some wA)) 0%R = w j.
    Hypothesis Sq : shows None q vq.
    Hypothesis Su : shows None u vu.
    Hypothesis HF : forall p, frac_vox Q U I p = match vq p, vu p with Some a, Some b => Some (a, b) | _, _ => None end.
    Hypothesis AS : antisym phi.
    Hypothesis L2 : 2 <= List.length phi.

    Lemma nth_lsq : forall j, j < n -> nth j (map lsq freq) 0%R = lsq (nth j freq 0%R).
    Proof. intros j Hj. rewrite (nth_map_lt _ _ _ _ 0%R) by lia. reflexivity. Qed.

    Lemma synth_valid : valid_synth q u (map lsq freq) (Some wA).
    Proof.
      destruct Sq as (_ & S1 & _). destruct Su as (_ & S2 & _). unfold valid_synth. rewrite S1, S2, map_length, Lf. split; [reflexivity|].
      split; [cbn; rewrite map_length; pose proof kept_short; lia|]. split; [reflexivity|exact Lw].
    Qed.

    Lemma npix_m : npix q = m.
    Proof. destruct Sq as (_ & S1 & _). unfold npix. rewrite S1. reflexivity. Qed.

    Lemma chans_eq : forall p, in_image naxis p ->
      pixel_chans n m (flat q) (flat u) (map lsq freq) (weights_of n (Some wA)) (sky p) = sky_chans Q U I k freq w p.
    Proof.
      intros p Hp. unfold pixel_chans, sky_chans. rewrite Lf, !flat_map_concat_map. f_equal. apply map_ext_in. intros j Hj. apply in_seq in Hj.
      change (nth (j * m + sky p) (flat q) None) with (at2 m None (flat q) j (sky p)).
      change (nth (j * m + sky p) (flat u) None) with (at2 m None (flat u) j (sky p)).
      rewrite (shows_at2 None q vq), (shows_at2 None u vu) by (auto; lia). rewrite HF, nth_lsq, Ew by lia.
      destruct (vq (at_chan p k j)), (vu (at_chan p k j)); reflexivity.
    Qed.

    Lemma live_reference : forall l0,
      let live := live_chans n m (flat q) (flat u) (map lsq freq) (weights_of n (Some wA)) in
      l0 = (if Req_EM_T (wsum live) 0 then 0%R else mean_l2 live) ->
      mean_over (fun j => exists p, in_image naxis (at_chan p k j) /\ frac_vox Q U I (at_chan p k j) <> None) freq w l0.
    Proof.
      intros l0 live E. set (B := fun j => existsb (fun p => match nth (j * m + p) (flat q) None, nth (j * m + p) (flat u) None with Some _, Some _ => true | _, _ => false end) (seq 0 m)).
      assert (EL : live = map (fun j => mk_chan (nth j (map lsq freq) 0%R) (nth j (weights_of n (Some wA)) 0%R) (RtoC 0)) (filter B (seq 0 n))).
      { unfold live, live_chans. generalize (seq 0 n). intros l. induction l as [|j l IH]; [reflexivity|]. cbn [flat_map filter]. rewrite IH. fold (B j). destruct (B j); reflexivity. }
      exists (filter B (seq 0 n)). split; [apply NoDup_filter, seq_NoDup|]. split.
      - intros j. rewrite filter_In, in_seq, Lf. split.
        + intros [Hj Bj]. split; [lia|]. unfold B in Bj. apply existsb_exists in Bj. destruct Bj as (p0 & Ip & Bp). apply in_seq in Ip.
          destruct (point_of p0 ltac:(lia)) as (p & Hp & <-). exists p.
          split. { intros b Hb. unfold at_chan. destruct (Nat.eqb_spec b k) as [->|]; [lia|now apply Hp]. }
          change (nth (j * m + sky p) (flat q) None) with (at2 m None (flat q) j (sky p)) in Bp.
          change (nth (j * m + sky p) (flat u) None) with (at2 m None (flat u) j (sky p)) in Bp.
          rewrite (shows_at2 None q vq), (shows_at2 None u vu) in Bp by (auto; lia). rewrite HF.
          destruct (vq (at_chan p k j)), (vu (at_chan p k j)); discriminate.
        + intros [Hj (p & Hp & Hv)]. split; [lia|]. unfold B. apply existsb_exists. rewrite HF in Hv.
          exists (sky (at_chan p k j)). split; [apply in_seq; split; [lia|]; apply sky_lt, Hp|].
          change (nth (j * m + ?x) (flat q) None) with (at2 m None (flat q) j x).
          change (nth (j * m + ?x) (flat u) None) with (at2 m None (flat u) j x).
          rewrite (shows_at2 None q vq), (shows_at2 None u vu) by (auto; lia).
          assert (Ea : at_chan (at_chan p k j) k j = at_chan p k j \/ True) by now right. clear Ea.
          rewrite <- HF in Hv. destruct Sq as (_ & _ & Vq). destruct Su as (_ & _ & Vu).
          assert (Eq1 : vq (at_chan (at_chan p k j) k j) = vq (at_chan p k j)).
          { rewrite <- !Vq; [f_equal; apply map_ext; intros a; unfold at_chan; destruct (a =? k); reflexivity|exact Hp|].
            intros a Ha. unfold at_chan. specialize (Hp a Ha). unfold at_chan in Hp. destruct (a =? k); exact Hp. }
          assert (Eu1 : vu (at_chan (at_chan p k j) k j) = vu (at_chan p k j)).
          { rewrite <- !Vu; [f_equal; apply map_ext; intros a; unfold at_chan; destruct (a =? k); reflexivity|exact Hp|].
            intros a Ha. unfold at_chan. specialize (Hp a Ha). unfold at_chan in Hp. destruct (a =? k); exact Hp. }
          rewrite Eq1, Eu1. rewrite HF in Hv. destruct (vq (at_chan p k j)), (vu (at_chan p k j)); congruence.
      - assert (E1 : wsum live = rsum (map w (filter B (seq 0 n)))).
        { unfold wsum. rewrite EL, map_map. f_equal. apply map_ext_in. intros j Ij. apply filter_In in Ij. destruct Ij as [Ij _]. apply in_seq in Ij. cbn [c_w]. apply Ew. lia. }
        assert (E2 : rsum (map (fun c => (c_w c * c_l2 c)%R) live) = rsum (map (fun j => (w j * lsq (nth j freq 0))%R) (filter B (seq 0 n)))).
        { rewrite EL, map_map. f_equal. apply map_ext_in. intros j Ij. apply filter_In in Ij. destruct Ij as [Ij _]. apply in_seq in Ij. cbn [c_w c_l2]. rewrite Ew, nth_lsq by lia. reflexivity. }
        cbv zeta. rewrite <- E1. unfold mean_l2 in E. rewrite E2 in E. destruct (Req_EM_T (wsum live) 0); split; intros H; auto; contradiction.
    Qed.

    (** what the synthesis returns *)
    Lemma synth_cells : exists r, do_rmsynth_planes q u (map lsq freq) phi (Some wA) lam0in = Some r /\
      wf_nd (FDFcube r) /\ shape (FDFcube r) = List.length phi :: map (len naxis) (long_axes naxis os) /\
      match lam0in with
      | Some l => synth_lam0 r = l
      | None => mean_over (fun j => exists p, in_image naxis (at_chan p k j) /\ frac_vox Q U I (at_chan p k j) <> None) freq w (synth_lam0 r)
      end /\
      forall p j, in_image naxis p -> j < List.length phi ->
        let chs := sky_chans Q U I k freq w p in
        let c := at2 m None (flat (FDFcube r)) j (sky p) in
        (wsum chs = 0%R -> c = None) /\
        (wsum chs <> 0%R ->
          (c = None <-> forall f, In f phi -> FDF_spec chs (synth_lam0 r) f = RtoC 0) /\
          (forall z, c = Some z -> z = FDF_spec chs (synth_lam0 r) (nth j phi 0%R))).
    Proof.
      destruct (synth_refines q u (map lsq freq) phi (Some wA) lam0in synth_valid AS) as (r & Er & H0 & HP). cbv zeta in H0, HP.
      rewrite npix_m, map_length, Lf in H0, HP. exists r. split; [exact Er|].
      destruct (synth_shape q u (map lsq freq) phi (Some wA) lam0in r (proj1 (proj2 Sq)) L2 Er) as [W S]. split; [exact W|]. split; [exact S|].
      split; [destruct lam0in; [exact H0|now apply live_reference]|].
      intros p j Hp Hj. cbv zeta. specialize (HP j (sky p) Hj (sky_lt p Hp)). rewrite (chans_eq p Hp) in HP. exact HP.
    Qed.
  End Synth.
End Arrays.
