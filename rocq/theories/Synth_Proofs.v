(** Lemmas about RM-synthesis. *)
From Coq Require Import Reals List Arith ZArith Lia Lra Bool.
Set Warnings "-ambiguous-paths".
From Coquelicot Require Import Coquelicot.
From Verif Require Import CBase NdArray Interp_Model Synth_Model Synth_Spec.
Import ListNotations.
Local Open Scope R_scope.

Lemma list_as_seq : forall {A} (l : list A) d, l = map (fun j => nth j l d) (seq 0 (length l)).
Proof.
  intros A l d. apply nth_ext with (d := d) (d' := d).
  - now rewrite map_length, seq_length.
  - intros k Hk. rewrite nth_map_seq by lia. reflexivity.
Qed.

Lemma combine_map_same : forall {A B D} (f : A -> B) (g : A -> D) l,
  combine (map f l) (map g l) = map (fun x => (f x, g x)) l.
Proof. induction l; simpl; congruence. Qed.

Lemma csum_flat_map : forall {A B} (g : A -> list B) (f : B -> C) l,
  csum (map f (flat_map g l)) = csum (map (fun a => csum (map f (g a))) l).
Proof.
  induction l; simpl; [reflexivity|]. rewrite map_app, csum_app, csum_cons, IHl. reflexivity.
Qed.

Lemma rsum_flat_map : forall {A B} (g : A -> list B) (f : B -> R) l,
  rsum (map f (flat_map g l)) = rsum (map (fun a => rsum (map f (g a))) l).
Proof.
  induction l; simpl; [reflexivity|]. rewrite map_app, rsum_app, rsum_cons, IHl. reflexivity.
Qed.

Lemma Ceqb_true : forall a b, Ceqb a b = true <-> a = b.
Proof.
  intros [a1 a2] [b1 b2]. unfold Ceqb; simpl.
  destruct (Req_EM_T a1 b1), (Req_EM_T a2 b2); split; intros; subst; try discriminate; auto;
    inversion H; subst; contradiction.
Qed.

(* ---------------------------------------------------------------- core *)

(** the un-normalised sum of the model, over the good channels *)
Definition raw (chs : list chan) (l0 f : R) : C :=
  csum (map (fun c => (RtoC (c_w c) * c_P c * cis (2 * f * (c_l2 c - l0)))%C) chs).

Section Core.
  Variables (n m : nat) (Q U : list cell) (l2 phi w0 : list R) (lam0in : option R).
  Hypothesis Hn : n = length l2.

  Let chs := pixel_chans n m Q U l2 w0.

  Lemma pC_some_ok : forall j p, (j < n)%nat -> (p < m)%nat ->
    is_some (pC m Q U w0 j p) = true -> plane_ok m Q U w0 j = true.
  Proof.
    intros. unfold plane_ok. apply existsb_exists. exists p. split; auto. apply in_seq; lia.
  Qed.

  Lemma K_pix_eq : forall p, (p < m)%nat ->
    K_pix n m Q U w0 p = inv_or_0 (wsum (chs p)).
  Proof.
    intros p Hp. unfold K_pix. f_equal. unfold chs, wsum, pixel_chans.
    rewrite rsum_flat_map. apply rsum_map_ext. intros j Hj. apply in_seq in Hj.
    unfold w_eff. rewrite nth_map_seq by lia. simpl.
    destruct (is_some (pC m Q U w0 j p)) eqn:E.
    - rewrite (pC_some_ok j p) by (auto; lia).
      unfold pC, at2 in E. unfold is_some, is_none, pcell in E.
      destruct (nth (j * m + p) Q None), (nth (j * m + p) U None); try discriminate E.
      simpl. rewrite rsum_cons, rsum_nil. ring.
    - unfold pC, at2, is_some, is_none, pcell in E.
      destruct (nth (j * m + p) Q None), (nth (j * m + p) U None); try discriminate E; reflexivity.
  Qed.

  Lemma FDF_pix_eq : forall p, (p < m)%nat ->
    FDF_pix n m Q U l2 phi w0 lam0in p =
    map (fun f => (raw (chs p) (lam0_used n m Q U l2 w0 lam0in) f * RtoC (inv_or_0 (wsum (chs p))))%C) (rev phi).
  Proof.
    intros p Hp. unfold FDF_pix. rewrite K_pix_eq by auto. unfold nufft1d3.
    rewrite !map_map. apply map_ext. intros f. f_equal.
    set (l0 := lam0_used n m Q U l2 w0 lam0in).
    rewrite (list_as_seq l2 0) at 1. rewrite map_map, <- Hn, combine_map_same, map_map. simpl.
    unfold raw, chs, pixel_chans. rewrite csum_flat_map. apply csum_map_ext. intros j Hj.
    unfold pC, at2, pcell.
    destruct (nth (j * m + p) Q None), (nth (j * m + p) U None); simpl;
      rewrite ?csum_cons, ?csum_nil; try ring.
    replace (f * 2 * (nth j l2 0 - l0)) with (2 * f * (nth j l2 0 - l0)) by ring. ring.
  Qed.

  Lemma FDF_nth : forall k p, (k < length phi)%nat -> (p < m)%nat ->
    nth k (FDF_pix n m Q U l2 phi w0 lam0in p) (RtoC 0) =
    (raw (chs p) (lam0_used n m Q U l2 w0 lam0in) (nth (length phi - 1 - k) phi 0)
     * RtoC (inv_or_0 (wsum (chs p))))%C.
  Proof.
    intros k p Hk Hp. rewrite FDF_pix_eq by auto.
    set (F := fun f : R => (_ * _)%C). rewrite nth_indep with (d' := F 0) by (rewrite map_length, rev_length; lia).
    rewrite map_nth, rev_nth by lia. unfold F. do 3 f_equal. lia.
  Qed.

  (** value of an output cell, blank pixels counting as zero *)
  Lemma out_cell_val : forall k p, (k < length phi)%nat -> (p < m)%nat ->
    nan_to_num (out_cell n m Q U l2 phi w0 lam0in k p) = nth k (FDF_pix n m Q U l2 phi w0 lam0in p) (RtoC 0).
  Proof.
    intros k p Hk Hp. unfold out_cell. destruct (zero_pix n m Q U l2 phi w0 lam0in p) eqn:Z; [|reflexivity].
    simpl. symmetry. unfold zero_pix in Z. rewrite forallb_forall in Z. apply Ceqb_true, Z, nth_In.
    rewrite FDF_pix_eq by auto. rewrite map_length, rev_length. lia.
  Qed.

  Lemma out_cell_blank : forall k p, (k < length phi)%nat -> (p < m)%nat ->
    (out_cell n m Q U l2 phi w0 lam0in k p = None <->
     forall f, In f phi -> (raw (chs p) (lam0_used n m Q U l2 w0 lam0in) f
                            * RtoC (inv_or_0 (wsum (chs p))))%C = RtoC 0).
  Proof.
    intros k p Hk Hp. unfold out_cell, zero_pix. rewrite FDF_pix_eq by auto.
    set (F := fun f : R => (_ * _)%C). split.
    - intros H f Hf. destruct (forallb _ _) eqn:Z; [|discriminate]. rewrite forallb_forall in Z.
      apply Ceqb_true, Z. apply (in_map F). now apply -> in_rev.
    - intros H. destruct (forallb _ _) eqn:Z; [reflexivity|].
      exfalso. assert (forallb (fun z => Ceqb z (RtoC 0)) (map F (rev phi)) = true); [|congruence].
      apply forallb_forall. intros z Hz. apply in_map_iff in Hz. destruct Hz as [f [<- Hf]].
      apply Ceqb_true. apply H. now apply in_rev.
  Qed.
End Core.

Lemma inv_or_0_nz : forall x, x <> 0 -> inv_or_0 x = 1 / x.
Proof. intros. unfold inv_or_0. destruct (Req_EM_T x 0); [contradiction|reflexivity]. Qed.
Lemma inv_or_0_z : inv_or_0 0 = 0.
Proof. unfold inv_or_0. destruct (Req_EM_T 0 0); [reflexivity|lra]. Qed.

Lemma RtoC_neq0 : forall r, r <> 0 -> RtoC r <> RtoC 0.
Proof. intros r H E. apply H. now inversion E. Qed.

Lemma RtoC_inv_mult : forall z r, r <> 0 -> (z * RtoC (1 / r))%C = (z / RtoC r)%C.
Proof.
  intros. rewrite RtoC_div by auto. unfold Cdiv. ring.
Qed.

Lemma raw_spec : forall chs l0 f,
  wsum chs <> 0 -> (raw chs l0 (- f) * RtoC (inv_or_0 (wsum chs)))%C = FDF_spec chs l0 f.
Proof.
  intros. rewrite inv_or_0_nz by auto. rewrite RtoC_inv_mult by auto. unfold FDF_spec, raw. f_equal.
  apply csum_map_ext. intros c _. do 2 f_equal. ring.
Qed.

Lemma lam0_of_spec : forall n m Q U l2 w0, n = length l2 -> 
  lam0_of (w_eff n m Q U w0) l2 =
  (if Req_EM_T (wsum (live_chans n m Q U l2 w0)) 0 then 0 else mean_l2 (live_chans n m Q U l2 w0)).
Proof.
  intros n m Q U l2 w0 Hn.
  assert (E : forall j, plane_ok m Q U w0 j = existsb (fun p => match nth (j * m + p) Q None, nth (j * m + p) U None with
                         | Some _, Some _ => true | _, _ => false end) (seq 0 m)).
  { intros. unfold plane_ok.
    assert (forall f g : nat -> bool, (forall x, f x = g x) -> forall l, existsb f l = existsb g l) as EX.
    { intros f g H l. induction l; simpl; congruence. }
    apply EX. intros p. unfold pC, at2, pcell, is_some, is_none.
    destruct (nth (j * m + p) Q None), (nth (j * m + p) U None); reflexivity. }
  assert (S1 : rsum (w_eff n m Q U w0) = wsum (live_chans n m Q U l2 w0)).
  { unfold w_eff, wsum, live_chans. rewrite rsum_flat_map. apply rsum_map_ext. intros j _. rewrite E.
    destruct (existsb _ _); simpl; rewrite ?rsum_cons, ?rsum_nil; ring. }
  unfold lam0_of. rewrite S1. destruct (Req_EM_T _ 0); [reflexivity|].
  unfold mean_l2. unfold Rdiv at 1. rewrite Rmult_1_l, Rmult_comm. unfold Rdiv. f_equal.
  unfold live_chans, w_eff. rewrite rsum_flat_map.
  rewrite (list_as_seq l2 0) at 1. rewrite <- Hn, combine_map_same, map_map. apply rsum_map_ext. intros j _. simpl.
  rewrite E. destruct (existsb _ _); simpl; rewrite ?rsum_cons, ?rsum_nil; ring.
Qed.

(* ----------------------------------------------------- the API function *)


Lemma prep_len : forall (l2 : list R) (wA : option (list (option R))),
  match wA with None => True | Some w => length w = length l2 end ->
  length (prep_weights (length l2) wA) = length l2.
Proof. intros l2 [w|] H; simpl; [now rewrite map_length|apply repeat_length]. Qed.


Lemma do_rmsynth_eq : forall dataQ dataU l2 phi wA lam0in, valid_synth dataQ dataU l2 wA ->
  do_rmsynth_planes dataQ dataU l2 phi wA lam0in =
  Some (mk_synth
    (squeeze (mk_nd (length phi :: (if Nat.eqb (length (shape dataQ)) 3 then tl (shape dataQ) else [npix dataQ]))
       (tab2 (length phi) (npix dataQ)
          (out_cell (length l2) (npix dataQ) (flat dataQ) (flat dataU) l2 phi (prep_weights (length l2) wA) lam0in))))
    (lam0_used (length l2) (npix dataQ) (flat dataQ) (flat dataU) l2 (prep_weights (length l2) wA) lam0in)).
Proof.
  intros dataQ dataU l2 phi wA lam0in (H1 & H2 & H3 & H4). unfold do_rmsynth_planes.
  rewrite prep_len by auto. rewrite Nat.eqb_refl. simpl negb. cbv iota.
  destruct (list_eq_dec Nat.eq_dec (shape dataQ) (shape dataU)) as [_|]; [|contradiction]. simpl negb. cbv iota.
  replace (Nat.leb (length (shape dataQ)) 3) with true by (symmetry; apply Nat.leb_le; lia).
  simpl negb. cbv iota. rewrite H3, Nat.eqb_refl. reflexivity.
Qed.

Lemma do_rmsynth_cell : forall dataQ dataU l2 phi wA lam0in r k p,
  valid_synth dataQ dataU l2 wA ->
  do_rmsynth_planes dataQ dataU l2 phi wA lam0in = Some r ->
  (k < length phi)%nat -> (p < npix dataQ)%nat ->
  at2 (npix dataQ) None (flat (FDFcube r)) k p =
  out_cell (length l2) (npix dataQ) (flat dataQ) (flat dataU) l2 phi (prep_weights (length l2) wA) lam0in k p.
Proof.
  intros dataQ dataU l2 phi wA lam0in r k p V E Hk Hp. rewrite do_rmsynth_eq in E by auto. inversion E; subst r. simpl.
  now apply at2_tab2.
Qed.

(* ------------------------------------------------ refinement to the spec *)

Lemma finite_is_some : forall {A} (x : option A), finite x = is_some x.
Proof. intros A [x|]; reflexivity. Qed.

Lemma weights_of_eq : forall n wA, weights_of n wA = prep_weights n wA.
Proof. reflexivity. Qed.

Lemma blank0_eq : forall x, blank0 x = nan_to_num x.
Proof. reflexivity. Qed.


Lemma antisym_mem : forall phi f, antisym phi -> In f phi -> In (- f) phi.
Proof.
  intros phi f A Hf. destruct (In_nth _ _ 0 Hf) as [k [Hk <-]].
  rewrite <- A by auto. apply nth_In. lia.
Qed.

Lemma out_cell_spec : forall n m Q U l2 phi w0 lam0in k p,
  n = length l2 -> antisym phi -> (k < length phi)%nat -> (p < m)%nat ->
  let chs := pixel_chans n m Q U l2 w0 p in
  let l0 := lam0_used n m Q U l2 w0 lam0in in
  (wsum chs = 0 -> out_cell n m Q U l2 phi w0 lam0in k p = None) /\
  (wsum chs <> 0 ->
     (out_cell n m Q U l2 phi w0 lam0in k p = None <-> forall f, In f phi -> FDF_spec chs l0 f = RtoC 0) /\
     (forall z, out_cell n m Q U l2 phi w0 lam0in k p = Some z -> z = FDF_spec chs l0 (nth k phi 0))).
Proof.
  intros n m Q U l2 phi w0 lam0in k p Hn A Hk Hp chs l0. split; [|intros Hw; split].
  - intros Hw. apply out_cell_blank; auto. intros f _. fold chs. rewrite Hw, inv_or_0_z. ring.
  - rewrite out_cell_blank by auto. fold chs l0. split; intros H f Hf.
    + rewrite <- raw_spec by auto. apply H. now apply antisym_mem.
    + rewrite <- (Ropp_involutive f), raw_spec by auto. apply H. now apply antisym_mem.
  - intros z Hz. generalize (out_cell_val n m Q U l2 phi w0 lam0in Hn k p Hk Hp). rewrite Hz. simpl.
    intros ->. rewrite FDF_nth by auto. fold chs l0. rewrite A by auto. now apply raw_spec.
Qed.

Theorem synth_refines : forall dataQ dataU l2 phi wA lam0in,
  valid_synth dataQ dataU l2 wA -> antisym phi ->
  exists r, do_rmsynth_planes dataQ dataU l2 phi wA lam0in = Some r /\
    let w := weights_of (length l2) wA in
    let m := npix dataQ in
    let live := live_chans (length l2) m (flat dataQ) (flat dataU) l2 w in
    (synth_lam0 r = match lam0in with Some l => l | None =>
        if Req_EM_T (wsum live) 0 then 0 else mean_l2 live end) /\
    forall k p, (k < length phi)%nat -> (p < m)%nat ->
      let chs := pixel_chans (length l2) m (flat dataQ) (flat dataU) l2 w p in
      let c := at2 m None (flat (FDFcube r)) k p in
      (wsum chs = 0 -> c = None) /\
      (wsum chs <> 0 ->
        (c = None <-> forall f, In f phi -> FDF_spec chs (synth_lam0 r) f = RtoC 0) /\
        (forall z, c = Some z -> z = FDF_spec chs (synth_lam0 r) (nth k phi 0))).
Proof.
  intros dataQ dataU l2 phi wA lam0in V A. eexists. split. { now apply do_rmsynth_eq. }
  cbv zeta. change weights_of with prep_weights. cbn [synth_lam0 FDFcube]. split.
  - unfold lam0_used. destruct lam0in; [reflexivity|]. now apply lam0_of_spec.
  - intros k p Hk Hp. cbn [squeeze flat]. rewrite at2_tab2 by auto. now apply out_cell_spec.
Qed.

(* ---------------------------------------------------------------- C01 *)




Lemma lin_nth : forall a b (X Y : list cell) i, length X = length Y ->
  nth i (map (fun xy => lin_cell a b (fst xy) (snd xy)) (combine X Y)) None
  = lin_cell a b (nth i X None) (nth i Y None).
Proof.
  intros a b X. induction X; intros [|y Y] i H; simpl in *; try discriminate.
  - destruct i; reflexivity.
  - destruct i; auto.
Qed.

Section Lin.
  Variables (n m : nat) (Q1 U1 Q2 U2 Q3 U3 : list cell) (l2 w0 phi : list R) (a b : R).
  Hypothesis F1 : forall i, is_some (nth i Q1 None) = is_some (nth i Q2 None).
  Hypothesis F2 : forall i, is_some (nth i U1 None) = is_some (nth i U2 None).
  Hypothesis L1 : forall i, nth i Q3 None = lin_cell a b (nth i Q1 None) (nth i Q2 None).
  Hypothesis L2 : forall i, nth i U3 None = lin_cell a b (nth i U1 None) (nth i U2 None).

  Lemma lin_flag : forall j p,
    is_some (pC m Q1 U1 w0 j p) = is_some (pC m Q2 U2 w0 j p) /\
    is_some (pC m Q3 U3 w0 j p) = is_some (pC m Q1 U1 w0 j p).
  Proof.
    intros. unfold pC, at2. rewrite L1, L2. generalize (F1 (j * m + p)) (F2 (j * m + p)).
    unfold lin_cell, pcell, is_some, is_none.
    destruct (nth _ Q1 None), (nth _ Q2 None), (nth _ U1 None), (nth _ U2 None); simpl; intros;
      try discriminate; auto.
  Qed.

  Lemma lin_wsum : forall p,
    wsum (pixel_chans n m Q1 U1 l2 w0 p) = wsum (pixel_chans n m Q2 U2 l2 w0 p) /\
    wsum (pixel_chans n m Q3 U3 l2 w0 p) = wsum (pixel_chans n m Q1 U1 l2 w0 p).
  Proof.
    intros p. unfold wsum, pixel_chans. rewrite !rsum_flat_map. split; apply rsum_map_ext; intros j _;
      rewrite ?L1, ?L2; generalize (F1 (j * m + p)) (F2 (j * m + p)); unfold lin_cell, is_some, is_none;
      destruct (nth _ Q1 None), (nth _ Q2 None), (nth _ U1 None), (nth _ U2 None); simpl; intros;
      try discriminate; auto.
  Qed.

  Lemma lin_raw : forall p l0 f,
    raw (pixel_chans n m Q3 U3 l2 w0 p) l0 f =
    (RtoC a * raw (pixel_chans n m Q1 U1 l2 w0 p) l0 f
     + RtoC b * raw (pixel_chans n m Q2 U2 l2 w0 p) l0 f)%C.
  Proof.
    intros. unfold raw, pixel_chans. rewrite !csum_flat_map, <- !csum_map_scal, <- csum_map_plus.
    apply csum_map_ext. intros j _. rewrite L1, L2.
    generalize (F1 (j * m + p)) (F2 (j * m + p)); unfold lin_cell, is_some, is_none.
    destruct (nth _ Q1 None) as [q1|], (nth _ Q2 None) as [q2|], (nth _ U1 None) as [u1|], (nth _ U2 None) as [u2|];
      simpl; intros; try discriminate; rewrite ?csum_cons, ?csum_nil; try ring.
    replace ((a * q1 + b * q2, a * u1 + b * u2) : C) with (RtoC a * (q1, u1) + RtoC b * (q2, u2))%C.
    - ring.
    - unfold Cmult, Cplus, RtoC; simpl. f_equal; ring.
  Qed.

  Lemma lin_lam0 : forall lam0in,
    lam0_used n m Q1 U1 l2 w0 lam0in = lam0_used n m Q2 U2 l2 w0 lam0in /\
    lam0_used n m Q3 U3 l2 w0 lam0in = lam0_used n m Q1 U1 l2 w0 lam0in.
  Proof.
    assert (EX : forall f g : nat -> bool, (forall x, f x = g x) -> forall l, existsb f l = existsb g l).
    { intros f g H l. induction l; simpl; congruence. }
    intros [l|]; [split; reflexivity|]. unfold lam0_used.
    split; f_equal; unfold w_eff; apply map_ext; intros j; unfold plane_ok;
      match goal with |- context [if ?X then _ else _] => idtac end;
      (erewrite (EX (fun p => is_some (pC m _ _ w0 j p))); [reflexivity|]); intros; apply lin_flag.
  Qed.
End Lin.

Theorem synth_linear : forall Q1 U1 Q2 U2 l2 phi wA lam0in a b,
  valid_synth Q1 U1 l2 wA -> shape Q1 = shape Q2 -> shape U1 = shape U2 ->
  same_flags Q1 Q2 -> same_flags U1 U2 ->
  exists r1 r2 r3,
    do_rmsynth_planes Q1 U1 l2 phi wA lam0in = Some r1 /\
    do_rmsynth_planes Q2 U2 l2 phi wA lam0in = Some r2 /\
    do_rmsynth_planes (lin_nd a b Q1 Q2) (lin_nd a b U1 U2) l2 phi wA lam0in = Some r3 /\
    synth_lam0 r1 = synth_lam0 r2 /\ synth_lam0 r3 = synth_lam0 r1 /\
    shape (FDFcube r3) = shape (FDFcube r1) /\
    forall k p, (k < length phi)%nat -> (p < npix Q1)%nat ->
      let v r := blank0 (at2 (npix Q1) None (flat (FDFcube r)) k p) in
      v r3 = (RtoC a * v r1 + RtoC b * v r2)%C.
Proof.
  intros Q1 U1 Q2 U2 l2 phi wA lam0in a b V S1 S2 [FL1 F1] [FL2 F2].
  assert (F1' : forall i, is_some (nth i (flat Q1) None) = is_some (nth i (flat Q2) None)) by (intros; rewrite <- !finite_is_some; auto).
  assert (F2' : forall i, is_some (nth i (flat U1) None) = is_some (nth i (flat U2) None)) by (intros; rewrite <- !finite_is_some; auto).
  clear F1 F2; rename F1' into F1; rename F2' into F2.
  assert (V2 : valid_synth Q2 U2 l2 wA).
  { destruct V as (A & B & D & E). rewrite S1 in *. split; [congruence|]. auto. }
  assert (V3 : valid_synth (lin_nd a b Q1 Q2) (lin_nd a b U1 U2) l2 wA).
  { destruct V as (A & B & D & E). split; auto. }
  do 3 eexists. split; [now apply do_rmsynth_eq|]. split; [now apply do_rmsynth_eq|].
  split; [now apply do_rmsynth_eq|]. cbn [synth_lam0 FDFcube].
  assert (N2 : npix Q2 = npix Q1) by (unfold npix; now rewrite S1).
  assert (N3 : npix (lin_nd a b Q1 Q2) = npix Q1) by reflexivity.
  rewrite N2, N3.
  set (n := length l2). set (m := npix Q1). set (w0 := prep_weights n wA).
  assert (LQ : forall i, nth i (flat (lin_nd a b Q1 Q2)) None = lin_cell a b (nth i (flat Q1) None) (nth i (flat Q2) None))
    by (intros; now apply lin_nth).
  assert (LU : forall i, nth i (flat (lin_nd a b U1 U2)) None = lin_cell a b (nth i (flat U1) None) (nth i (flat U2) None))
    by (intros; now apply lin_nth).
  destruct (lin_lam0 n m _ _ _ _ _ _ l2 w0 a b F1 F2 LQ LU lam0in) as [E1 E2].
  split; [exact E1|]. split; [exact E2|]. split; [reflexivity|].
  intros k p Hk Hp. cbn [squeeze flat]. rewrite !at2_tab2 by auto. rewrite !blank0_eq.
  rewrite !out_cell_val by auto. rewrite !FDF_nth by auto. 
  destruct (lin_wsum n m _ _ _ _ _ _ l2 w0 a b F1 F2 LQ LU p) as [W1 W2].
  rewrite W2, <- W1, E2, <- E1.
  rewrite (lin_raw n m _ _ _ _ _ _ l2 w0 a b F1 F2 LQ LU). ring.
Qed.
