(** The direct sums kept by the test-suite agree with the current routines. *)
From Coq Require Import Reals List Arith ZArith Bool Lra Lia.
Set Warnings "-ambiguous-paths".
From Coquelicot Require Import Coquelicot.
From Verif Require Import PyRes CBase NdArray PyList Interp_Model Synth_Model Synth_Spec Synth_Proofs Rmsf_Proofs
  Clean_Model Ref_Model.
Import ListNotations.
Local Open Scope R_scope.

(* --------------------------------------------------- pixels in C order *)

Lemma flat_map_map_l : forall {A B D} (f : A -> B) (g : B -> list D) l,
  flat_map g (map f l) = flat_map (fun x => g (f x)) l.
Proof. induction l; simpl; congruence. Qed.

Lemma map_flat_map : forall {A B D} (f : B -> D) (g : A -> list B) l,
  map f (flat_map g l) = flat_map (fun x => map f (g x)) l.
Proof. induction l; simpl; [reflexivity|]. rewrite map_app. congruence. Qed.

Lemma rows_seq : forall ny nx s, flat_map (fun y => seq (y * nx) nx) (seq s ny) = seq (s * nx) (ny * nx).
Proof.
  induction ny; intros; [reflexivity|]. simpl. rewrite IHny. rewrite seq_app. f_equal. f_equal. lia.
Qed.

Lemma map_add_seq : forall k s n, map (fun x => (k + x)%nat) (seq s n) = seq (k + s) n.
Proof.
  intros k s n. revert s. induction n; intros; simpl; [reflexivity|]. rewrite IHn. f_equal. f_equal. lia.
Qed.

Lemma plane_pix_seq : forall ny nx,
  map (fun yx => (fst yx * nx + snd yx)%nat) (plane_pix ny nx) = seq 0 (ny * nx).
Proof.
  intros. unfold plane_pix. rewrite map_flat_map.
  transitivity (flat_map (fun y => seq (y * nx) nx) (seq 0 ny)); [|apply (rows_seq ny nx 0)]. apply flat_map_ext. intros y.
  rewrite map_map. simpl. rewrite map_add_seq. f_equal. lia.
Qed.

Lemma tab2_seq : forall {A} ny nx (h : nat -> A),
  tab2 ny nx (fun y x => h (y * nx + x)%nat) = map h (seq 0 (ny * nx)).
Proof.
  intros. rewrite <- plane_pix_seq, map_map. unfold tab2, plane_pix. rewrite map_flat_map.
  apply flat_map_ext. intros y. rewrite map_map. reflexivity.
Qed.

Lemma tab3_tab2 : forall {A} n ny nx (f : nat -> nat -> nat -> A) (g : nat -> nat -> A),
  (forall i y x, (i < n)%nat -> (y < ny)%nat -> (x < nx)%nat -> f i y x = g i (y * nx + x)%nat) ->
  tab3 n ny nx f = tab2 n (ny * nx) g.
Proof.
  intros A n ny nx f g H. unfold tab3. unfold tab2 at 2. rewrite !flat_map_concat_map. f_equal.
  apply map_ext_in. intros i Hi. apply in_seq in Hi. rewrite <- tab2_seq. apply tab2_ext. intros. apply H; lia.
Qed.

Lemma at3_at2 : forall {A} ny nx (d : A) l j y x, at3 ny nx d l j y x = at2 (ny * nx) d l j (y * nx + x).
Proof. intros. unfold at3, at2. f_equal. lia. Qed.

Lemma pix_lt : forall ny nx y x, (y < ny)%nat -> (x < nx)%nat -> (y * nx + x < ny * nx)%nat.
Proof. intros. nia. Qed.

Lemma filter_map_len : forall {A B} (f : A -> B) (g : B -> bool) l,
  length (filter (fun x => g (f x)) l) = length (filter g (map f l)).
Proof. induction l; simpl; [reflexivity|]. destruct (g (f a)); simpl; congruence. Qed.

Lemma count_plane : forall (g : nat -> bool) (f : nat * nat -> bool) ny nx,
  (forall y x, f (y, x) = g (y * nx + x)%nat) ->
  length (filter f (plane_pix ny nx)) = length (filter g (seq 0 (ny * nx))).
Proof.
  intros. rewrite <- plane_pix_seq, <- filter_map_len. f_equal. apply filter_ext. intros [y x]. simpl. apply H.
Qed.

Lemma filter_len0 : forall {A} (g : A -> bool) l, Nat.eqb (length (filter g l)) 0 = negb (existsb g l).
Proof. induction l; simpl; [reflexivity|]. destruct (g a); simpl; auto. Qed.

(* -------------------------------------------------------------- synthesis *)

Section Old.
  Variables (n ny nx : nat) (Q U : list (option R)) (l2 phi w0 : list R) (lam0in : option R).
  Hypothesis Hn : n = length l2.
  Let m := (ny * nx)%nat.

  Lemma o_pC_eq : forall j y x, o_pC ny nx Q U w0 j y x = pC m Q U w0 j (y * nx + x).
  Proof. intros. unfold o_pC, pC. now rewrite !at3_at2. Qed.

  Lemma o_weff_eq : o_weff n ny nx Q U w0 = w_eff n m Q U w0.
  Proof.
    unfold o_weff, w_eff. apply map_ext. intros j. unfold o_live.
    rewrite (count_plane (fun p => is_some (pC m Q U w0 j p))) by (intros; simpl; now rewrite o_pC_eq).
    rewrite filter_len0. fold m. unfold plane_ok.
    destruct (existsb _ _); simpl; ring.
  Qed.

  Lemma o_lam0_eq : o_lam0 n ny nx Q U l2 w0 lam0in = lam0_used n m Q U l2 w0 lam0in.
  Proof. unfold o_lam0, lam0_used. now rewrite o_weff_eq. Qed.

  Lemma o_K_eq : forall y x, o_K n ny nx Q U w0 y x = K_pix n m Q U w0 (y * nx + x).
  Proof.
    intros. unfold o_K, K_pix. f_equal. apply rsum_map_ext. intros j _. rewrite o_pC_eq, o_weff_eq.
    destruct (is_some _); ring.
  Qed.

  Lemma o_FDF_eq : forall i y x, (i < length phi)%nat -> (y < ny)%nat -> (x < nx)%nat ->
    o_FDF n ny nx Q U l2 (map Ropp (rev phi)) w0 lam0in i y x =
    nth i (FDF_pix n m Q U l2 phi w0 lam0in (y * nx + x)) (RtoC 0).
  Proof.
    intros i y x Hi Hy Hx. unfold o_FDF. rewrite o_K_eq, o_lam0_eq.
    unfold FDF_pix. set (l0 := lam0_used _ _ _ _ _ _ _). unfold nufft1d3. rewrite !map_map.
    set (F := fun _ : R => (_ * _)%C). rewrite nth_indep with (d' := F 0) by (rewrite map_length, rev_length; auto).
    rewrite map_nth. unfold F.
    rewrite nth_indep with (d := 0) (d' := Ropp 0) by (rewrite map_length, rev_length; auto).
    rewrite map_nth. rewrite Cmult_comm. f_equal.
    rewrite (list_as_seq l2 0) at 1. rewrite map_map, <- Hn, combine_map_same, map_map. simpl.
    apply csum_map_ext. intros j Hj. rewrite o_pC_eq. f_equal. f_equal. ring.
  Qed.

  Lemma o_zero_eq : forall y x, (y < ny)%nat -> (x < nx)%nat ->
    o_zero n ny nx Q U l2 (map Ropp (rev phi)) w0 lam0in y x = zero_pix n m Q U l2 phi w0 lam0in (y * nx + x).
  Proof.
    intros y x Hy Hx. unfold o_zero, zero_pix. rewrite map_length, rev_length.
    set (P := FDF_pix n m Q U l2 phi w0 lam0in (y * nx + x)).
    assert (L : length P = length phi).
    { unfold P, FDF_pix, nufft1d3. now rewrite !map_length, rev_length. }
    rewrite (list_as_seq P (RtoC 0)), L.
    assert (G : forall f g l, (forall i : nat, In i l -> f i = g i) -> forallb f l = forallb g l).
    { intros f g l H. induction l; simpl; [reflexivity|]. rewrite H by now left. rewrite IHl; [reflexivity|].
      intros; apply H; now right. }
    transitivity (forallb (fun i => Ceqb (nth i P (RtoC 0)) (RtoC 0)) (seq 0 (length phi))).
    - apply G. intros i Hi. apply in_seq in Hi. now rewrite o_FDF_eq by (auto; lia).
    - generalize (seq 0 (length phi)). intros l. induction l; simpl; [reflexivity|]. now rewrite IHl.
  Qed.
End Old.

Lemma image_axes_npix : forall sh, (length sh <= 3)%nat ->
  (fst (image_axes sh) * snd (image_axes sh) = prodn (tl sh))%nat.
Proof.
  intros [|a [|b [|c [|d sh]]]]; simpl; intros; try lia.
Qed.

Lemma squeeze_axes : forall {A} k sh (l : list A), (length sh <= 3)%nat ->
  squeeze (mk_nd [k; fst (image_axes sh); snd (image_axes sh)] l) =
  squeeze (mk_nd (k :: (if Nat.eqb (length sh) 3 then tl sh else [prodn (tl sh)])) l).
Proof.
  intros A k [|a [|b [|c [|d sh]]]] l; simpl; intros H; try lia; unfold squeeze; simpl; try reflexivity.
  rewrite Nat.mul_1_r. now destruct (Nat.eqb b 1), (Nat.eqb k 1).
Qed.

Lemma squeeze_axes2 : forall {A} sh (l : list A), (length sh <= 3)%nat ->
  squeeze (mk_nd [fst (image_axes sh); snd (image_axes sh)] l) =
  squeeze (mk_nd (if Nat.eqb (length sh) 3 then tl sh else [prodn (tl sh)]) l).
Proof.
  intros A [|a [|b [|c [|d sh]]]] l; simpl; intros H; try lia; unfold squeeze; simpl; try reflexivity.
  rewrite Nat.mul_1_r. now destruct (Nat.eqb b 1).
Qed.

(** The current routine evaluates the direct sum on the reversed, negated
    grid: whatever the grid. *)
Theorem planes_is_old : forall dataQ dataU l2 phi wA lam0in,
  do_rmsynth_planes dataQ dataU l2 phi wA lam0in =
  do_rmsynth_planes_old dataQ dataU l2 (map Ropp (rev phi)) wA lam0in.
Proof.
  intros. unfold do_rmsynth_planes, do_rmsynth_planes_old.
  set (w0 := prep_weights (length l2) wA).
  destruct (negb (Nat.eqb (length w0) (length l2))); [reflexivity|].
  destruct (negb _); [reflexivity|].
  destruct (Nat.leb (length (shape dataQ)) 3) eqn:E3; [|reflexivity]. apply Nat.leb_le in E3.
  simpl negb. cbv iota. destruct (negb _); [reflexivity|].
  rewrite map_length, rev_length. rewrite squeeze_axes by auto.
  f_equal. rewrite <- (image_axes_npix _ E3).
  set (ny := fst (image_axes (shape dataQ))). set (nx := snd (image_axes (shape dataQ))).
  f_equal.
  - f_equal. f_equal. symmetry. apply tab3_tab2. intros i y x Hi Hy Hx.
    unfold o_cell, out_cell. rewrite o_zero_eq by auto. now rewrite o_FDF_eq by auto.
  - symmetry. apply o_lam0_eq.
Qed.

Lemma antisym_rev : forall phi, antisym phi -> map Ropp (rev phi) = phi.
Proof.
  intros phi A. apply nth_ext with (d := Ropp 0) (d' := 0); [now rewrite map_length, rev_length|].
  rewrite map_length, rev_length. intros k Hk. rewrite map_nth, rev_nth by lia.
  replace (length phi - S k)%nat with (length phi - 1 - k)%nat by lia. rewrite A by auto. ring.
Qed.

Theorem planes_old_antisym : forall dataQ dataU l2 phi wA lam0in, antisym phi ->
  do_rmsynth_planes dataQ dataU l2 phi wA lam0in = do_rmsynth_planes_old dataQ dataU l2 phi wA lam0in.
Proof. intros. rewrite planes_is_old. now rewrite antisym_rev. Qed.

(* ------------------------------------------------------------------ RMSF *)

Section OldR.
  Variables (n ny nx : nat) (msk : list bool) (l2 phi2 w0 : list R) (lam0in : option R).
  Hypothesis Hn : n = length l2.
  Let m := (ny * nx)%nat.

  Lemma or_xySum_eq : forall j, or_xySum ny nx msk j = xySum m msk j.
  Proof. intros. unfold or_xySum, xySum. apply count_plane. intros. unfold mskd. simpl. apply at3_at2. Qed.

  Lemma or_weff_eq : or_weff n ny nx msk w0 = rw_eff n m msk w0.
  Proof.
    unfold or_weff, rw_eff. apply map_ext. intros j. rewrite or_xySum_eq.
    unfold m. rewrite (Nat.mul_comm nx ny). destruct (Nat.eqb _ _); ring.
  Qed.

  Lemma or_one_d_eq : or_one_d n ny nx msk = do1Dcalc n m msk.
  Proof.
    unfold or_one_d, do1Dcalc. unfold m. rewrite (Nat.mul_comm nx ny).
    generalize (seq 0 n). intros l. induction l; simpl; [reflexivity|]. now rewrite IHl, or_xySum_eq.
  Qed.

  Lemma or_lam0_eq : or_lam0 n ny nx msk l2 w0 lam0in = rlam0 n m msk l2 w0 lam0in.
  Proof. unfold or_lam0, rlam0. now rewrite or_weff_eq. Qed.

  Lemma or_1d_eq : forall i, (i < length phi2)%nat ->
    or_1d n ny nx msk l2 phi2 w0 lam0in i = nth i (rmsf_1d n m msk l2 phi2 w0 lam0in) None.
  Proof.
    intros i Hi. unfold or_1d, rmsf_1d. rewrite or_lam0_eq, or_weff_eq.
    set (F := fun f : R => match _ with Some l => _ | None => None end).
    rewrite nth_indep with (d' := F 0) by (now rewrite map_length). rewrite map_nth. unfold F.
    destruct (rlam0 _ _ _ _ _ _) as [l0|]; [|reflexivity]. destruct (Req_EM_T _ 0); [reflexivity|].
    f_equal. f_equal. set (w := rw_eff n m msk w0).
    assert (Lw : length w = n) by (unfold w, rw_eff; now rewrite map_length, seq_length).
    rewrite (list_as_seq w 0) at 1. rewrite (list_as_seq l2 0) at 1. rewrite Lw, <- Hn, combine_map_same, map_map.
    reflexivity.
  Qed.

  Lemma or_K_eq : forall y x, or_K n ny nx msk w0 y x = rK_pix n m msk w0 (y * nx + x).
  Proof.
    intros. unfold or_K, rK_pix. f_equal. apply rsum_map_ext. intros j _. rewrite or_weff_eq. unfold mskd.
    rewrite at3_at2. fold m. destruct (at2 _ _ _ _ _); ring.
  Qed.

  Lemma or_pix_eq : forall i y x, antisym phi2 -> (i < length phi2)%nat ->
    or_pix n ny nx msk l2 phi2 w0 lam0in i y x = nth i (rmsf_pix n m msk l2 phi2 w0 lam0in (y * nx + x)) None.
  Proof.
    intros i y x A Hi. unfold or_pix, rmsf_pix. rewrite or_lam0_eq.
    destruct (rlam0 _ _ _ _ _ _) as [l0|].
    2:{ set (F := fun _ : R => @None C). rewrite nth_indep with (d' := F 0) by (now rewrite map_length).
        now rewrite map_nth. }
    unfold nufft1d3. rewrite !map_map.
    set (F := fun _ : R => Some _). rewrite nth_indep with (d' := F 0) by (now rewrite map_length, rev_length).
    rewrite map_nth. unfold F. f_equal. rewrite or_K_eq. rewrite Cmult_comm. f_equal.
    rewrite (list_as_seq l2 0) at 1. rewrite map_map, <- Hn, combine_map_same, map_map. simpl.
    apply csum_map_ext. intros j Hj. rewrite or_weff_eq. unfold mskd. rewrite at3_at2. fold m.
    rewrite rev_nth by auto. replace (length phi2 - S i)%nat with (length phi2 - 1 - i)%nat by lia.
    rewrite A by auto. f_equal; [|f_equal; ring]. f_equal. destruct (at2 _ _ _ _ _); ring.
  Qed.
End OldR.

(** What the reference returns, from what the current routine returns: no
    reference wavelength, and axes of length one removed. *)
Definition as_old (r : rmsf_ret) : old_rmsf_ret :=
  match r with
  | RetNones => ORNones
  | PyRaise => ORRaise
  | RetOk r => OROk (mk_oldr (squeeze (RMSFcube r)) (phi2Arr r) (squeeze (fwhmRMSFArr r)) (squeeze (statArr r)))
  end.

Lemma rmsf_1d_len : forall n m msk l2 phi2 w0 L, length (rmsf_1d n m msk l2 phi2 w0 L) = length phi2.
Proof. intros. unfold rmsf_1d. now rewrite map_length. Qed.
Lemma rmsf_pix_len : forall n m msk l2 phi2 w0 L p, length (rmsf_pix n m msk l2 phi2 w0 L p) = length phi2.
Proof. intros. unfold rmsf_pix, nufft1d3. destruct (rlam0 _ _ _ _ _ _); rewrite ?map_length, ?rev_length; reflexivity. Qed.

Lemma squeeze_twice : forall {A} (a : nd A), squeeze (squeeze a) = squeeze a.
Proof.
  intros A [s l]. unfold squeeze. simpl. f_equal. induction s; simpl; [reflexivity|].
  destruct (Nat.eqb a 1) eqn:E; simpl; rewrite ?E; simpl; congruence.
Qed.

Lemma squeeze_flat : forall {A} (s s' : list nat) (l : list A),
  squeeze (mk_nd s (flat (squeeze (mk_nd s' l)))) = squeeze (mk_nd s l).
Proof. reflexivity. Qed.

Theorem rmsf_is_old : forall fit l2 phi wA mskArr lam0in double fitRMSF,
  antisym phi ->
  get_rmsf_planes_old fit l2 phi wA mskArr lam0in double fitRMSF =
  as_old (get_rmsf_planes fit l2 phi wA mskArr lam0in double fitRMSF).
Proof.
  intros fit l2 phi wA mskArr lam0in double fitRMSF A. unfold get_rmsf_planes_old, get_rmsf_planes.
  destruct (phi2_grid double phi) as [phi2|] eqn:G; [|reflexivity].
  assert (A2 : antisym phi2) by (eapply phi2_antisym; eauto).
  set (w0 := prep_weights (length l2) wA).
  set (msk := match mskArr with None => _ | Some a => a end).
  destruct (negb (Nat.eqb (length w0) (length l2))); [reflexivity|].
  destruct (Nat.leb (length (shape msk)) 3) eqn:E3; [|reflexivity]. apply Nat.leb_le in E3.
  simpl negb. cbv iota. destruct (negb _); [reflexivity|].
  destruct l2 as [|l2h l2t]; [reflexivity|]. cbv iota. set (l2 := l2h :: l2t) in *. clearbody l2. clear l2h l2t.
  unfold as_old. cbn [RMSFcube phi2Arr fwhmRMSFArr statArr].
  rewrite <- (image_axes_npix _ E3).
  set (ny := fst (image_axes (shape msk))). set (nx := snd (image_axes (shape msk))).
  assert (D : or_one_d (length l2) ny nx (flat msk) = do1Dcalc (length l2) (ny * nx) (flat msk)) by apply or_one_d_eq.
  rewrite D.
  set (spec := fun p : nat => if do1Dcalc (length l2) (ny * nx) (flat msk)
    then rmsf_1d (length l2) (ny * nx) (flat msk) l2 phi2 w0 lam0in
    else rmsf_pix (length l2) (ny * nx) (flat msk) l2 phi2 w0 lam0in p).
  set (val := fun i y x : nat => if do1Dcalc (length l2) (ny * nx) (flat msk)
    then or_1d (length l2) ny nx (flat msk) l2 phi2 w0 lam0in i
    else or_pix (length l2) ny nx (flat msk) l2 phi2 w0 lam0in i y x).
  assert (V : forall i y x, (i < length phi2)%nat -> val i y x = nth i (spec (y * nx + x)%nat) None).
  { intros i y x Hi. unfold val, spec. destruct (do1Dcalc _ _ _); [now apply or_1d_eq|now apply or_pix_eq]. }
  assert (L : forall p, length (spec p) = length phi2).
  { intros. unfold spec. destruct (do1Dcalc _ _ _); [apply rmsf_1d_len|apply rmsf_pix_len]. }
  assert (W : forall y x, map (fun i => val i y x) (seq 0 (length phi2)) = spec (y * nx + x)%nat).
  { intros y x. rewrite (list_as_seq (spec (y * nx + x)%nat) None), L. apply map_ext_in. intros i Hi.
    apply in_seq in Hi. apply V. lia. }
  set (fr := fun p : nat => if fitRMSF then match fit phi2 (spec p) with
      | Some (st, fw) => if Z.ltb st 1 then ((-1)%Z, fwhm_analytic l2) else (st, Some fw)
      | None => ((-1)%Z, fwhm_analytic l2) end else ((-1)%Z, fwhm_analytic l2)).
  set (fo := fun y x : nat => if fitRMSF then
      match fit phi2 (map (fun i => val i y x) (seq 0 (length phi2))) with
      | Some (st, fw) => if Z.ltb st 1 then ((-1)%Z, fwhm_analytic l2) else (st, Some fw)
      | None => ((-1)%Z, fwhm_analytic l2) end else ((-1)%Z, fwhm_analytic l2)).
  assert (F : forall y x, fo y x = fr (y * nx + x)%nat).
  { intros. unfold fo, fr. now rewrite W. }
  f_equal. f_equal.
  - rewrite (tab3_tab2 _ ny nx val (fun k p => nth k (spec p) None)) by (intros; apply V; auto).
    unfold ny, nx. rewrite squeeze_axes by auto. fold ny nx.
    destruct (Nat.eqb (length (shape msk)) 3) eqn:E.
    + cbn [app]. now rewrite squeeze_flat.
    + rewrite squeeze_twice. rewrite <- (image_axes_npix _ E3). reflexivity.
  - transitivity (squeeze (mk_nd [ny; nx] (map (fun p => snd (fr p)) (seq 0 (ny * nx))))).
    { f_equal. f_equal. rewrite <- tab2_seq. apply tab2_ext. intros y x _ _. now rewrite <- (F y x). }
    unfold ny at 1, nx at 1. rewrite squeeze_axes2 by auto.
    destruct (Nat.eqb (length (shape msk)) 3) eqn:E.
    + cbn [app]. now rewrite squeeze_flat.
    + rewrite squeeze_twice. rewrite <- (image_axes_npix _ E3). reflexivity.
  - transitivity (squeeze (mk_nd [ny; nx] (map (fun p => fst (fr p)) (seq 0 (ny * nx))))).
    { f_equal. f_equal. rewrite <- tab2_seq. apply tab2_ext. intros y x _ _. now rewrite <- (F y x). }
    unfold ny at 1, nx at 1. rewrite squeeze_axes2 by auto.
    destruct (Nat.eqb (length (shape msk)) 3) eqn:E.
    + cbn [app]. now rewrite squeeze_flat.
    + rewrite squeeze_twice. rewrite <- (image_axes_npix _ E3). reflexivity.
Qed.
