(** More lemmas about RM-synthesis: flags, weights, pixels, reference
    wavelength, thin sources. *)
From Coq Require Import Reals List Arith ZArith Lia Lra Bool.
Set Warnings "-ambiguous-paths".
From Coquelicot Require Import Coquelicot.
From Verif Require Import CBase NdArray Interp_Model Synth_Model Synth_Spec Synth_Proofs.
Import ListNotations.
Local Open Scope R_scope.

(** The output cell only depends on the good channels and lam0. *)
Lemma out_cell_chans : forall n m Q U l2 phi w0 L n' m' Q' U' l2' w0' L' k p p',
  n = length l2 -> n' = length l2' -> (k < length phi)%nat -> (p < m)%nat -> (p' < m')%nat ->
  pixel_chans n m Q U l2 w0 p = pixel_chans n' m' Q' U' l2' w0' p' ->
  lam0_used n m Q U l2 w0 L = lam0_used n' m' Q' U' l2' w0' L' ->
  out_cell n m Q U l2 phi w0 L k p = out_cell n' m' Q' U' l2' phi w0' L' k p'.
Proof.
  intros. unfold out_cell, zero_pix. rewrite !FDF_pix_eq by auto. now rewrite H4, H5.
Qed.

(* ---------------------------------------------------------------- C05 *)


Lemma column_chans : forall Q U n l2 w0 p m,
  m = npix Q -> npix U = npix Q ->
  pixel_chans n 1 (flat (column Q n p)) (flat (column U n p)) l2 w0 0 =
  pixel_chans n m (flat Q) (flat U) l2 w0 p.
Proof.
  intros. subst m. unfold pixel_chans. rewrite !flat_map_concat_map. f_equal. apply map_ext_in.
  intros j Hj. apply in_seq in Hj. unfold column; cbn [flat].
  rewrite !nth_map_seq by lia. unfold at2. rewrite H0.
  replace (0 + (j * 1 + 0))%nat with j by lia. reflexivity.
Qed.

Theorem synth_pixel_alone : forall dataQ dataU l2 phi wA lam0in p,
  valid_synth dataQ dataU l2 wA -> (p < npix dataQ)%nat ->
  exists r r1,
    do_rmsynth_planes dataQ dataU l2 phi wA lam0in = Some r /\
    do_rmsynth_planes (column dataQ (length l2) p) (column dataU (length l2) p) l2 phi wA
                      (Some (synth_lam0 r)) = Some r1 /\
    synth_lam0 r1 = synth_lam0 r /\
    forall k, (k < length phi)%nat ->
      at2 (npix dataQ) None (flat (FDFcube r)) k p = nth k (flat (FDFcube r1)) None.
Proof.
  intros dataQ dataU l2 phi wA lam0in p V Hp.
  assert (V1 : valid_synth (column dataQ (length l2) p) (column dataU (length l2) p) l2 wA).
  { destruct V as (A & B & D & E). repeat split; auto; simpl; lia. }
  do 2 eexists. split; [now apply do_rmsynth_eq|]. split; [now apply do_rmsynth_eq|].
  cbn [synth_lam0 FDFcube squeeze flat]. split; [reflexivity|].
  intros k Hk. rewrite at2_tab2 by auto.
  change (npix (column dataQ (length l2) p)) with 1%nat.
  transitivity (at2 1 None (tab2 (length phi) 1
     (out_cell (length l2) 1 (flat (column dataQ (length l2) p)) (flat (column dataU (length l2) p)) l2 phi
        (prep_weights (length l2) wA)
        (Some (lam0_used (length l2) (npix dataQ) (flat dataQ) (flat dataU) l2 (prep_weights (length l2) wA) lam0in)))) k 0).
  - rewrite at2_tab2 by lia. apply out_cell_chans; auto.
    symmetry. apply column_chans; auto. unfold npix. destruct V as [-> _]. reflexivity.
  - unfold at2. f_equal. lia.
Qed.


Lemma plane_ok_iff : forall dQ dU w0 j,
  plane_ok (npix dQ) (flat dQ) (flat dU) w0 j = true <-> ~ plane_flagged dQ dU j.
Proof.
  intros. unfold plane_ok. rewrite existsb_exists. unfold plane_flagged, pC, pcell. split.
  - intros (p & Hp & E) F. apply in_seq in Hp. destruct (F p) as [H|H]; [lia| |]; rewrite H in E; [discriminate|].
    destruct (at2 _ _ (flat dQ) j p); discriminate.
  - intros NF.
    destruct (existsb (fun p => is_some (pC (npix dQ) (flat dQ) (flat dU) w0 j p)) (seq 0 (npix dQ))) eqn:E.
    + apply existsb_exists in E. exact E.
    + exfalso. apply NF. intros p Hp.
      destruct (at2 (npix dQ) None (flat dQ) j p) as [q|] eqn:EQ; [|now left].
      destruct (at2 (npix dQ) None (flat dU) j p) as [u|] eqn:EU; [|now right].
      exfalso. assert (existsb (fun p => is_some (pC (npix dQ) (flat dQ) (flat dU) w0 j p)) (seq 0 (npix dQ)) = true); [|congruence].
      apply existsb_exists. exists p. split; [apply in_seq; lia|]. unfold pC. rewrite EQ, EU. reflexivity.
Qed.

Theorem synth_other_pixels : forall Q U Q' U' l2 phi wA lam0in p,
  valid_synth Q U l2 wA -> shape Q' = shape Q -> shape U' = shape U -> (p < npix Q)%nat ->
  (forall j, (j < length l2)%nat ->
     at2 (npix Q) None (flat Q) j p = at2 (npix Q) None (flat Q') j p /\
     at2 (npix Q) None (flat U) j p = at2 (npix Q) None (flat U') j p) ->
  (forall j, (j < length l2)%nat -> (plane_flagged Q U j <-> plane_flagged Q' U' j)) ->
  exists r r', do_rmsynth_planes Q U l2 phi wA lam0in = Some r /\
    do_rmsynth_planes Q' U' l2 phi wA lam0in = Some r' /\
    synth_lam0 r = synth_lam0 r' /\
    forall k, (k < length phi)%nat ->
      at2 (npix Q) None (flat (FDFcube r)) k p = at2 (npix Q) None (flat (FDFcube r')) k p.
Proof.
  intros Q U Q' U' l2 phi wA lam0in p V SQ SU Hp COL PL.
  assert (V' : valid_synth Q' U' l2 wA).
  { destruct V as (A & B & D & E). rewrite <- SQ in B, D. split; [congruence|]. auto. }
  assert (N : npix Q' = npix Q) by (unfold npix; now rewrite SQ).
  do 2 eexists. split; [now apply do_rmsynth_eq|]. split; [now apply do_rmsynth_eq|].
  cbn [synth_lam0 FDFcube squeeze flat].
  assert (L0 : lam0_used (length l2) (npix Q) (flat Q) (flat U) l2 (prep_weights (length l2) wA) lam0in =
               lam0_used (length l2) (npix Q') (flat Q') (flat U') l2 (prep_weights (length l2) wA) lam0in).
  { unfold lam0_used. destruct lam0in; [reflexivity|]. f_equal. unfold w_eff. apply map_ext_in.
    intros j Hj. apply in_seq in Hj.
    assert (plane_ok (npix Q) (flat Q) (flat U) (prep_weights (length l2) wA) j =
            plane_ok (npix Q') (flat Q') (flat U') (prep_weights (length l2) wA) j) as ->; [|reflexivity].
    apply eq_true_iff_eq. rewrite !plane_ok_iff. rewrite PL by lia. reflexivity. }
  split; [exact L0|]. intros k Hk. rewrite at2_tab2 by auto. rewrite N, at2_tab2 by auto.
  rewrite N in L0. apply out_cell_chans; auto.
  unfold pixel_chans. rewrite !flat_map_concat_map. f_equal. apply map_ext_in. intros j Hj. apply in_seq in Hj.
  destruct (COL j) as [E1 E2]; [lia|]. unfold at2 in E1, E2. now rewrite E1, E2.
Qed.

(* ---------------------------------------------------------------- C03 *)



(** channels of a 1D spectrum, by recursion *)
Fixpoint chans1 (Q U : list cell) (l2 w : list R) : list chan :=
  match Q, U, l2, w with
  | q :: Q, u :: U, l :: l2, x :: w =>
      match q, u with
      | Some q, Some u => mk_chan l x (q, u) :: chans1 Q U l2 w
      | _, _ => chans1 Q U l2 w
      end
  | _, _, _, _ => []
  end.

Lemma flat_map_seq_shift : forall {A} (f : nat -> list A) n s,
  flat_map f (seq (S s) n) = flat_map (fun j => f (S j)) (seq s n).
Proof. intros A f n. induction n; intros; simpl; auto. now rewrite IHn. Qed.

Lemma pixel_chans_1d : forall Q U l2 w,
  length Q = length l2 -> length U = length l2 -> length w = length l2 ->
  pixel_chans (length l2) 1 Q U l2 w 0 = chans1 Q U l2 w.
Proof.
  intros Q U l2 w HQ HU Hw.
  assert (pixel_chans (length l2) 1 Q U l2 w 0 =
    flat_map (fun j => match nth j Q None, nth j U None with
      | Some q, Some u => [mk_chan (nth j l2 0) (nth j w 0) (q, u)] | _, _ => [] end) (seq 0 (length l2))) as ->.
  { unfold pixel_chans. rewrite !flat_map_concat_map. f_equal. apply map_ext. intros j.
    now replace (j * 1 + 0)%nat with j by lia. }
  revert Q U w HQ HU Hw. induction l2 as [|l l2 IH]; intros [|q Q] [|u U] [|x w] HQ HU Hw; simpl in *; try discriminate; auto.
  rewrite flat_map_seq_shift. rewrite IH by lia.
  destruct q, u; reflexivity.
Qed.

Lemma chans1_select : forall Q U l2 w,
  length Q = length l2 -> length U = length l2 -> length w = length l2 ->
  chans1 (select (good Q U) Q) (select (good Q U) U) (select (good Q U) l2) (select (good Q U) w) = chans1 Q U l2 w.
Proof.
  induction Q as [|q Q IH]; intros [|u U] [|l l2] [|x w] HQ HU Hw; simpl in *; try discriminate; auto.
  specialize (IH U l2 w ltac:(lia) ltac:(lia) ltac:(lia)).
  destruct q, u; simpl; fold (good Q U); rewrite IH; reflexivity.
Qed.

Lemma select_len : forall {A B} (keep : list bool) (l : list A) (l' : list B),
  length l = length l' -> length (select keep l) = length (select keep l').
Proof.
  induction keep as [|b ks IH]; intros [|x l] [|y l'] H; simpl in *; try discriminate; auto.
  destruct b; simpl; auto.
Qed.

Lemma select_map : forall {A B} (f : A -> B) keep l, select keep (map f l) = map f (select keep l).
Proof.
  induction keep as [|b ks IH]; intros [|x l]; simpl; auto. destruct b; simpl; now rewrite IH.
Qed.

Lemma select_repeat : forall {A B} (c : A) keep (l : list B),
  select keep (repeat c (length l)) = repeat c (length (select keep l)).
Proof.
  induction keep as [|b ks IH]; intros [|x l]; simpl; auto. destruct b; simpl; now rewrite IH.
Qed.

Lemma good_len : forall Q U n, length Q = n -> length U = n -> length (good Q U) = n.
Proof. intros. unfold good. rewrite map_length, combine_length. lia. Qed.

Lemma prep_select : forall keep (l2 : list R) wA,
  match wA with None => True | Some w => length (w : list (option R)) = length l2 end ->
  prep_weights (length (select keep l2)) (option_map (select keep) wA) =
  select keep (prep_weights (length l2) wA).
Proof.
  intros keep l2 [w|] H; simpl.
  - now rewrite select_map.
  - now rewrite select_repeat.
Qed.

(** weights and wavelengths of a 1D spectrum: live channels *)
Lemma live_chans1_w : forall Q U l2 w,
  length Q = length l2 -> length U = length l2 -> length w = length l2 ->
  wsum (live_chans (length l2) 1 Q U l2 w) = wsum (chans1 Q U l2 w) /\
  mean_l2 (live_chans (length l2) 1 Q U l2 w) = mean_l2 (chans1 Q U l2 w).
Proof.
  intros Q U l2 w HQ HU Hw.
  rewrite <- pixel_chans_1d by auto. unfold mean_l2.
  assert (W : wsum (live_chans (length l2) 1 Q U l2 w) = wsum (pixel_chans (length l2) 1 Q U l2 w 0)).
  { unfold wsum, live_chans, pixel_chans. rewrite !rsum_flat_map. apply rsum_map_ext. intros j _. simpl.
    destruct (nth (j * 1 + 0) Q None), (nth (j * 1 + 0) U None); reflexivity. }
  split; [exact W|]. rewrite W. f_equal.
  unfold live_chans, pixel_chans. rewrite !rsum_flat_map. apply rsum_map_ext. intros j _. simpl.
  destruct (nth (j * 1 + 0) Q None), (nth (j * 1 + 0) U None); reflexivity.
Qed.

Theorem synth_drop_flagged : forall Q U l2 phi wA lam0in,
  length Q = length l2 -> length U = length l2 ->
  match wA with None => True | Some w => length w = length l2 end ->
  let g := good Q U in
  do_rmsynth_planes (mk_nd [length l2] Q) (mk_nd [length l2] U) l2 phi wA lam0in =
  do_rmsynth_planes (mk_nd [length (select g l2)] (select g Q)) (mk_nd [length (select g l2)] (select g U))
     (select g l2) phi (option_map (select g) wA) lam0in.
Proof.
  intros Q U l2 phi wA lam0in HQ HU Hw g.
  assert (Hw' : match option_map (select g) wA with None => True | Some w => length w = length (select g l2) end).
  { destruct wA; simpl; auto. now apply select_len. }
  rewrite do_rmsynth_eq by (split; [reflexivity|]; simpl; repeat split; auto; lia).
  rewrite do_rmsynth_eq by (split; [reflexivity|]; simpl; repeat split; auto; lia).
  cbn [flat shape length npix tl prodn fold_right Nat.eqb]. change (npix _) with 1%nat. change (npix _) with 1%nat.
  assert (W : prep_weights (length (select g l2)) (option_map (select g) wA) = select g (prep_weights (length l2) wA))
    by now apply prep_select.
  rewrite W. set (w := prep_weights (length l2) wA).
  assert (Lw : length w = length l2) by now apply prep_len.
  assert (LQ : length (select g Q) = length (select g l2)) by now apply select_len.
  assert (LU : length (select g U) = length (select g l2)) by now apply select_len.
  assert (LW : length (select g w) = length (select g l2)) by now apply select_len.
  assert (L0 : lam0_used (length l2) 1 Q U l2 w lam0in =
     lam0_used (length (select g l2)) 1 (select g Q) (select g U) (select g l2) (select g w) lam0in).
  { unfold lam0_used. destruct lam0in; auto. rewrite !lam0_of_spec by auto.
    destruct (live_chans1_w Q U l2 w HQ HU Lw) as [A1 A2].
    destruct (live_chans1_w (select g Q) (select g U) (select g l2) (select g w) LQ LU LW) as [B1 B2].
    rewrite A1, A2, B1, B2. unfold g. rewrite chans1_select by auto. reflexivity. }
  rewrite <- L0. do 4 f_equal. apply tab2_ext. intros k p Hk Hp.
  apply out_cell_chans; auto.
  replace p with 0%nat by lia. rewrite !pixel_chans_1d by auto. unfold g. now rewrite chans1_select.
Qed.


Theorem synth_nan_weight : forall dataQ dataU l2 phi w lam0in,
  do_rmsynth_planes dataQ dataU l2 phi (Some w) lam0in =
  do_rmsynth_planes dataQ dataU l2 phi (Some (map nan_w_0 w)) lam0in.
Proof.
  intros. unfold do_rmsynth_planes.
  assert (prep_weights (length l2) (Some w) = prep_weights (length l2) (Some (map nan_w_0 w))) as ->; [|reflexivity].
  simpl. rewrite map_map. apply map_ext. intros [x|]; reflexivity.
Qed.

(* ---------------------------------------------------------------- C04 *)


Lemma nth_scale : forall c w j, nth j (map (Rmult c) w) 0 = c * nth j w 0.
Proof.
  intros c w. induction w; intros [|j]; simpl; try ring. apply IHw.
Qed.

Theorem synth_weight_scale : forall dataQ dataU l2 phi w lam0in c,
  valid_synth dataQ dataU l2 (Some w) -> c <> 0 ->
  do_rmsynth_planes dataQ dataU l2 phi (Some (map (scale_w c) w)) lam0in =
  do_rmsynth_planes dataQ dataU l2 phi (Some w) lam0in.
Proof.
  intros dataQ dataU l2 phi w lam0in c V Hc.
  assert (V' : valid_synth dataQ dataU l2 (Some (map (scale_w c) w))).
  { destruct V as (A & B & D & E). repeat split; auto; try lia. now rewrite map_length. }
  rewrite !do_rmsynth_eq by auto.
  assert (P : prep_weights (length l2) (Some (map (scale_w c) w)) = map (Rmult c) (prep_weights (length l2) (Some w))).
  { simpl. rewrite !map_map. apply map_ext. intros [x|]; simpl; ring. }
  rewrite P. set (w0 := prep_weights (length l2) (Some w)).
  set (n := length l2). set (m := npix dataQ). set (Q := flat dataQ). set (U := flat dataU).
  assert (OK : forall j, plane_ok m Q U (map (Rmult c) w0) j = plane_ok m Q U w0 j).
  { intros. unfold plane_ok. 
    assert (EX : forall f g : nat -> bool, (forall x, f x = g x) -> forall l, existsb f l = existsb g l).
    { intros f g H l. induction l; simpl; congruence. }
    apply EX. intros p. unfold pC, pcell.
    destruct (at2 m None Q j p), (at2 m None U j p); reflexivity. }
  assert (WE : w_eff n m Q U (map (Rmult c) w0) = map (Rmult c) (w_eff n m Q U w0)).
  { unfold w_eff. rewrite map_map. apply map_ext. intros j. rewrite OK, nth_scale.
    destruct (plane_ok m Q U w0 j); simpl; ring. }
  assert (RS : forall l, rsum (map (Rmult c) l) = c * rsum l).
  { intros. rewrite (rsum_map_scal (fun x => x)). now rewrite map_id. }
  assert (L0 : lam0_used n m Q U l2 (map (Rmult c) w0) lam0in = lam0_used n m Q U l2 w0 lam0in).
  { unfold lam0_used. destruct lam0in; auto. unfold lam0_of. rewrite WE, RS.
    assert (S2 : rsum (map (fun wl => fst wl * snd wl) (combine (map (Rmult c) (w_eff n m Q U w0)) l2)) =
       c * rsum (map (fun wl => fst wl * snd wl) (combine (w_eff n m Q U w0) l2))).
    { generalize (w_eff n m Q U w0) as v. generalize l2 as l. induction l as [|x l IH]; intros [|y v]; simpl;
        rewrite ?rsum_cons, ?rsum_nil; try ring. rewrite IH. ring. }
    rewrite S2. destruct (Req_EM_T (c * rsum _) 0) as [E|E], (Req_EM_T (rsum (w_eff n m Q U w0)) 0) as [E'|E']; auto.
    - apply Rmult_integral in E. tauto.
    - rewrite E' in E. rewrite Rmult_0_r in E. contradiction.
    - field. auto. }
  f_equal. rewrite L0. f_equal. do 2 f_equal. apply tab2_ext. intros k p Hk Hp.
  unfold out_cell, zero_pix.
  assert (FD : FDF_pix n m Q U l2 phi (map (Rmult c) w0) lam0in p = FDF_pix n m Q U l2 phi w0 lam0in p);
    [|now rewrite FD].
  rewrite !FDF_pix_eq by auto. rewrite L0. apply map_ext. intros f.
  assert (SC : pixel_chans n m Q U l2 (map (Rmult c) w0) p =
               map (fun ch => mk_chan (c_l2 ch) (c * c_w ch) (c_P ch)) (pixel_chans n m Q U l2 w0 p)).
  { unfold pixel_chans. rewrite !flat_map_concat_map, concat_map, map_map. f_equal. apply map_ext. intros j.
    destruct (nth (j * m + p) Q None), (nth (j * m + p) U None); simpl; auto. now rewrite nth_scale. }
  rewrite SC. set (chs := pixel_chans n m Q U l2 w0 p).
  assert (W : wsum (map (fun ch => mk_chan (c_l2 ch) (c * c_w ch) (c_P ch)) chs) = c * wsum chs).
  { unfold wsum. rewrite map_map. simpl. apply rsum_map_scal. }
  assert (RW : raw (map (fun ch => mk_chan (c_l2 ch) (c * c_w ch) (c_P ch)) chs)
     (lam0_used n m Q U l2 w0 lam0in) f = (RtoC c * raw chs (lam0_used n m Q U l2 w0 lam0in) f)%C).
  { unfold raw. rewrite map_map, <- csum_map_scal. apply csum_map_ext. intros ch _. simpl. rewrite RtoC_mult. ring. }
  rewrite W, RW. unfold inv_or_0.
  destruct (Req_EM_T (c * wsum chs) 0) as [E|E], (Req_EM_T (wsum chs) 0) as [E'|E'].
  - ring.
  - apply Rmult_integral in E. tauto.
  - rewrite E', Rmult_0_r in E. contradiction.
  - replace (1 / (c * wsum chs)) with ((1 / c) * (1 / wsum chs)) by (field; auto).
    rewrite RtoC_mult. replace (RtoC c * raw chs (lam0_used n m Q U l2 w0 lam0in) f * (RtoC (1 / c) * RtoC (1 / wsum chs)))%C
      with ((RtoC c * RtoC (1 / c)) * (raw chs (lam0_used n m Q U l2 w0 lam0in) f * RtoC (1 / wsum chs)))%C by ring.
    rewrite <- RtoC_mult. replace (c * (1 / c)) with 1 by (field; auto). ring.
Qed.

(* ---------------------------------------------------------------- C06 *)

Lemma raw_shift : forall chs a b f, raw chs b f = (cis (2 * f * (a - b)) * raw chs a f)%C.
Proof.
  intros. unfold raw. rewrite <- csum_map_scal. apply csum_map_ext. intros c _.
  replace (2 * f * (c_l2 c - b)) with (2 * f * (a - b) + 2 * f * (c_l2 c - a)) by ring.
  rewrite cis_plus. ring.
Qed.

Theorem synth_lam0_phase : forall dataQ dataU l2 phi wA a b,
  valid_synth dataQ dataU l2 wA -> antisym phi ->
  exists ra rb,
    do_rmsynth_planes dataQ dataU l2 phi wA (Some a) = Some ra /\
    do_rmsynth_planes dataQ dataU l2 phi wA (Some b) = Some rb /\
    forall k p, (k < length phi)%nat -> (p < npix dataQ)%nat ->
      at2 (npix dataQ) None (flat (FDFcube rb)) k p =
      option_map (fun z => cis (2 * nth k phi 0 * (b - a)) * z)%C (at2 (npix dataQ) None (flat (FDFcube ra)) k p).
Proof.
  intros dataQ dataU l2 phi wA a b V A.
  do 2 eexists. split; [now apply do_rmsynth_eq|]. split; [now apply do_rmsynth_eq|].
  intros k p Hk Hp. cbn [FDFcube squeeze flat]. rewrite !at2_tab2 by auto.
  set (oc L := out_cell (length l2) (npix dataQ) (flat dataQ) (flat dataU) l2 phi (prep_weights (length l2) wA) L k p).
  fold (oc (Some a)) (oc (Some b)).
  assert (BL : oc (Some a) = None <-> oc (Some b) = None).
  { unfold oc. rewrite !out_cell_blank by auto. cbn [lam0_used]. split; intros H f Hf; specialize (H f Hf).
    - rewrite (raw_shift _ a b).
      match goal with |- (?x * ?y * ?z)%C = _ => replace (x * y * z)%C with (x * (y * z))%C by ring end. rewrite H. ring.
    - rewrite (raw_shift _ b a).
      match goal with |- (?x * ?y * ?z)%C = _ => replace (x * y * z)%C with (x * (y * z))%C by ring end. rewrite H. ring. }
  pose proof (out_cell_val (length l2) (npix dataQ) (flat dataQ) (flat dataU) l2 phi (prep_weights (length l2) wA) (Some a) eq_refl k p Hk Hp) as Ea.
  pose proof (out_cell_val (length l2) (npix dataQ) (flat dataQ) (flat dataU) l2 phi (prep_weights (length l2) wA) (Some b) eq_refl k p Hk Hp) as Eb.
  fold (oc (Some a)) in Ea. fold (oc (Some b)) in Eb.
  rewrite FDF_nth in Ea, Eb by auto. cbn [lam0_used] in Ea, Eb.
  destruct (oc (Some a)) as [za|], (oc (Some b)) as [zb|]; simpl in *.
  - rewrite Ea, Eb. f_equal. rewrite (raw_shift _ a b). rewrite A by auto.
    replace (2 * - nth k phi 0 * (a - b)) with (2 * nth k phi 0 * (b - a)) by ring. ring.
  - destruct BL as [_ BL]. now discriminate BL.
  - destruct BL as [BL _]. now discriminate BL.
  - reflexivity.
Qed.

(* ---------------------------------------------------------------- C02 *)

Lemma FDF_thin : forall chs l0 p psi RM phi,
  (forall c, In c chs -> c_P c = thin p psi RM (c_l2 c)) ->
  FDF_spec chs l0 phi = (RtoC p * cis (2 * (psi + RM * l0)) * RMSF_spec chs l0 (phi - RM))%C.
Proof.
  intros chs l0 p psi RM phi H. unfold FDF_spec, RMSF_spec, Cdiv.
  rewrite Cmult_assoc. f_equal. rewrite <- csum_map_scal. apply csum_map_ext. intros c Hc.
  rewrite (H c Hc). unfold thin.
  replace (2 * (psi + RM * c_l2 c)) with (2 * (psi + RM * l0) + 2 * RM * (c_l2 c - l0)) by ring.
  replace (-2 * (phi - RM) * (c_l2 c - l0)) with (-2 * phi * (c_l2 c - l0) + 2 * RM * (c_l2 c - l0)) by ring.
  rewrite !cis_plus. ring.
Qed.

Lemma Cmod_RtoC_pos : forall r, 0 <= r -> Cmod (RtoC r) = r.
Proof. intros. rewrite Cmod_R. now apply Rabs_pos_eq. Qed.

Lemma RMSF_le_1 : forall chs l0 phi,
  (forall c, In c chs -> 0 <= c_w c) -> 0 < wsum chs -> Cmod (RMSF_spec chs l0 phi) <= 1.
Proof.
  intros chs l0 phi Hw Hs. unfold RMSF_spec.
  rewrite Cmod_div by (apply RtoC_neq0; lra). rewrite Cmod_RtoC_pos by lra.
  apply Rle_trans with (wsum chs / wsum chs); [|right; field; lra].
  apply Rmult_le_compat_r; [left; now apply Rinv_0_lt_compat|].
  eapply Rle_trans; [apply Cmod_csum_le|]. unfold wsum. apply rsum_le. intros c Hc.
  rewrite Cmod_mult, Cmod_cis, Cmod_RtoC_pos by auto. lra.
Qed.

Lemma RMSF_at_0 : forall chs l0, wsum chs <> 0 -> RMSF_spec chs l0 0 = RtoC 1.
Proof.
  intros chs l0 H. unfold RMSF_spec.
  replace (csum (map (fun c => (RtoC (c_w c) * cis (-2 * 0 * (c_l2 c - l0)))%C) chs)) with (RtoC (wsum chs)).
  - field. now apply RtoC_neq0.
  - unfold wsum. rewrite <- csum_map_RtoC. apply csum_map_ext. intros c _.
    replace (-2 * 0 * (c_l2 c - l0)) with 0 by ring. rewrite cis_0. ring.
Qed.

Lemma RMSF_conj : forall chs l0 phi, RMSF_spec chs l0 (- phi) = Cconj (RMSF_spec chs l0 phi).
Proof.
  intros. unfold RMSF_spec, Cdiv. rewrite Cconj_mult', Cconj_csum. f_equal.
  - apply csum_map_ext. intros c _. rewrite Cconj_mult', Cconj_RtoC', <- cis_opp. do 2 f_equal. ring.
  - destruct (Req_dec (wsum chs) 0) as [->|Hw].
    + unfold Cinv, Cconj; simpl. f_equal. unfold Rdiv. rewrite Ropp_0. ring.
    + rewrite <- RtoC_inv by auto. now rewrite Cconj_RtoC'.
Qed.

Lemma pixel_chans_In : forall n m Q U l2 w p c, In c (pixel_chans n m Q U l2 w p) ->
  exists j q u, (j < n)%nat /\ nth (j * m + p) Q None = Some q /\ nth (j * m + p) U None = Some u /\
    c = mk_chan (nth j l2 0) (nth j w 0) (q, u).
Proof.
  intros n m Q U l2 w p c H. unfold pixel_chans in H. apply in_flat_map in H. destruct H as (j & Hj & H).
  apply in_seq in Hj. destruct (nth (j * m + p) Q None) as [q|] eqn:EQ; [|destruct H].
  destruct (nth (j * m + p) U None) as [u|] eqn:EU; [|destruct H].
  destruct H as [<-|[]]. exists j, q, u. repeat split; auto. lia.
Qed.



Lemma prep_nonneg : forall n wA j, nonneg_w wA -> 0 <= nth j (prep_weights n wA) 0.
Proof.
  intros n wA j H. destruct (nth_in_or_default j (prep_weights n wA) 0) as [I|E]; [|lra].
  revert I. generalize (nth j (prep_weights n wA) 0) as v. intros v I.
  destruct wA as [w|]; simpl in I.
  - apply in_map_iff in I. destruct I as ([x|] & <- & I); [now apply H|lra].
  - apply repeat_spec in I. rewrite I. lra.
Qed.

Theorem synth_thin_source : forall dataQ dataU l2 phi wA lam0in p amp psi RM,
  valid_synth dataQ dataU l2 wA -> antisym phi -> nonneg_w wA -> 0 <= amp ->
  (p < npix dataQ)%nat -> thin_pixel dataQ dataU l2 p amp psi RM ->
  let chs := pixel_chans (length l2) (npix dataQ) (flat dataQ) (flat dataU) l2 (weights_of (length l2) wA) p in
  0 < wsum chs ->
  exists r, do_rmsynth_planes dataQ dataU l2 phi wA lam0in = Some r /\
    let F k := at2 (npix dataQ) None (flat (FDFcube r)) k p in
    (forall k z, (k < length phi)%nat -> F k = Some z ->
       z = (RtoC amp * cis (2 * (psi + RM * synth_lam0 r)) * RMSF_spec chs (synth_lam0 r) (nth k phi 0 - RM))%C
       /\ Cmod z <= amp) /\
    (forall k, (k < length phi)%nat -> nth k phi 0 = RM -> 0 < amp ->
       exists z, F k = Some z /\ z = (RtoC amp * cis (2 * (psi + RM * synth_lam0 r)))%C /\ Cmod z = amp).
Proof.
  intros dataQ dataU l2 phi wA lam0in p amp psi RM V A NW Ha Hp T chs Hs.
  destruct (synth_refines dataQ dataU l2 phi wA lam0in V A) as (r & E & _ & REF).
  exists r. split; [exact E|]. cbv zeta.
  assert (TH : forall c, In c chs -> c_P c = thin amp psi RM (c_l2 c)).
  { intros c Hc. apply pixel_chans_In in Hc. destruct Hc as (j & q & u & Hj & E1 & E2 & ->). simpl. now apply T. }
  assert (WN : forall c, In c chs -> 0 <= c_w c).
  { intros c Hc. apply pixel_chans_In in Hc. destruct Hc as (j & q & u & Hj & E1 & E2 & ->). simpl. now apply prep_nonneg. }
  split.
  - intros k z Hk Hz. destruct (REF k p Hk Hp) as [_ R2]. destruct (R2 ltac:(fold chs; lra)) as [_ R3].
    apply R3 in Hz. fold chs in Hz. subst z. rewrite (FDF_thin chs _ amp psi RM _ TH). split; [reflexivity|].
    rewrite !Cmod_mult, Cmod_cis, Cmod_RtoC_pos by auto.
    pose proof (RMSF_le_1 chs (synth_lam0 r) (nth k phi 0 - RM) WN Hs).
    pose proof (Cmod_ge_0 (RMSF_spec chs (synth_lam0 r) (nth k phi 0 - RM))). nra.
  - intros k Hk HRM Hamp. destruct (REF k p Hk Hp) as [_ R2]. destruct (R2 ltac:(fold chs; lra)) as [R1 R3].
    assert (EZ : FDF_spec chs (synth_lam0 r) RM = (RtoC amp * cis (2 * (psi + RM * synth_lam0 r)))%C).
    { rewrite (FDF_thin chs _ amp psi RM _ TH). replace (RM - RM) with 0 by ring.
      rewrite RMSF_at_0 by lra. ring. }
    assert (MZ : Cmod (RtoC amp * cis (2 * (psi + RM * synth_lam0 r)))%C = amp).
    { rewrite Cmod_mult, Cmod_cis, Cmod_RtoC_pos by auto. ring. }
    destruct (at2 (npix dataQ) None (flat (FDFcube r)) k p) as [z|] eqn:EC.
    + exists z. split; [reflexivity|]. specialize (R3 z eq_refl). fold chs in R3. rewrite HRM, EZ in R3. rewrite R3. auto.
    + exfalso. destruct R1 as [R1 _]. specialize (R1 eq_refl RM). fold chs in R1. rewrite EZ in R1.
      assert (In RM phi) by (rewrite <- HRM; now apply nth_In).
      specialize (R1 H). rewrite R1, Cmod_0 in MZ. lra.
Qed.
