(** What the FITS helpers do not do. *)
From Coq Require Import Reals List Arith ZArith Bool Ascii String Lia Lra.
From Verif Require Import PyRes PyStr PyStr_Proofs PyList PyList_Proofs NdArray NdIndex Setup_Model Setup_Proofs Run1D_Fits Measure_Model Synth_Model Cube_Model Icube_Model Header_Model Header_Spec Header_Proofs Fits_Model Fits_Spec Fits_Proofs Fits_Sub.
Import ListNotations.
Local Open Scope nat_scope.

Definition card (k : string) (n : Z) : str * hval := (s k, HInt n).
(** a cube with the rotation of the standard *)
Definition e_head3 : fheader :=
  [card "NAXIS" 3; card "NAXIS1" 10; card "NAXIS2" 3; card "NAXIS3" 4; card "CRPIX1" 1; card "CRVAL1" 0; card "CRPIX2" 1; card "CRVAL2" 0; card "CRPIX3" 1; card "CRVAL3" 0; card "PC1_3" 1; card "PC3_3" 1; card "CD3_3" 1; card "OBSERVER" 7].
Definition e_head2 : fheader :=
  [card "NAXIS" 2; card "NAXIS1" 10; card "NAXIS2" 3; card "CRPIX1" 1; card "CRVAL1" 0; card "CRPIX2" 1; card "CRVAL2" 0].

(** PCi_j and CD3_j of a removed axis stay *)
Theorem strip_terms_refuted : ~ (forall h m f h' k i j, strip_header h m f = POk h' -> m < i \/ m < j -> i <= 3 -> j <= 3 -> std_term k i j -> cards k h' = []).
Proof.
  intros H. destruct (strip_header e_head3 2 0) as [h'|] eqn:E; [|vm_compute in E; discriminate].
  specialize (H _ _ _ _ (s "PC3_3") 3 3 E ltac:(lia) ltac:(lia) ltac:(lia)).
  assert (T : std_term (s "PC3_3") 3 3) by (exists "PC"%string; split; [cbn; auto|reflexivity]).
  specialize (H T). vm_compute in E. injection E as <-. vm_compute in H. discriminate H.
Qed.

(** one axis is enough for two, if more are looked for *)
Theorem strip_too_few_refuted : ~ (forall h m f h' n, hint (s "NAXIS") h = POk n -> strip_header h m f = POk h' -> (Z.of_nat m <= n)%Z).
Proof.
  intros H. specialize (H [card "NAXIS" 1; card "NAXIS1" 10] 2 5 (hset (s "WCSAXES") (HInt 2) [card "NAXIS" 2; card "NAXIS1" 10]) 1%Z eq_refl).
  cbv in H. specialize (H eq_refl). now apply H.
Qed.

Local Open Scope R_scope.
(** pixels of one degree; the equator runs between pixels 0 and 1 *)
Definition e_wcs (h : fheader) : wcs :=
  mk_wcs (fun p => (fst p - 1, snd p - 1 / 2)) (fun p => (fst (fst p) - 1, snd (fst p) - 1 / 2, snd p)) (fun q => (fst q, snd q - 1 / 2))
    [(0, 1 / 2); (0, 5 / 2); (9, 5 / 2); (9, 1 / 2)] (s "RA") (1, 1) (1, 0, 1).
Definition e_data : nd (option R) := mk_nd [3; 10]%nat (map (fun k => Some (INR k)) (seq 0 30)).
Definition e_blank : nd (option R) := mk_nd [3; 10]%nat (repeat None 30).

Lemma dict_some : forall WCS h wrap f n, hint (s "NAXIS") h = POk n -> (n < 3)%Z ->
  strip_header h 2 f <> PErr -> hint (s "NAXIS1") h <> PErr -> hint (s "NAXIS2") h <> PErr ->
  pyall (map (fun k => hnum (s k) h) ["CRPIX1"; "CRVAL1"; "CRPIX2"; "CRVAL2"]%string) <> PErr ->
  exists d, mkWCSDict WCS h wrap f = POk d.
Proof.
  intros WCS h wrap f n HN L H2 H3 H4 H5. unfold mkWCSDict. destruct (strip_header h 2 f); [|congruence]. cbn [pybind]. rewrite HN. cbn [pybind].
  destruct (Z.leb_spec 3 n); [lia|]. cbn [pybind]. destruct (hint (s "NAXIS1") h); [|congruence]. cbn [pybind]. destruct (hint (s "NAXIS2") h); [|congruence]. cbn [pybind].
  rewrite app_nil_r. destruct (pyall _); [|congruence]. cbn [pybind]. eauto.
Qed.

Lemma e_num : forall k, In k ["CRPIX1"; "CRVAL1"; "CRPIX2"; "CRVAL2"]%string -> exists v, hnum (s k) e_head2 = POk v.
Proof. intros k H. repeat (destruct H as [<-|H]; [eexists; reflexivity|]). destruct H. Qed.

Lemma e_dict : exists d, mkWCSDict e_wcs e_head2 false 5 = POk d /\ d_xdelt d = -1 /\ d_ydelt d = -1 /\ d_naxis d = (10%Z, 3%Z).
Proof.
  destruct (dict_some e_wcs e_head2 false 5 2) as [d E]; try reflexivity.
  - vm_compute. discriminate.
  - vm_compute. discriminate.
  - vm_compute. discriminate.
  - destruct (e_num "CRPIX1") as [a A]; [cbn; auto|]. destruct (e_num "CRVAL1") as [b B]; [cbn; auto|].
    destruct (e_num "CRPIX2") as [c C]; [cbn; auto|]. destruct (e_num "CRVAL2") as [v V]; [cbn; auto|].
    cbn [map pyall]. rewrite A, B, C, V. discriminate.
  - exists d. split; [exact E|].
    assert (HN : hint (s "NAXIS") e_head2 = POk 2%Z) by reflexivity.
    destruct (dict_steps _ _ _ _ _ _ E HN) as [S2 _]. specialize (S2 ltac:(lia) 1 1 0 (1 / 2) 1 1).
    assert (L : forall x y, p2w2 (e_wcs (d_head2 d)) (x, y) = (0 + (x - 1) * 1, 1 / 2 + (y - 1) * 1)) by (intros; cbn [p2w2 e_wcs fst snd]; f_equal; lra).
    specialize (S2 eq_refl L). destruct S2 as [-> ->].
    replace ((1 / 2 - 1 / 2) * PI / 180) with 0 by field. rewrite cos_0. split; [ring|]. split; [ring|].
    pose proof (dict_naxis _ _ _ _ _ E) as [N1 N2]. change (hint (s "NAXIS1") e_head2) with (POk 10%Z) in N1. change (hint (s "NAXIS2") e_head2) with (POk 3%Z) in N2.
    injection N1 as N1. injection N2 as N2. destruct (d_naxis d). cbn in *. congruence.
Qed.

Lemma round_Z : forall z, py_round (IZR z) = z.
Proof.
  intros z. pose proof (py_round_close (IZR z)) as C. rewrite <- minus_IZR in C. rewrite <- abs_IZR in C.
  assert (IZR (Z.abs (py_round (IZR z) - z)) < 1) by lra. apply lt_IZR in H. lia.
Qed.
Lemma ceil_Z : forall z, Rceil (IZR z) = z.
Proof.
  intros z. unfold Rceil. rewrite <- opp_IZR. assert (H : Rfloor (IZR (- z)) = (- z)%Z); [|rewrite H; lia].
  apply Rfloor_unique. lra.
Qed.

Lemma cut_Z : forall c r delt n, Rabs delt = 1 -> cut (IZR c) (IZR r) delt n = (Z.max (c - r) 0, Z.min (c + r) (n - 1)).
Proof. intros c r delt n H. unfold cut. rewrite H, round_Z. replace (IZR r / 1) with (IZR r) by field. now rewrite ceil_Z. Qed.

(** the cut-out of r pixels about a pixel *)
Lemma e_cut : forall data cx cy r, shape data = [3; 10]%nat ->
  exists h', get_subfits e_wcs (Some (e_head2, data)) (IZR cx) (IZR cy + 1 / 2) (IZR r) None None false =
    POk (Some (slice_nd None data [(Z.max (cy - r) 0, Z.min (cy + r) 2 + 1); (Z.max (cx - r) 0, Z.min (cx + r) 9 + 1)]%Z, h')) /\
    h' = sizes_updated (slice_nd None data [(Z.max (cy - r) 0, Z.min (cy + r) 2 + 1); (Z.max (cx - r) 0, Z.min (cx + r) 9 + 1)]%Z)
      (hset (s "CRPIX2") (HNum (1 - IZR (Z.max (cy - r) 0))) (hset (s "CRPIX1") (HNum (1 - IZR (Z.max (cx - r) 0))) e_head2)).
Proof.
  intros data cx cy r Sh. destruct e_dict as (d & E & Ex & Ey & En). eexists. split; [|reflexivity].
  unfold get_subfits. rewrite E. cbn [pybind wrap180]. cbv zeta. rewrite Ex, Ey, En.
  destruct (Req_EM_T (-1) 0); [lra|]. cbn [given andb fst snd w2p e_wcs].
  replace (IZR cy + 1 / 2 - 1 / 2) with (IZR cy) by field.
  assert (A1 : Rabs (-1) = 1) by (rewrite Rabs_left; lra). rewrite !cut_Z by exact A1. cbn [fst snd].
  change (hnum (s "CRPIX1") e_head2) with (POk 1). change (hnum (s "CRPIX2") e_head2) with (POk 1). cbn [pybind]. rewrite Sh. reflexivity.
Qed.

(** a position to the left of the image by more than the radius: columns far
    from it come back *)
Theorem subfits_outside_refuted : ~ (forall WCS h data x y radius sub h' w nx ny,
  get_subfits WCS (Some (h, data)) x y radius None None false = POk (Some (sub, h')) -> mkWCSDict WCS h false 5 = POk w ->
  shape data = [ny; nx] -> hint (s "NAXIS1") h = POk (Z.of_nat nx) -> hint (s "NAXIS2") h = POk (Z.of_nat ny) ->
  forall cx rx, nearest (fst (w2p (WCS (d_head2 w)) (x, y))) cx -> covers radius (Rabs (d_xdelt w)) rx ->
  (nth 1 (shape sub) 0%nat = 0%nat \/ exists p, (0 <= p < Z.of_nat nx /\ Z.abs (p - cx) <= rx)%Z)).
Proof.
  intros H. destruct e_dict as (d & E & Ex & Ey & En). destruct (e_cut e_data (-5) 1 1 eq_refl) as (h' & G & _).
  specialize (H _ _ _ _ _ _ _ _ _ 10%nat 3%nat G E eq_refl eq_refl eq_refl (-5)%Z 1%Z).
  cbn [w2p e_wcs fst] in H. unfold nearest, covers in H. rewrite Ex in H. rewrite (Rabs_left (-1)) in H by lra.
  destruct H as [H|(p & H1 & H2)].
  - replace (IZR (-5) - IZR (-5)) with 0 by ring. rewrite Rabs_R0. lra.
  - change (1 - 1)%Z with 0%Z. lra.
  - vm_compute in H. discriminate H.
  - lia.
Qed.

Lemma sizes_blank : forall d h, somes (flat d) = [] -> sizes_updated d h = h.
Proof. intros d h E. unfold sizes_updated. now rewrite E. Qed.

(** a cut-out without samples keeps the lengths of the whole image *)
Theorem subfits_blank_refuted : ~ (forall WCS h data x y radius sub h' my mx,
  get_subfits WCS (Some (h, data)) x y radius None None false = POk (Some (sub, h')) -> shape sub = [my; mx] ->
  hget (s "NAXIS1") h' = Some (HInt (Z.of_nat mx))).
Proof.
  intros H. destruct (e_cut e_blank 4 1 1 eq_refl) as (h' & G & Eh). specialize (H _ _ _ _ _ _ _ _ 3%nat 3%nat G eq_refl).
  rewrite sizes_blank in Eh by (vm_compute; reflexivity). rewrite Eh in H. rewrite !hget_hset_other in H by discriminate. cbv in H. discriminate H.
Qed.

(** a limit of zero is taken as no limit *)
Theorem subfits_zero_limit_refuted : ~ (forall WCS h data x y radius zlo zhi r, get_subfits WCS (Some (h, data)) x y radius (Some zlo) (Some zhi) false = POk (Some r) -> False).
Proof.
  intros H. destruct (e_cut e_data 4 1 1 eq_refl) as (h' & G & _).
  assert (Z : get_subfits e_wcs (Some (e_head2, e_data)) (IZR 4) (IZR 1 + 1 / 2) (IZR 1) (Some 0) (Some 9) false = get_subfits e_wcs (Some (e_head2, e_data)) (IZR 4) (IZR 1 + 1 / 2) (IZR 1) None None false).
  { unfold get_subfits. destruct (mkWCSDict e_wcs e_head2 false 5); [|reflexivity]. cbn [pybind]. cbv zeta.
    assert (given (Some 0) = false) as -> by (unfold given; destruct (Req_EM_T 0 0); congruence). reflexivity. }
  rewrite G in Z. exact (H _ _ _ _ _ _ _ _ _ Z).
Qed.

(** longitudes that start over at 360 between the reference pixel and the next:
    the step is taken to be most of a turn *)
Definition t_wcs (h : fheader) : wcs :=
  mk_wcs (fun p => (if Rlt_dec (fst p) 1 then fst p - 1 + 360 else fst p - 1, snd p - 1 / 2)) (fun p => (fst (fst p) - 1, snd (fst p) - 1 / 2, snd p)) (fun q => (fst q, snd q - 1 / 2))
    [(0, 1 / 2); (0, 5 / 2); (9, 5 / 2); (9, 1 / 2)] (s "RA") (1, 1) (1, 0, 1).
Theorem dict_turn_refuted : ~ (forall WCS h d step, mkWCSDict WCS h false 5 = POk d ->
  (forall x y, exists k : Z, fst (p2w2 (WCS (d_head2 d)) (x + 1, y)) - fst (p2w2 (WCS (d_head2 d)) (x, y)) = step + 360 * IZR k) -> 0 < step < 180 ->
  Rabs (d_xdelt d) <= step).
Proof.
  intros H. destruct (dict_some t_wcs e_head2 false 5 2) as [d E]; try reflexivity.
  { vm_compute; discriminate. }
  { vm_compute; discriminate. }
  { vm_compute; discriminate. }
  { destruct (e_num "CRPIX1") as [a A]; [cbn; auto|]. destruct (e_num "CRVAL1") as [b B]; [cbn; auto|].
    destruct (e_num "CRPIX2") as [c C]; [cbn; auto|]. destruct (e_num "CRVAL2") as [v V]; [cbn; auto|].
    cbn [map pyall]. rewrite A, B, C, V. discriminate. }
  specialize (H _ _ _ 1 E). assert (HN : hint (s "NAXIS") e_head2 = POk 2%Z) by reflexivity.
  pose proof (dict_eq _ _ _ _ _ _ E HN) as (_ & _ & _ & _ & _ & EZ). cbn [Z.leb Z.compare Pos.compare Pos.compare_cont] in EZ.
  destruct EZ as (nx & ny & _ & _ & _ & _ & _ & _ & _ & EZ). cbn [crpix2 t_wcs p2w2 fst snd] in EZ. destruct EZ as [EX _].
  destruct (Rlt_dec (1 - 1) 1) in EX; [|lra]. destruct (Rlt_dec 1 1) in EX; [lra|].
  replace ((1 - 1 / 2 + (1 - 1 - 1 / 2)) / 2 * PI / 180) with 0 in EX by field. rewrite cos_0 in EX.
  rewrite EX in H. assert (HH : Rabs ((1 - 1 - 1 + 360 - (1 - 1)) * 1) <= 1).
  { apply H; [|lra]. intros x y. cbn [t_wcs p2w2 fst snd]. destruct (Rlt_dec (x + 1) 1), (Rlt_dec x 1); try lra.
    - exists 0%Z. lra.
    - exists (-1)%Z. lra.
    - exists 0%Z. lra. }
  rewrite Rabs_right in HH by lra. lra.
Qed.
