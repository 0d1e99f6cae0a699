(** Peak maps: strips, and what goes wrong. *)
From Coq Require Import Reals List Arith ZArith Bool Ascii String Lra Lia.
Set Warnings "-ambiguous-paths".
From Coquelicot Require Import Coquelicot.
From Verif Require Import CBase PyRes PyStr PyStr_Proofs PyList PyList_Proofs NdArray NdIndex Synth_Model CleanTop_Model Setup_Model Setup_Spec Setup_Proofs Cube_Model Cube_Spec Cube_Proofs Cube_Laws
  Measure_Model Measure_Spec Measure_Laws Run1D_Spec Pixfit_Model Pixfit_Spec Pixfit_Proofs Pixfit_Laws Pixfit_Files.
Import ListNotations.
Local Open Scope R_scope.

(** ** Images one pixel wide or high *)
Lemma strip_at : forall {A} (d : A) (c : nd A) n m j y, shape c = [n; m] ->
  at_nd d (mk_nd (insert_at 1 1%nat (shape c)) (flat c)) [j; 0%nat; y] = at_nd d c [j; y].
Proof. intros A d c n m j y S. unfold at_nd. rewrite S. cbn [shape flat insert_at firstn skipn app ravel prodn fold_right Nat.mul Nat.add]. f_equal. unfold prodn. cbn. lia. Qed.
Lemma strip_at0 : forall {A} (d : A) (c : nd A) m y, shape c = [m] ->
  at_nd d (mk_nd (insert_at 0 1%nat (shape c)) (flat c)) [0%nat; y] = nth y (flat c) d.
Proof. intros A d c m y S. unfold at_nd. rewrite S. cbn [shape flat insert_at firstn skipn app ravel]. f_equal. unfold prodn. cbn. lia. Qed.

Lemma phi_read : forall n crpix crval cdelt, 0 < cdelt -> (1 <= n)%nat ->
  fits_make_lin_axis (mk_axis (Z.of_nat n) crpix crval cdelt) = POk (map (fun j => world crval crpix cdelt (S j)) (seq 0 n)).
Proof.
  intros n crpix crval cdelt Hd Hn. destruct (lin_axis_world n crpix crval cdelt Hd Hn) as (phi & -> & Lp & Vp). f_equal.
  apply (nth_ext _ _ 0 0); [now rewrite map_length, seq_length|]. intros j Hj. rewrite Lp in Hj. rewrite Vp, nth_map_seq by exact Hj. reflexivity.
Qed.

Section Strip.
  Variables (f : image (option C)) (k b : nat) (fwhm : nd (option R)) (freq : list R) (lam0 crpix crval cdelt : R).
  Hypothesis Wf : wf_image f.
  Hypothesis Hk : spectral_axis (s "FDEP") (i_ctype f) k.
  Hypothesis Hn : (2 <= len (i_naxis f) k)%nat.
  Hypothesis Hb : long_axes (i_naxis f) (rev (others k (List.length (i_naxis f)))) = [b].
  Hypothesis Sw : filter (fun n => negb (n =? 1)%nat) (shape fwhm) = [len (i_naxis f) b].
  Hypothesis Hd : 0 < cdelt.
  Hypothesis Hf0 : freq <> [].
  Hypothesis Hf : forall x, In x freq -> 0 < x.
  Let n := len (i_naxis f) k.
  Let ax := mk_axis (Z.of_nat n) crpix crval cdelt.
  Let phi := map (fun j => world crval crpix cdelt (S j)) (seq 0 n).

  Lemma strip_axes : (1 <= k <= List.length (i_naxis f))%nat /\ (1 <= b <= List.length (i_naxis f))%nat /\ b <> k.
  Proof.
    assert (Hk' : (1 <= k <= List.length (i_naxis f))%nat) by (destruct Wf as (_ & _ & L); rewrite <- L; apply Hk). split; [exact Hk'|].
    assert (Ib : In b (long_axes (i_naxis f) (rev (others k (List.length (i_naxis f)))))) by (rewrite Hb; now left).
    unfold long_axes in Ib. apply filter_In in Ib. destruct Ib as [Ib _]. apply in_rev, in_others in Ib. lia.
  Qed.

  Lemma strip_read : shape (read_FDF_cube None f) = [n; len (i_naxis f) b] /\
    forall p j, in_image (i_naxis f) p -> (j < n)%nat -> at_nd None (read_FDF_cube None f) [j; p b] = vox None f (at_chan p k j).
  Proof.
    destruct (read_FDF_spec None f k Wf Hk) as (W & S & V). cbv zeta in W, S, V. unfold long_axes in S, V. cbn [filter] in S, V.
    destruct (Nat.eqb_spec (len (i_naxis f) k) 1); [lia|]. cbn [negb] in S, V. fold (long_axes (i_naxis f) (rev (others k (List.length (i_naxis f))))) in S, V. rewrite Hb in S, V. cbn [map] in S, V.
    split; [exact S|]. intros p j Hp Hj. rewrite <- V by (apply at_chan_here; [exact Hp|exact Hj]). unfold at_chan. rewrite Nat.eqb_refl. destruct strip_axes as (_ & _ & Nb). destruct (Nat.eqb_spec b k); [contradiction|reflexivity].
  Qed.

  Let FDF := mk_nd (insert_at 1 1%nat (shape (read_FDF_cube None f))) (flat (read_FDF_cube None f)).
  Let fw := mk_nd (insert_at 0 1%nat (shape (squeeze fwhm))) (flat (squeeze fwhm)).

  Lemma strip_run : forall ps noise g w, peakfit_files f ax fwhm freq lam0 ps noise g w =
    pybind (match g with None => POk None | Some i => pybind (readFitsCube None i) (fun a => POk (Some a)) end) (fun I =>
    pixelwise_peak_fitting FDF phi fw (map lsq freq) lam0 ps noise I w).
  Proof.
    intros ps noise g w. unfold peakfit_files, ax. rewrite phi_read by (auto; unfold n; lia). cbn [pybind]. rewrite (proj1 strip_read). cbn [List.length Nat.eqb].
    rewrite <- (proj1 strip_read). reflexivity.
  Qed.
  Lemma strip_shapes : shape FDF = [n; 1%nat; len (i_naxis f) b] /\ shape fw = [1%nat; len (i_naxis f) b].
  Proof. unfold FDF, fw. cbn [shape]. rewrite (proj1 strip_read). unfold squeeze. cbn [shape]. rewrite Sw. split; reflexivity. Qed.

  (** a strip gives maps of one row *)
  Theorem peakfit_strip : forall Ps noise variance, good_noise (List.length freq) noise ->
    exists m, peakfit_files f ax fwhm freq lam0 (names Ps) noise None (Some variance) = POk m /\
      maps_of (names Ps) 1 (len (i_naxis f) b) m /\
      forall p, in_image (i_naxis f) p ->
        let w := nth (p b) (flat fwhm) None in
        let dF := noise_of variance noise (Some 1) in
        forall P map, In (s (product_name P), map) m ->
          match measure_FDF_parms (sky_spectrum f k p) phi w dF (List.map lsq freq) lam0 5 with
          | POk q => reports freq lam0 q w (Some 1) dF P (at_nd None map [0%nat; p b])
          | PErr => at_nd None map [0%nat; p b] = None
          end.
  Proof.
    intros Ps noise variance GN. rewrite strip_run. cbn [pybind]. destruct strip_shapes as [SF SW].
    destruct (pixelwise_maps FDF phi fw freq lam0 Ps noise None variance n 1 (len (i_naxis f) b) SF SW Hf0 Hf I GN) as (m & Em & Mm & Vm).
    exists m. split; [exact Em|]. split; [exact Mm|]. intros p Hp. cbv zeta. destruct strip_axes as (_ & Rb & _). destruct (Vm 0%nat (p b) ltac:(lia) (Hp b Rb)) as (i0 & R0 & VV). cbn in R0. subst i0.
    cbv zeta in VV.
    assert (ES : pixel_spectrum FDF n 0 (p b) = sky_spectrum f k p).
    { unfold pixel_spectrum, sky_spectrum. apply map_ext_in. intros j Ij. apply in_seq in Ij. unfold FDF. rewrite (strip_at None _ _ _ _ _ (proj1 strip_read)). apply strip_read; [exact Hp|lia]. }
    assert (EW : at_nd None fw [0%nat; p b] = nth (p b) (flat fwhm) None) by (unfold fw; apply (strip_at0 None (squeeze fwhm) (len (i_naxis f) b)); exact Sw).
    rewrite ES, EW in VV. exact VV.
  Qed.

  Lemma pyfold_err : forall {S A} (F : S -> A -> pyres S) l st a, In a l -> (forall x, F x a = PErr) -> pyfold F l st = PErr.
  Proof.
    intros S A F l. induction l as [|a0 l IH]; intros st a I H; [destruct I|]. cbn [pyfold]. destruct I as [->|I]; [rewrite H; reflexivity|].
    destruct (F st a0); [|reflexivity]. cbn [pybind]. now apply (IH _ a).
  Qed.

  (** findings: a Stokes I cube of one column does not fit the maps of one row *)
  Section Column.
    Variables (g : image (option R)) (cube : nd (option R)).
    Hypothesis Rg : readFitsCube None g = POk cube.
    Hypothesis GI : good_stokes freq lam0 (Some cube) (len (i_naxis f) b) 1.

    Theorem column_blank : forall Ps variance, (2 <= len (i_naxis f) b)%nat ->
      exists m, peakfit_files f ax fwhm freq lam0 (names Ps) None (Some g) (Some variance) = POk m /\ maps_of (names Ps) 1 (len (i_naxis f) b) m /\
        forall nm a y, In (nm, a) m -> (0 < y < len (i_naxis f) b)%nat -> at_nd None a [0%nat; y] = None.
    Proof.
      intros Ps variance Hy. rewrite strip_run, Rg. cbn [pybind]. destruct strip_shapes as [SF SW]. unfold pixelwise_peak_fitting. rewrite SF.
      destruct (I_map_ok freq lam0 (Some cube) (len (i_naxis f) b) 1 Hf Hf0 GI) as (I0 & EI & SI & _).
      assert (EI' : I_map (map lsq freq) lam0 (Some cube) 1 (len (i_naxis f) b) = POk I0) by exact EI. rewrite EI'. cbn [pybind].
      assert (Nl : map lsq freq <> []) by (destruct freq; [now destruct Hf0|discriminate]).
      destruct (loop_spec FDF phi fw (map lsq freq) lam0 (names Ps) I0 None n 1 (len (i_naxis f) b) SF SW I Nl (flat_map (fun y => map (fun x => (x, y)) (seq 0 1)) (seq 0 (len (i_naxis f) b)))
        (fold_left (fun m p => dset m p (tab_nd [1%nat; len (i_naxis f) b] (fun _ => Some 0))) (names Ps) [])) as (m & Em & Mm & Vm).
      { apply init_maps; [reflexivity|apply wf_tab_nd]. }
      { intros x y Ixy. now apply pixels_in in Ixy. }
      exists m. split; [exact Em|]. split; [exact Mm|]. intros nm a y Ia Hy2. destruct Mm as (N & K & S).
      assert (In0 : In nm (names Ps)) by (apply K, in_map_iff; exists (nm, a); auto).
      destruct (Vm nm 0%nat y In0 ltac:(lia) ltac:(lia)) as [V1 _]. specialize (V1 (proj2 (pixels_in 1 (len (i_naxis f) b) 0 y) ltac:(lia))).
      unfold at_map in V1. rewrite (dget_nodup m _ a N Ia) in V1. rewrite V1. unfold target, complete, pixel_dict, get2. rewrite SI.
      destruct (Nat.ltb_spec y 1); [lia|]. rewrite andb_false_r. destruct (measure_FDF_parms _ _ _ _ _ _ _); reflexivity.
    Qed.

    Theorem column_raises : forall Ps ns variance, (2 <= len (i_naxis f) b)%nat -> good_noise (List.length freq) (Some ns) ->
      peakfit_files f ax fwhm freq lam0 (names Ps) (Some ns) (Some g) (Some variance) = PErr.
    Proof.
      intros Ps ns variance Hy GN. rewrite strip_run, Rg. cbn [pybind]. destruct strip_shapes as [SF SW]. unfold pixelwise_peak_fitting. rewrite SF.
      destruct (I_map_ok freq lam0 (Some cube) (len (i_naxis f) b) 1 Hf Hf0 GI) as (I0 & EI & SI & _).
      assert (EI' : I_map (map lsq freq) lam0 (Some cube) 1 (len (i_naxis f) b) = POk I0) by exact EI. rewrite EI'. cbn [pybind].
      rewrite map_length, (noise_factor_ok _ ns variance GN). cbn [pybind]. apply (pyfold_err _ _ _ (0%nat, 1%nat)).
      - apply pixels_in. lia.
      - intros st. unfold fit_pixel. rewrite (get2_ok None fw 1 (len (i_naxis f) b)) by (auto; lia). cbn [pybind]. unfold get2 at 1. cbn [shape tab_nd]. rewrite SI.
        cbn [Nat.ltb Nat.leb]. rewrite andb_false_r. reflexivity.
    Qed.
  End Column.
End Strip.

(** finding: a single pixel *)
Theorem single_pixel_raises : forall f k fwhm freq lam0 ps noise w crpix crval cdelt,
  wf_image f -> spectral_axis (s "FDEP") (i_ctype f) k -> (2 <= len (i_naxis f) k)%nat ->
  long_axes (i_naxis f) (rev (others k (List.length (i_naxis f)))) = [] -> 0 < cdelt ->
  peakfit_files f (mk_axis (Z.of_nat (len (i_naxis f) k)) crpix crval cdelt) fwhm freq lam0 ps noise None w = PErr.
Proof.
  intros f k fwhm freq lam0 ps noise w crpix crval cdelt Wf Hk Hn Hl Hd.
  destruct (read_FDF_spec None f k Wf Hk) as (W & S & V). cbv zeta in S. unfold long_axes in S. cbn [filter] in S.
  destruct (Nat.eqb_spec (len (i_naxis f) k) 1); [lia|]. cbn [negb] in S. fold (long_axes (i_naxis f) (rev (others k (List.length (i_naxis f))))) in S. rewrite Hl in S. cbn [map] in S.
  unfold peakfit_files. rewrite phi_read by (auto; lia). cbn [pybind]. rewrite S. cbn [List.length Nat.eqb]. unfold pixelwise_peak_fitting. rewrite S. reflexivity.
Qed.

(** ** Stokes I and noise *)

(** finding: a reference wavelength of zero (super-resolution) takes Stokes I
    half-way between the first two planes, whatever the frequencies *)
Theorem zero_reference : forall freq cube ny nx, freq <> [] -> (forall f, In f freq -> 0 < f) -> (2 <= List.length freq)%nat -> shape cube = [List.length freq; ny; nx] ->
  exists I0, I_map (map lsq freq) 0 (Some cube) ny nx = POk I0 /\ shape I0 = [ny; nx] /\
    forall x y, (x < ny)%nat -> (y < nx)%nat ->
      at_nd None I0 [x; y] = match at_nd None cube [0%nat; x; y], at_nd None cube [1%nat; x; y] with Some u, Some v => Some ((u + v) / 2) | _, _ => None end.
Proof.
  intros freq cube ny nx Hn Hf L S. unfold I_map. rewrite (freqs_lsq freq Hf). destruct freq as [|f1 fr]; [now destruct Hn|]. set (freq := f1 :: fr) in *.
  unfold freq_ref. destruct (Rlt_dec 0 0); [lra|]. destruct (Req_EM_T 0 0); [|now destruct n0].
  destruct (plane_ok cube _ ny nx 0 S ltac:(lia)) as (a & Ea & Sa & _ & Va). destruct (plane_ok cube _ ny nx 1 S ltac:(lia)) as (b & Eb & Sb & _ & Vb).
  change (Z.of_nat 0) with 0%Z in Ea. change (Z.of_nat 1) with 1%Z in Eb. rewrite Ea, Eb. cbn [pybind]. eexists. split; [reflexivity|]. split; [exact Sa|].
  intros x y Hx Hy. now rewrite (half_ok a b ny nx x y Sa Hx Hy), Va, Vb by auto.
Qed.

(** finding: negative Stokes I makes the noise negative *)
Theorem negative_noise : forall FDF phi fwhm freq lam0 Ps ns cube variance nphi ny nx x y j z,
  shape FDF = [nphi; ny; nx] -> shape fwhm = [ny; nx] -> freq <> [] -> (forall f, In f freq -> 0 < f) ->
  good_stokes freq lam0 (Some cube) ny nx -> good_noise (List.length freq) (Some ns) -> List.length phi = nphi ->
  (x < ny)%nat -> (y < nx)%nat -> (0 < j < nphi - 1)%nat -> at_nd None FDF [j; x; y] = Some z ->
  (forall c, (c < List.length freq)%nat -> exists v, at_nd None cube [c; x; y] = Some v /\ v < 0) -> In Pnoise Ps ->
  exists m a v, pixelwise_peak_fitting FDF phi fwhm (map lsq freq) lam0 (names Ps) (Some ns) (Some cube) (Some variance) = POk m /\
    In (s "dFDFth", a) m /\ at_nd None a [x; y] = Some v /\ v < 0.
Proof.
  intros FDF phi fwhm freq lam0 Ps ns cube variance nphi ny nx x y j z HF Hw Hn Hf GI GN Lp Hx Hy Hj Ez HI HP.
  destruct (pixelwise_maps FDF phi fwhm freq lam0 Ps (Some ns) (Some cube) variance nphi ny nx HF Hw Hn Hf GI GN) as (m & Em & (N & K & S) & V).
  assert (Ik : In (s "dFDFth") (map fst m)) by (apply K; unfold names; apply in_map_iff; exists Pnoise; split; [reflexivity|exact HP]).
  apply in_map_iff in Ik. destruct Ik as ([q a] & Eq & Ia). cbn [fst] in Eq. subst q.
  destruct (V x y Hx Hy) as (i0 & R0 & VV). cbv zeta in VV. specialize (VV Pnoise a Ia).
  assert (NG : exists i, i0 = Some i /\ i < 0).
  { destruct R0 as [(c & Hc & _ & ->)|(c & Hc & _ & ->)].
    - destruct (HI c Hc) as (v & E & Hv). eauto.
    - destruct (HI c ltac:(lia)) as (v & -> & Hv). destruct (HI (Datatypes.S c) Hc) as (v' & -> & Hv'). eexists; split; [reflexivity|]. lra. }
  destruct NG as (i & -> & Hi). cbn [noise_of option_map] in VV.
  set (sg := propagated_noise (noise_weights variance ns)) in *.
  edestruct (measure_defined (pixel_spectrum FDF nphi x y) phi (at_nd None fwhm [x; y]) (Some (Some (i * sg))) (map lsq freq) lam0 5) as [p Ep].
  { unfold pixel_spectrum. now rewrite map_length, seq_length. }
  { exists j, z. split; [lia|]. unfold pixel_spectrum. rewrite nth_map_seq by lia. exact Ez. }
  rewrite Ep in VV. cbn [reports] in VV. exists m, a, (i * sg). split; [exact Em|]. split; [exact Ia|]. split; [exact VV|].
  assert (0 < sg); [|nra]. unfold sg, propagated_noise. destruct GN as (_ & P & (v & Iv)).
  assert (W : forall w, In w (noise_weights variance ns) -> 0 < fst w /\ 0 < snd w).
  { intros w Iw. unfold noise_weights in Iw. apply in_flat_map in Iw. destruct Iw as ([u|] & Iu & Iw); [|destruct Iw]. destruct Iw as [<-|[]]. specialize (P u Iu). cbn [fst snd]. split; [|exact P].
    destruct variance; [|lra]. apply Rinv_0_lt_compat, pow_lt, P. }
  assert (X : exists w, In w (noise_weights variance ns)).
  { exists (if variance then / v ^ 2 else 1, v). unfold noise_weights. apply in_flat_map. exists (Some v). split; [exact Iv|now left]. }
  clear - W X. destruct X as (w0 & I0). 
  assert (G : forall h : R * R -> R, (forall w, In w (noise_weights variance ns) -> 0 < h w) -> 0 < rsum (map h (noise_weights variance ns))).
  { intros h Hh. revert I0 Hh. generalize (noise_weights variance ns) as l. clear. induction l as [|w l IH]; intros I0 Hh; [destruct I0|]. cbn [map]. rewrite rsum_cons.
    assert (0 < h w) by (apply Hh; now left). assert (0 <= rsum (map h l)); [|lra]. apply rsum_nonneg. intros r Ir. apply in_map_iff in Ir. destruct Ir as (w' & <- & Iw'). apply Rlt_le, Hh. now right. }
  apply Rdiv_lt_0_compat.
  - apply sqrt_lt_R0, G. intros w Iw. apply pow_lt, Rmult_lt_0_compat; apply W, Iw.
  - apply G. intros w Iw. apply W, Iw.
Qed.
