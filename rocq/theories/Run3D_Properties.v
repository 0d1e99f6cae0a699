(** The 3-D tool from files to files: claims C63-C66. *)
From Coq Require Import Reals List Arith ZArith Lia Lra Bool Permutation.
Set Warnings "-ambiguous-paths".
From Coquelicot Require Import Coquelicot.
From Verif Require Import CBase PyRes PyStr PyList NdArray NdIndex Synth_Spec Setup_Model Setup_Spec Cube_Model Cube_Spec StokesI_Model StokesI_Spec Run1D_Model Run1D_Spec Run1D_Refute Measure_Spec Pixfit_Model Pixfit_Spec Run3D_Model Run3D_Spec Run3D_Total Run3D_Thin Run3D_Same Run3D_Refute Run3D_Examples.
From Coq Require Import String Ascii.
Import ListNotations.
Local Open Scope R_scope.

(** C63. Every run with files that go together ends; every voxel of the files, their axes, the reference wavelength, the peak maps and the widths. *)
Theorem C63_files : forall (Q U : image (option R)) (I : option (image (option R))) (k : nat) (freq : list R) (rms : option (list (option R))) (o : opts3),
  good_files Q U I k freq -> good_rms o rms (List.length freq) -> good_opts3 o freq ->
  let w := weight3 o rms in
  forall fit, exists out phi h step,
    rmsynth3d fit Q U I freq rms o = POk out /\ grid3 o freq phi h step /\ (1 <= h)%nat /\
    (g_not_rmsynth o = true -> o_fdf out = None /\ o_peak out = None) /\
    (g_not_rmsf o = true -> o_rmsf out = None) /\
    (g_not_rmsynth o = false -> exists f mx rm, o_fdf out = Some f /\ o_peak out = Some (mx, rm) /\
       reference3 o Q U I k freq w (f_lamsq0 f) /\ axes_like (f_image f) Q k (List.length phi) /\ axis_gives (f_axis f) phi /\
       holds_FDF (f_image f) Q U I k freq w phi (f_lamsq0 f) /\ holds_peaks (f_image f) k phi mx rm) /\
    (g_not_rmsf o = false -> exists g fw phi2, o_rmsf out = Some (g, fw) /\ odd_centred phi2 (2 * h + 1) step /\
       reference_rmsf o Q U I k freq w (f_lamsq0 g) /\ (forall f, o_fdf out = Some f -> f_lamsq0 f = f_lamsq0 g) /\
       axes_like (f_image g) Q k (List.length phi2) /\ axis_gives (f_axis g) phi2 /\
       holds_RMSF (f_image g) Q k freq w phi2 (f_lamsq0 g) /\ holds_width fit o freq (f_image g) k phi2 (flat fw) /\ sky_map (i_naxis Q) k fw).
Proof. exact @files_ok. Qed.
Print Assumptions C63_files.
Example C63_nonvacuous : good_files (x_image (Some 1)) (x_image (Some 0)) (Some (x_image (Some 2))) 3 x_freq /\ good_rms (x_opts (1 / 2)) None (List.length x_freq) /\
  good_opts3 (x_opts (1 / 2)) x_freq.
Proof. split; [apply x_good|]. split; [exact Logic.I|]. apply x_good_opts. lra. Qed.
Example C63_run : forall fit, exists out f g fw phi h, rmsynth3d fit (x_image (Some 1)) (x_image (Some 0)) (Some (x_image (Some 2))) x_freq None (x_opts (1 / 2)) = POk out /\
  o_fdf out = Some f /\ o_rmsf out = Some (g, fw) /\ grid3 (x_opts (1 / 2)) x_freq phi h (1 / 2) /\ (1 <= h)%nat.
Proof. exact x_run. Qed.


(** C64. A Faraday-thin source: its voxels and the peak maps. *)
Theorem C64_voxels : forall (Q U : image (option R)) (I : option (image (option R))) (k : nat) (freq : list R) (rms : option (list (option R))) (o : opts3),
  good_files Q U I k freq -> good_rms o rms (List.length freq) -> good_opts3 o freq ->
  let w := weight3 o rms in
  let chans p := sky_chans Q U I k freq w p in
  forall fit out f, rmsynth3d fit Q U I freq rms o = POk out -> o_fdf out = Some f ->
    exists phi h step mx rm, grid3 o freq phi h step /\ axis_gives (f_axis f) phi /\ o_peak out = Some (mx, rm) /\
    forall p a psi RM i0, in_image (i_naxis (f_image f)) p -> thin_at Q U I k freq p a psi RM -> 0 < a -> In RM phi -> tells Q U I k freq w phi p RM ->
      ref_stokes3 freq (f_lamsq0 f) I k p (Some i0) ->
      (forall j, (j < List.length phi)%nat -> vox None (f_image f) (at_chan p k j) =
         Some (RtoC (i0 * a) * cis (2 * (psi + RM * f_lamsq0 f)) * RMSF_spec (chans p) (f_lamsq0 f) (nth j phi 0 - RM))%C) /\
      (i0 <> 0 -> let idx := 0%nat :: map p (rev (others k (List.length (i_naxis Q)))) in at_nd None mx idx = Some (Rabs i0 * a) /\ at_nd None rm idx = Some RM).
Proof. exact @thin_files. Qed.
Print Assumptions C64_voxels.
Example C64_nonvacuous : forall phi p, (p 1 < 2)%nat -> (p 2 < 3)%nat -> (forall f, In f phi -> Rabs f <= 1) ->
  thin_at (x_image (Some 1)) (x_image (Some 0)) (Some (x_image (Some 2))) 3 x_freq p (1 / 2) 0 0 /\
  tells (x_image (Some 1)) (x_image (Some 0)) (Some (x_image (Some 2))) 3 x_freq (fun _ => 1) phi p 0.
Proof. intros phi p H1 H2 H3. split; [apply x_thin|]. now apply x_tells. Qed.


(** C64. The spectrum is the saved spread function, shifted to the depth and scaled by the voxel there. *)
Theorem C64_spread : forall (Q U : image (option R)) (I : option (image (option R))) (k : nat) (freq : list R) (rms : option (list (option R))) (o : opts3),
  good_files Q U I k freq -> good_rms o rms (List.length freq) -> good_opts3 o freq ->
  let w := weight3 o rms in
  let chans p := sky_chans Q U I k freq w p in
  forall fit out f g fw, rmsynth3d fit Q U I freq rms o = POk out -> o_fdf out = Some f -> o_rmsf out = Some (g, fw) ->
    exists phi h step, grid3 o freq phi h step /\
    forall p a psi RM i0 ia, in_image (i_naxis (f_image f)) p -> thin_at Q U I k freq p a psi RM -> 0 < a -> (ia < List.length phi)%nat -> nth ia phi 0 = RM ->
      0 < wsum (chans p) -> flagged_alike Q U I k freq p -> ref_stokes3 freq (f_lamsq0 f) I k p (Some i0) ->
      forall j, (j < List.length phi)%nat -> exists z s, vox None (f_image f) (at_chan p k ia) = Some z /\ vox None (f_image g) (at_chan p k (2 * h + 1 + j - ia)) = Some s /\
        vox None (f_image f) (at_chan p k j) = Some (z * s)%C.
Proof. exact @thin_spread. Qed.
Print Assumptions C64_spread.


(** C64. Images to spectra to maps of fitted peaks: depth, amplitude, angles and Stokes I of the source. *)
Theorem C64_maps : forall (Q U : image (option R)) (I : option (image (option R))) (k : nat) (freq : list R) (rms : option (list (option R))) (o : opts3),
  good_files Q U I k freq -> good_rms o rms (List.length freq) -> good_opts3 o freq ->
  let w := weight3 o rms in
  let chans p := sky_chans Q U I k freq w p in
  forall fit out f g fw Ps noise variance ax ay, rmsynth3d fit Q U I freq rms o = POk out -> o_fdf out = Some f -> o_rmsf out = Some (g, fw) ->
    long_axes (i_naxis Q) (rev (others k (List.length (i_naxis Q)))) = [ax; ay] ->
    (forall b, (1 <= b <= List.length (i_naxis Q))%nat -> b <> k -> ~ mentions (s "FDEP") (nth (b - 1) (i_ctype Q) None)) ->
    good_noise (List.length freq) noise -> (I <> None -> 0 < f_lamsq0 f) ->
    exists phi h step, grid3 o freq phi h step /\
    (0 < step -> exists m, peakfit_files (f_image f) (f_axis f) fw freq (f_lamsq0 f) (names Ps) noise I (Some variance) = POk m /\
      maps_of (names Ps) (len (i_naxis Q) ax) (len (i_naxis Q) ay) m /\
      forall p a psi RM i0 ia, in_image (i_naxis (f_image f)) p -> thin_at Q U I k freq p a psi RM -> 0 < a ->
        (0 < ia < List.length phi - 1)%nat -> nth ia phi 0 = RM -> tells Q U I k freq w phi p RM ->
        ref_stokes3 freq (f_lamsq0 f) I k p (Some i0) -> 0 < i0 ->
        let shown P v := In P Ps -> exists map, In (s (product_name P), map) m /\ at_nd None map [p ax; p ay] = Some v in
        shown Pphi RM /\ shown Pamp (i0 * a) /\ shown Pindx (INR ia) /\ shown PI0 i0 /\ shown Plam0 (f_lamsq0 f) /\
        (exists v, 0 <= v < 180 /\ same_angle v ((psi + RM * f_lamsq0 f) * 180 / PI) /\ shown Pangle v) /\
        (exists v, 0 <= v < 180 /\ same_angle v (psi * 180 / PI) /\ shown Pangle0 v)).
Proof. exact @thin_maps. Qed.
Print Assumptions C64_maps.
Example C64_maps_nonvacuous : forall fit, exists out f g fw m, rmsynth3d fit (x_image (Some 1)) (x_image (Some 0)) (Some (x_image (Some 2))) x_freq None (x_opts (1 / 2)) = POk out /\
  o_fdf out = Some f /\ o_rmsf out = Some (g, fw) /\
  peakfit_files (f_image f) (f_axis f) fw x_freq (f_lamsq0 f) (names [Pphi; Pamp]) None (Some (x_image (Some 2))) (Some true) = POk m /\
  forall x y, (x < 2)%nat -> (y < 3)%nat -> exists rm amp, In (s (product_name Pphi), rm) m /\ In (s (product_name Pamp), amp) m /\ at_nd None rm [y; x] = Some 0 /\ at_nd None amp [y; x] = Some (2 * (1 / 2)).
Proof. exact x_maps. Qed.


(** C65. A pixel of one cube against a pixel with the same spectrum in another: the same voxels up to the reference wavelength. *)
Theorem C65_pixel : forall Q U Q' U' k k' freq rms o, good_files Q U None k freq -> good_files Q' U' None k' freq -> good_rms o rms (List.length freq) -> good_opts3 o freq ->
  forall fit fit' out out' f f', rmsynth3d fit Q U None freq rms o = POk out -> rmsynth3d fit' Q' U' None freq rms o = POk out' -> o_fdf out = Some f -> o_fdf out' = Some f' ->
  forall p p', in_image (i_naxis (f_image f)) p -> in_image (i_naxis (f_image f')) p' -> p' k' = p k ->
  (forall j, (j < List.length freq)%nat -> frac_vox Q' U' None (at_chan p' k' j) = frac_vox Q U None (at_chan p k j)) ->
  let phi := world (CRVAL (f_axis f)) (CRPIX (f_axis f)) (CDELT (f_axis f)) (S (p k)) in
  vox None (f_image f') p' = option_map (fun z => cis (2 * phi * (f_lamsq0 f' - f_lamsq0 f)) * z)%C (vox None (f_image f) p).
Proof. exact @same_spectrum. Qed.
Print Assumptions C65_pixel.
Example C65_nonvacuous : good_files (y_image (Some 1) (Some 1) None) (y_image (Some 0) (Some 2) (Some 3)) None 3 e_freq.
Proof. apply y_good. Qed.


(** C65. A pixel of a cube against the 1-D tool on its columns. *)
Theorem C65_spectrum_1D : forall Q U I k freq rms o, good_files Q U I k freq -> good_rms o rms (List.length freq) -> good_opts3 o freq ->
  forall fit out f, rmsynth3d fit Q U I freq rms o = POk out -> o_fdf out = Some f ->
  forall mpfit fit1 d o1 iA q u dI dQ dU out1, good_input d (o_noStokesI o1) freq iA q u dI dQ dU -> good_opts mpfit o1 (List.length freq) -> run_rmsynth mpfit fit1 d o1 = POk out1 ->
  forall p i0 I1 j1, in_image (i_naxis (f_image f)) p -> (j1 < List.length (r_phi out1))%nat ->
  (forall j, (j < List.length freq)%nat -> nth j q None = vox None Q (at_chan p k j) /\ nth j u None = vox None U (at_chan p k j) /\
     stokes_vox I (at_chan p k j) = Some (stokes_model o1 (r_fit out1) freq j) /\ nth j (r_weight out1) 0 = weight3 o rms j) ->
  ref_stokes3 freq (f_lamsq0 f) I k p (Some i0) -> r_Ifreq0 out1 = Some I1 ->
  nth j1 (r_phi out1) 0 = world (CRVAL (f_axis f)) (CRPIX (f_axis f)) (CDELT (f_axis f)) (S (p k)) ->
  exists z1, nth j1 (r_FDF out1) None = Some z1 /\
    (forall z, vox None (f_image f) p = Some z -> (RtoC I1 * z)%C = (RtoC i0 * (cis (2 * nth j1 (r_phi out1) 0 * (f_lamsq0 f - r_lam0 out1)) * z1))%C) /\
    (vox None (f_image f) p = None -> z1 = RtoC 0).
Proof. exact @same_as_1D. Qed.
Print Assumptions C65_spectrum_1D.
Example C65_1D_nonvacuous : forall fit, exists out f out1 I1 j1, let p := fun _ : nat => 0%nat in let Q := y_image (Some 1) (Some 1) (Some 1) in let U := y_image (Some 0) (Some 0) None in
  rmsynth3d fit Q U None e_freq None (x_opts (1 / 2)) = POk out /\ o_fdf out = Some f /\ run_rmsynth e_mpfit e_fit (e_data None) (e_opts (1 / 2)) = POk out1 /\
  in_image (i_naxis (f_image f)) p /\ (j1 < List.length (r_phi out1))%nat /\
  (forall j, (j < List.length e_freq)%nat -> nth j [Some 1; Some 1; Some 1] None = vox None Q (at_chan p 3 j) /\ nth j [Some 0; Some 0; None] None = vox None U (at_chan p 3 j) /\
     stokes_vox None (at_chan p 3 j) = Some (stokes_model (e_opts (1 / 2)) (r_fit out1) e_freq j) /\ nth j (r_weight out1) 0 = weight3 (x_opts (1 / 2)) None j) /\
  ref_stokes3 e_freq (f_lamsq0 f) None 3 p (Some 1) /\ r_Ifreq0 out1 = Some I1 /\
  nth j1 (r_phi out1) 0 = world (CRVAL (f_axis f)) (CRPIX (f_axis f)) (CDELT (f_axis f)) (S (p 3%nat)).
Proof. exact y_same. Qed.


(** C66. Finding: an image of one column with Stokes I raises, or is scaled by Stokes I of other pixels. *)
Theorem C66_one_column_refuted : forall Q U f k freq rms o x y, good_files Q U None k freq -> good_rms o rms (List.length freq) -> good_opts3 o freq -> g_not_rmsynth o = false ->
  wf_image f -> i_naxis f = i_naxis Q -> spectral_axis (s "FREQ") (i_ctype f) k -> ascending freq ->
  sky_axes (i_naxis Q) k = [x; y] -> len (i_naxis Q) x = 1%nat ->
  forall fit, exists phi h step, grid3 o freq phi h step /\
    (len (i_naxis Q) y = 1%nat \/ len (i_naxis Q) y <> List.length phi -> rmsynth3d fit Q U (Some f) freq rms o = PErr) /\
    (len (i_naxis Q) y = List.length phi -> (forall p, in_image (i_naxis Q) p -> vox None f p <> None) -> exists out F, rmsynth3d fit Q U (Some f) freq rms o = POk out /\ o_fdf out = Some F /\
       let w := weight3 o rms in let l0 := f_lamsq0 F in
       forall p, in_image (i_naxis (f_image F)) p -> let chs := sky_chans Q U (Some f) k freq w p in
         wsum chs <> 0 -> (exists t, In t phi /\ FDF_spec chs l0 t <> RtoC 0) ->
         exists i0, ref_stokes3 freq l0 (Some f) k (fun b => if (b =? y)%nat then p k else p b) i0 /\
           vox None (f_image F) p = option_map (fun i => RtoC i * FDF_spec chs l0 (nth (p k) phi 0))%C i0).
Proof. exact @one_column. Qed.
Print Assumptions C66_one_column_refuted.
Example C66_nonvacuous : good_files (y_image (Some 1) (Some 1) (Some 1)) (y_image (Some 0) (Some 0) None) None 3 e_freq /\ sky_axes [1; 1; 3]%nat 3 = [1; 2]%nat /\ len [1; 1; 3]%nat 1 = 1%nat.
Proof. split; [apply y_good|]. split; reflexivity. Qed.


(** C66. Finding: with fewer than two sky axes kept, Stokes I raises. *)
Theorem C66_few_axes_refuted : forall Q U f k freq rms o, good_files Q U None k freq -> good_rms o rms (List.length freq) -> good_opts3 o freq -> g_not_rmsynth o = false ->
  wf_image f -> i_naxis f = i_naxis Q -> spectral_axis (s "FREQ") (i_ctype f) k -> (List.length (sky_axes (i_naxis Q) k) < 2)%nat ->
  forall fit, rmsynth3d fit Q U (Some f) freq rms o = PErr.
Proof. exact @few_axes. Qed.
Print Assumptions C66_few_axes_refuted.
Example C66_few_nonvacuous : (List.length (sky_axes [5; 1; 1; 3]%nat 4) < 2)%nat.
Proof. cbn. lia. Qed.


(** C66. Finding: a channel without U is no part of the spectrum but is in the spread function. *)
Theorem C66_spread_refuted : forall fit, exists Q U k freq rms o out g fw phi2 p, good_files Q U None k freq /\ good_rms o rms (List.length freq) /\ good_opts3 o freq /\
  rmsynth3d fit Q U None freq rms o = POk out /\ o_rmsf out = Some (g, fw) /\ axis_gives (f_axis g) phi2 /\ in_image (i_naxis (f_image g)) p /\
  let chs := sky_chans Q U None k freq (weight3 o rms) p in
  wsum chs = 2 /\ RMSF_spec chs (f_lamsq0 g) (nth (p k) phi2 0) = RtoC 0 /\ vox None (f_image g) p <> Some (RtoC 0).
Proof. exact @rmsf3_refuted. Qed.
Print Assumptions C66_spread_refuted.

