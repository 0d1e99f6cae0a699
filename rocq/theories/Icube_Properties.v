(** Stokes I model cubes: claims C43 and C44. *)
From Coq Require Import Reals List Arith ZArith Lia Lra Bool Permutation.
Set Warnings "-ambiguous-paths".
From Coquelicot Require Import Coquelicot.
From Verif Require Import CBase PyRes PyStr PyList NdArray NdIndex Synth_Model Setup_Model Measure_Model StokesI_Model StokesI_Spec Cube_Model Cube_Spec Icube_Model Icube_Spec Icube_Fit Icube_Maps Icube_Refute Icube_Examples.
From Coq Require Import String Ascii.
Import ListNotations.
Local Open Scope R_scope.

Local Open Scope nat_scope.
(** C44. Every file, every pixel: chosen and fitted, chosen and without data, not chosen. *)
Theorem C44_pixels : forall mpfit f k bunit history freq ord thr name ff am w,
  sky_cube f k -> six mpfit -> known_name name ff -> fitIcube mpfit f bunit history freq ord thr name am = POk w ->
  let n := len (i_naxis f) k in let ny := len (i_naxis f) 2 in let nx := len (i_naxis f) 1 in
  let noise := map (channel_noise f k thr) (seq 0 n) in
  List.length freq = n /\ w_noise w = noise /\ List.length (w_coeff w) = S (Z.abs_nat ord) /\ maps_of_size w ny nx /\
  shape (w_mask w) = [ny; nx] /\ shape (i_data (w_model w)) = [n; ny; nx] /\
  forall y x, y < ny -> x < nx ->
    let chosen := am = true -> detected f k thr y x in
    (chosen -> at_nd None (w_mask w) [y; x] = Some 1%R) /\ (~ chosen -> at_nd None (w_mask w) [y; x] = None) /\
    (chosen -> fittable (spectrum f k y x) noise -> exists fr, fit_StokesI_model mpfit freq (spectrum f k y x) noise ord ff = POk fr /\ pixel_says w freq y x fr) /\
    (chosen -> ~ fittable (spectrum f k y x) noise -> pixel_unfitted w n y x) /\
    (~ chosen -> pixel_blank w n y x).
Proof. exact @fit_cube. Qed.
Print Assumptions C44_pixels.
Local Open Scope R_scope.
Example C44_nonvacuous : sky_cube z_image 3 /\ six z_mpfit /\ known_name (s "linear") Linear /\ (exists w, fitIcube z_mpfit z_image true [] [1; 2] 1 (-3) (s "linear") false = POk w) /\
  forall y x, (y < 2)%nat -> (x < 2)%nat -> fittable (spectrum z_image 3 y x) (map (channel_noise z_image 3 (-3)) (seq 0 2)).
Proof. split; [apply z_sky_cube|]. split; [exact z_six|]. split; [exact z_known|]. split; [exact z_runs|]. exact z_fittable. Qed.


Local Open Scope nat_scope.
(** C44. When the run ends with files. *)
Theorem C44_runs : forall mpfit f k bunit history freq ord thr name ff am,
  sky_cube f k -> six mpfit -> known_name name ff -> (forall q, exists r, mpfit q = POk r) ->
  let n := len (i_naxis f) k in let noise := map (channel_noise f k thr) (seq 0 n) in
  ((exists w, fitIcube mpfit f bunit history freq ord thr name am = POk w) <->
   bunit = true /\ (Z.abs ord <= 5)%Z /\ List.length freq = n /\
   (Z.of_nat n = (Z.max ord 0 + 1)%Z -> forall y x, y < len (i_naxis f) 2 -> x < len (i_naxis f) 1 -> (am = true -> detected f k thr y x) ->
      exists j v e, nth j (spectrum f k y x) None = Some v /\ nth j noise None = Some e)).
Proof. exact @fit_cube_runs. Qed.
Print Assumptions C44_runs.
Local Open Scope R_scope.
Example C44_runs_nonvacuous : forall q, exists r, z_mpfit q = POk r.
Proof. exact z_total. Qed.


Local Open Scope nat_scope.
(** C44. One fit that raises ends the run. *)
Theorem C44_one_raises : forall mpfit f k bunit history freq ord thr name ff am y x,
  sky_cube f k -> six mpfit -> known_name name ff -> y < len (i_naxis f) 2 -> x < len (i_naxis f) 1 -> (am = true -> detected f k thr y x) ->
  let noise := map (channel_noise f k thr) (seq 0 (len (i_naxis f) k)) in
  fittable (spectrum f k y x) noise -> fit_StokesI_model mpfit freq (spectrum f k y x) noise ord ff = PErr ->
  fitIcube mpfit f bunit history freq ord thr name am = PErr.
Proof. exact @fit_cube_one_raises. Qed.
Print Assumptions C44_one_raises.
Local Open Scope R_scope.
Example C44_one_raises_nonvacuous : six (fun _ => PErr) /\
  fit_StokesI_model (fun _ => PErr) [1; 2] (spectrum z_image 3 0 0) (map (channel_noise z_image 3 (-3)) (seq 0 2)) 1 Linear = PErr.
Proof. exact z_raise. Qed.


Local Open Scope nat_scope.
(** C44. The lines added to HISTORY. *)
Theorem C44_history : forall mpfit f k bunit history freq ord thr name ff am w,
  sky_cube f k -> six mpfit -> known_name name ff -> fitIcube mpfit f bunit history freq ord thr name am = POk w ->
  exists line, w_history w = history ++ [s "Stokes I model fitted by RM-Tools"; line] /\
    ((0 <= ord)%Z -> line = s "Fit model is " ++ str_of_nat (Z.to_nat ord) ++ s "-order " ++ name ++ s "-polynomial") /\
    ((ord < 0)%Z -> line = s "Fit model is dynamic order " ++ name ++ s "-polynomial, max order " ++ str_of_nat (Z.to_nat (- ord))).
Proof. exact @fit_cube_history. Qed.
Print Assumptions C44_history.
Local Open Scope R_scope.


Local Open Scope nat_scope.
(** C44. The model cube, read back, is the model of each pixel. *)
Theorem C44_read_back : forall mpfit f k bunit history freq ord thr name ff am w,
  sky_cube f k -> six mpfit -> known_name name ff -> fitIcube mpfit f bunit history freq ord thr name am = POk w ->
  (k = 3 \/ forall a, 1 <= a <= 3 -> ~ mentions (s "FREQ") (nth (a - 1) (i_ctype f) None)) ->
  sky_cube (w_model w) 3 /\ i_naxis (w_model w) = [len (i_naxis f) 1; len (i_naxis f) 2; len (i_naxis f) k] /\
  (forall j y x, sample (w_model w) 3 j y x = model_sample w j y x) /\
  exists cube, readFitsCube None (w_model w) = POk cube /\ shape cube = [len (i_naxis f) k; len (i_naxis f) 2; len (i_naxis f) 1] /\
    forall j y x, j < len (i_naxis f) k -> y < len (i_naxis f) 2 -> x < len (i_naxis f) 1 -> at_nd None cube [j; y; x] = model_sample w j y x.
Proof. exact @fit_cube_read_back. Qed.
Print Assumptions C44_read_back.
Local Open Scope R_scope.


Local Open Scope nat_scope.
(** C44. The names and lengths of the axes of the model cube. *)
Theorem C44_labels : forall mpfit f k bunit history freq ord thr name ff am w,
  sky_cube f k -> six mpfit -> known_name name ff -> fitIcube mpfit f bunit history freq ord thr name am = POk w ->
  i_ctype (w_model w) = firstn 3 (i_ctype f) /\ i_naxis (w_model w) = [len (i_naxis f) 1; len (i_naxis f) 2; len (i_naxis f) k].
Proof. exact @fit_cube_labels. Qed.
Print Assumptions C44_labels.
Local Open Scope R_scope.
Example C44_labels_nonvacuous : sky_cube s_image 4.
Proof. exact s_sky. Qed.


(** C44. Finding: a pixel without data has zero errors. *)
Theorem C44_hole_refuted : ~ forall mpfit f k bunit history freq ord thr name ff am w y x,
  sky_cube f k -> six mpfit -> known_name name ff -> fitIcube mpfit f bunit history freq ord thr name am = POk w ->
  (y < len (i_naxis f) 2)%nat -> (x < len (i_naxis f) 1)%nat -> (forall j, sample f k j y x = None) -> err_at w 0 y x = None.
Proof. exact @hole_has_zero_error. Qed.
Print Assumptions C44_hole_refuted.


(** C44. Finding: a cube of flat channels has no noise, and no pixel of it is fitted. *)
Theorem C44_flat_refuted : forall mpfit f k bunit history freq ord thr name ff am w,
  sky_cube f k -> six mpfit -> known_name name ff -> fitIcube mpfit f bunit history freq ord thr name am = POk w ->
  (forall j, (j < len (i_naxis f) k)%nat -> exists c, forall v, In v (channel_values f k j) -> v = c) ->
  forall j y x, (y < len (i_naxis f) 2)%nat -> (x < len (i_naxis f) 1)%nat -> (j < len (i_naxis f) k)%nat -> model_sample w j y x = None.
Proof. exact @flat_cube. Qed.
Print Assumptions C44_flat_refuted.
Example C44_flat_nonvacuous : exists w, fitIcube z_mpfit (z_cube z_ctype (fun _ _ _ => Some 1)) true [] [1; 2] 0 (-3) (s "linear") false = POk w /\
  forall j, (j < 2)%nat -> forall v, In v (channel_values (z_cube z_ctype (fun _ _ _ => Some 1)) 3 j) -> v = 1.
Proof. exact z_flat. Qed.


(** C44. Finding: with the spectral axis above the third its name is lost. *)
Theorem C44_label_refuted : ~ forall mpfit f k bunit history freq ord thr name ff am w,
  sky_cube f k -> six mpfit -> known_name name ff -> fitIcube mpfit f bunit history freq ord thr name am = POk w ->
  mentions (s "FREQ") (nth (k - 1) (i_ctype f) None) -> mentions (s "FREQ") (nth 2 (i_ctype (w_model w)) None).
Proof. exact @label_lost. Qed.
Print Assumptions C44_label_refuted.


(** C44. Finding: with the spectral axis first the model is written transposed. *)
Theorem C44_first_axis_refuted : exists w,
  fitIcube z_mpfit (z_cube t_ctype t_sky) true [] [1; 2] 1 (-3) (s "linear") false = POk w /\
  i_ctype (w_model w) = t_ctype /\ i_naxis (w_model w) = [2; 2; 2]%nat /\
  exists r, 0 < r /\ forall j ra dec, (j < 2)%nat -> (ra < 2)%nat -> (dec < 2)%nat -> t_vox (w_model w) j ra dec = Some (1 + nth dec [1; 2] 0 / r).
Proof. exact @first_axis_transposed. Qed.
Print Assumptions C44_first_axis_refuted.


Local Open Scope nat_scope.
(** C43. The new coefficients of a pixel describe its old spectrum; the orders without a file are zero if each file says something. *)
Theorem C43_spectra : forall w how v ny nx name ff, maps_of_size w ny nx -> known_name name ff -> fitted_with w name -> rescale w how = POk v ->
  new_freq_is w how ny nx (v_ref v) /\ List.length (v_coeff v) <= 6 /\
  forall y x p r, y < ny -> x < nx -> ref_at w y x = Some r -> (0 < r)%R -> (0 < v_ref v)%R -> pixel_coeffs w y x p ->
    exists p', List.length p' = 6 /\ (forall i, i < List.length (v_coeff v) -> new_coeff v i y x = Some (nth (5 - i) p' 0%R)) /\
      (forall f, (0 < f)%R -> I_spectrum ff p' (v_ref v) f = I_spectrum ff p r f) /\
      ((forall i, i < List.length (v_coeff v) -> exists y' x', y' < ny /\ x' < nx /\ says (new_coeff v i y' x')) ->
       forall i, List.length (v_coeff v) <= i < 6 -> nth (5 - i) p' 0%R = 0%R).
Proof. exact @rescale_spectra. Qed.
Print Assumptions C43_spectra.
Local Open Scope R_scope.
Example C43_nonvacuous : exists w v, fitIcube z_mpfit z_image true [] [1; 2] 1 (-3) (s "linear") false = POk w /\ rescale w (Given 3) = POk v /\
  maps_of_size w 2 2 /\ fitted_with w (s "linear") /\ v_ref v = 3 /\
  (forall i, (i < List.length (w_coeff w))%nat -> exists y x r, (y < 2)%nat /\ (x < 2)%nat /\ ref_at w y x = Some r /\ 0 < r /\ says (coeff_at w i y x)) /\
  (forall y x, (y < 2)%nat -> (x < 2)%nat -> exists r, ref_at w y x = Some r /\ 0 < r /\ pixel_coeffs w y x [0; 0; 0; 0; 1; 1]) /\
  (forall y x, (y < 2)%nat -> (x < 2)%nat -> exists fr, stands_for w Linear y x fr /\ params fr = [0; 0; 0; 0; 1; 1]).
Proof. exact z_rescaled. Qed.


Local Open Scope nat_scope.
(** C43. Coefficients and errors are those of renormalize_StokesI_model for the pixel. *)
Theorem C43_renormalize : forall w how v ny nx name ff, maps_of_size w ny nx -> known_name name ff -> fitted_with w name -> rescale w how = POk v ->
  forall y x fr, y < ny -> x < nx -> stands_for w ff y x fr ->
    exists r, renormalize_StokesI_model fr (v_ref v) = POk r /\
      forall i, i < List.length (v_coeff v) -> new_coeff v i y x = Some (nth (5 - i) (params r) 0%R) /\ new_err v i y x = nth (5 - i) (perror r) None.
Proof. exact @rescale_is_renormalize. Qed.
Print Assumptions C43_renormalize.
Local Open Scope R_scope.


Local Open Scope nat_scope.
(** C43. Blank pixels stay blank. *)
Theorem C43_blank : forall w how v ny nx name ff, maps_of_size w ny nx -> known_name name ff -> fitted_with w name -> rescale w how = POk v ->
  forall y x, y < ny -> x < nx -> ref_at w y x = None -> (forall i, i < List.length (w_coeff w) -> coeff_at w i y x = None) ->
    forall i, i < List.length (v_coeff v) -> i < List.length (w_coeff w) -> new_coeff v i y x = None.
Proof. exact @rescale_blank. Qed.
Print Assumptions C43_blank.
Local Open Scope R_scope.
Example C43_blank_nonvacuous : maps_of_size b_files 2 2 /\ fitted_with b_files (s "log") /\ ref_at b_files 0 0 = None /\
  (forall i, (i < List.length (w_coeff b_files))%nat -> coeff_at b_files i 0 0 = None) /\ exists v, rescale b_files Common = POk v.
Proof. exact b_blank. Qed.


Local Open Scope nat_scope.
(** C43. When rescaling ends with files. *)
Theorem C43_runs : forall w how ny nx name ff, maps_of_size w ny nx -> known_name name ff -> fitted_with w name ->
  ((exists v, rescale w how = POk v) <-> match how with FromFDF l => (0 < l)%R | Given _ => True | Common => exists y x, y < ny /\ x < nx /\ ref_at w y x <> None end).
Proof. exact @rescale_runs. Qed.
Print Assumptions C43_runs.
Local Open Scope R_scope.


Local Open Scope nat_scope.
(** C43. Polynomials in frequency: as many files as before, each coefficient times a power of the ratio. *)
Theorem C43_linear : forall w how v ny nx, maps_of_size w ny nx -> fitted_with w (s "linear") -> rescale w how = POk v -> (0 < v_ref v)%R ->
  (forall i, i < List.length (w_coeff w) -> exists y x r, y < ny /\ x < nx /\ ref_at w y x = Some r /\ (0 < r)%R /\ says (coeff_at w i y x)) ->
  List.length (v_coeff v) = List.length (w_coeff w) /\
  forall y x p r, y < ny -> x < nx -> ref_at w y x = Some r -> (0 < r)%R -> pixel_coeffs w y x p ->
    forall i, i < List.length (v_coeff v) -> new_coeff v i y x = Some (nth (5 - i) p 0%R * (v_ref v / r) ^ i)%R.
Proof. exact @rescale_linear_complete. Qed.
Print Assumptions C43_linear.
Local Open Scope R_scope.


Local Open Scope nat_scope.
(** C43. A cube fitted, then rescaled: the new coefficients give the model cube. *)
Theorem C43_fit_then_rescale : forall mpfit f k bunit history freq ord thr name ff am w how v,
  sky_cube f k -> six mpfit -> keeps_fixed mpfit -> known_name name ff -> (forall q, In q freq -> (0 < q)%R) ->
  fitIcube mpfit f bunit history freq ord thr name am = POk w -> rescale w how = POk v -> (0 < v_ref v)%R ->
  forall y x, y < len (i_naxis f) 2 -> x < len (i_naxis f) 1 -> (am = true -> detected f k thr y x) ->
    fittable (spectrum f k y x) (map (channel_noise f k thr) (seq 0 (len (i_naxis f) k))) ->
    exists fr p', pixel_says w freq y x fr /\ List.length p' = 6 /\
      (forall i, i < List.length (v_coeff v) -> new_coeff v i y x = Some (nth (5 - i) p' 0%R)) /\
      (forall q, (0 < q)%R -> I_spectrum ff p' (v_ref v) q = model_at fr q) /\
      (forall j, j < List.length freq -> model_sample w j y x = Some (I_spectrum ff p' (v_ref v) (nth j freq 0%R))) /\
      (pcov fr <> None -> exists r, renormalize_StokesI_model fr (v_ref v) = POk r /\ forall i, i < List.length (v_coeff v) -> new_err v i y x = nth (5 - i) (perror r) None).
Proof. exact @fit_then_rescale. Qed.
Print Assumptions C43_fit_then_rescale.
Local Open Scope R_scope.
Example C43_fit_nonvacuous : keeps_fixed z_mpfit.
Proof. exact z_keeps. Qed.


(** C43. Finding: the frequency taken from an FDF is not c over the root of LAMSQ0. *)
Theorem C43_frequency_refuted : forall w l v, rescale w (FromFDF l) = POk v -> v_ref v <> 299792458 / sqrt l.
Proof. exact @fdf_frequency. Qed.
Print Assumptions C43_frequency_refuted.


(** C43. Finding: an order whose file is zero everywhere costs the highest order. *)
Theorem C43_gap_refuted : ~ forall w how v ny nx name ff y x p r,
  maps_of_size w ny nx -> known_name name ff -> fitted_with w name -> rescale w how = POk v -> (y < ny)%nat -> (x < nx)%nat ->
  ref_at w y x = Some r -> 0 < r -> 0 < v_ref v -> pixel_coeffs w y x p ->
  forall p', List.length p' = 6%nat -> (forall i, (i < 6)%nat -> Some (nth (5 - i) p' 0) = if (i <? List.length (v_coeff v))%nat then new_coeff v i y x else Some 0) ->
  forall f, 0 < f -> I_spectrum ff p' (v_ref v) f = I_spectrum ff p r f.
Proof. exact @gap_loses_order. Qed.
Print Assumptions C43_gap_refuted.

