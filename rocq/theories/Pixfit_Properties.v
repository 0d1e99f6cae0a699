(** Peak maps: claim C46. *)
From Coq Require Import Reals List Arith ZArith Lia Lra Bool Permutation.
Set Warnings "-ambiguous-paths".
From Coquelicot Require Import Coquelicot.
From Verif Require Import CBase NdArray NdIndex PyRes PyStr PyStr_Proofs PyList Setup_Model Setup_Spec Setup_Proofs Cube_Model Cube_Spec Cube_Proofs Cube_Properties Measure_Model Measure_Spec Run1D_Spec Pixfit_Model Pixfit_Spec Pixfit_Proofs Pixfit_Laws Pixfit_Files Pixfit_More.
From Coq Require Import String Ascii.
Import ListNotations.
Local Open Scope R_scope.

(** C46. Every product at every sky position of the files is that of the spectrum there, measured as by the 1-D tools; a position whose measurement fails is NaN. *)
Theorem C46_files : forall f k a b fwhm freq lam0 Ps noise g variance crpix crval cdelt,
  wf_image f -> spectral_axis (s "FDEP") (i_ctype f) k -> (2 <= len (i_naxis f) k)%nat ->
  long_axes (i_naxis f) (rev (others k (List.length (i_naxis f)))) = [a; b] ->
  filter (fun n => negb (n =? 1)%nat) (shape fwhm) = [len (i_naxis f) a; len (i_naxis f) b] ->
  0 < cdelt -> freq <> [] -> (forall x, In x freq -> 0 < x) ->
  good_stokes_file freq lam0 (i_naxis f) k g -> good_noise (List.length freq) noise ->
  let n := len (i_naxis f) k in
  exists m, peakfit_files f (mk_axis (Z.of_nat n) crpix crval cdelt) fwhm freq lam0 (names Ps) noise g (Some variance) = POk m /\
    maps_of (names Ps) (len (i_naxis f) a) (len (i_naxis f) b) m /\
    forall p, in_image (i_naxis f) p -> exists i0, ref_in freq lam0 k g p i0 /\
      let fw := nth (p a * len (i_naxis f) b + p b) (flat fwhm) None in
      let dF := noise_of variance noise i0 in
      forall P map, In (s (product_name P), map) m ->
        match measure_FDF_parms (sky_spectrum f k p) (List.map (fun j => world crval crpix cdelt (S j)) (seq 0 n)) fw dF (List.map lsq freq) lam0 5 with
        | POk q => reports freq lam0 q fw i0 dF P (at_nd None map [p a; p b])
        | PErr => at_nd None map [p a; p b] = None
        end.
Proof. exact @peakfit_files_maps. Qed.
Print Assumptions C46_files.
(** four channels, reference at the second *)
Definition px_freq : list R := [1; 2; 3; 4].
Lemma px_ref : 299792458 / sqrt ((299792458 / 2) ^ 2) = 2.
Proof. rewrite sqrt_pow2 by lra. field. Qed.
Lemma px_pos : forall x, In x px_freq -> 0 < x.
Proof. intros x I. repeat destruct I as [<- | I]; try lra. destruct I. Qed.
Lemma px_asc : ascending px_freq.
Proof. intros i j H. cbn in H. destruct i as [|[|[|[|i]]]], j as [|[|[|[|j]]]]; try lia; cbn; lra. Qed.
Lemma px_lam0 : 0 < (299792458 / 2) ^ 2.
Proof. apply pow_lt. lra. Qed.
Example C46_nonvacuous : let f := ex_image "FDEP" (Some (RtoC 1)) in let g := Some (ex_image "FREQ" (Some 1)) in
  wf_image f /\ spectral_axis (s "FDEP") (i_ctype f) 3 /\ (2 <= len (i_naxis f) 3)%nat /\
  long_axes (i_naxis f) (rev (others 3 (List.length (i_naxis f)))) = [2; 1]%nat /\
  filter (fun n => negb (n =? 1)%nat) [1; 1; 3; 2]%nat = [len (i_naxis f) 2; len (i_naxis f) 1] /\
  (forall x, In x px_freq -> 0 < x) /\ good_stokes_file px_freq ((299792458 / 2) ^ 2) (i_naxis f) 3 g /\
  good_noise (List.length px_freq) (Some [Some 1; None; Some 2; Some 1]).
Proof.
  split; [apply ex_wf|]. split; [apply (ex_axis "FDEP"); auto|]. split; [cbn; lia|]. split; [reflexivity|]. split; [reflexivity|]. split; [exact px_pos|]. split.
  - split; [apply ex_wf|]. split; [apply (ex_axis "FREQ"); auto|]. split; [reflexivity|]. split; [discriminate|]. split; [exact px_asc|]. split; [exact px_lam0|]. rewrite px_ref. cbn. lra.
  - split; [reflexivity|]. split; [|exists 1; now left]. intros v I. cbn in I. repeat destruct I as [E | I]; try discriminate; try (injection E as <-; lra). destruct I.
Qed.


(** C46. The same for the arrays. *)
Theorem C46_maps : forall FDF phi fwhm freq lam0 Ps noise I variance nphi ny nx,
  shape FDF = [nphi; ny; nx] -> shape fwhm = [ny; nx] -> freq <> [] -> (forall f, In f freq -> 0 < f) ->
  good_stokes freq lam0 I ny nx -> good_noise (List.length freq) noise ->
  exists m, pixelwise_peak_fitting FDF phi fwhm (map lsq freq) lam0 (names Ps) noise I (Some variance) = POk m /\ maps_of (names Ps) ny nx m /\
    forall x y, (x < ny)%nat -> (y < nx)%nat -> exists i0, ref_at freq lam0 I x y i0 /\
      let fw := at_nd None fwhm [x; y] in
      let dF := noise_of variance noise i0 in
      forall P a, In (s (product_name P), a) m ->
        match measure_FDF_parms (pixel_spectrum FDF nphi x y) phi fw dF (map lsq freq) lam0 5 with
        | POk p => reports freq lam0 p fw i0 dF P (at_nd None a [x; y])
        | PErr => at_nd None a [x; y] = None
        end.
Proof. exact @pixelwise_maps. Qed.
Print Assumptions C46_maps.
Example C46_maps_nonvacuous : good_stokes px_freq ((299792458 / 2) ^ 2) (Some (tab_nd [4; 2; 3]%nat (fun _ => Some 1))) 2 3.
Proof. split; [reflexivity|]. split; [exact px_asc|]. split; [exact px_lam0|]. rewrite px_ref. cbn. lra. Qed.


(** C46. Images one pixel wide or high, without Stokes I: maps of one row. *)
Theorem C46_strip : forall (f : image (option C)) (k b : nat) (fwhm : nd (option R)) (freq : list R) (lam0 crpix crval cdelt : R),
  wf_image f -> spectral_axis (s "FDEP") (i_ctype f) k -> (2 <= len (i_naxis f) k)%nat ->
  long_axes (i_naxis f) (rev (others k (List.length (i_naxis f)))) = [b] ->
  filter (fun n => negb (n =? 1)%nat) (shape fwhm) = [len (i_naxis f) b] -> 0 < cdelt -> freq <> [] -> (forall x, In x freq -> 0 < x) ->
  let n := len (i_naxis f) k in
  let ax := mk_axis (Z.of_nat n) crpix crval cdelt in
  let phi := map (fun j => world crval crpix cdelt (S j)) (seq 0 n) in
  forall Ps noise variance, good_noise (List.length freq) noise ->
    exists m, peakfit_files f ax fwhm freq lam0 (names Ps) noise None (Some variance) = POk m /\
      maps_of (names Ps) 1 (len (i_naxis f) b) m /\
      forall p, in_image (i_naxis f) p ->
        let w := nth (p b) (flat fwhm) None in
        let dF := noise_of variance noise (Some 1) in
        forall P map, In (s (product_name P), map) m ->
          match measure_FDF_parms (sky_spectrum f k p) phi w dF (List.map lsq freq) lam0 5 with
          | POk q => reports freq lam0 q w (Some 1) dF P (at_nd None map [0%nat; p b])
          | PErr => at_nd None map [0%nat; p b] = None
          end.
Proof. exact @peakfit_strip. Qed.
Print Assumptions C46_strip.
Example C46_strip_nonvacuous : long_axes [2; 1; 4]%nat (rev (others 3 3)) = [1]%nat /\ long_axes [1; 5; 4]%nat (rev (others 3 3)) = [2]%nat.
Proof. split; reflexivity. Qed.


(** C46. The lists of the tool are lists of products, the longest of all. *)
Theorem C46_lists : forall all_products peak_only ps, product_list all_products peak_only = POk ps ->
  (exists Ps, ps = names Ps /\ NoDup Ps) /\ (all_products = true -> forall P, In (s (product_name P)) ps).
Proof. exact @product_lists. Qed.
Print Assumptions C46_lists.


(** C46. One file for each map, named after the product, with its unit. *)
Theorem C46_saved : forall (dirs : list str) (m : maps) (d : str) c (name : str) bunit Ps,
  c <> slash -> (forall x, In x name -> x <> slash) -> (forall n a, In (n, a) m -> In n (names Ps)) ->
  let dir : str := (d ++ [c])%list in
  (In dir dirs \/ (forall x, In x dir -> x <> slash) \/
    (exists (up : str) c' (sub : str), dir = (up ++ [c'] ++ [slash] ++ sub)%list /\ c' <> slash /\ (forall x, In x sub -> x <> slash) /\ In (up ++ [c'])%list dirs)) ->
  exists dirs' files, save_maps dirs m (dir ++ [slash] ++ name) bunit = POk (dirs', files) /\ In dir dirs' /\
    map fst files = map (fun na => (dir ++ [slash] ++ name ++ fst na ++ s ".fits")%list) m /\
    forall P a, In (s (product_name P), a) m -> In ((dir ++ [slash] ++ name ++ s (product_name P) ++ s ".fits")%list, (product_unit (match bunit with Some u => u | None => [] end) P, a)) files.
Proof. exact @save_maps_files. Qed.
Print Assumptions C46_saved.
Example C46_saved_nonvacuous : exists files, save_maps [s "/data"] [(s "snrPIfit", tab_nd [1; 1]%nat (fun _ => Some 1))] (s "/data/new/run1_") None = POk ([s "/data/new"; s "/data"], files) /\
  map fst files = [s "/data/new/run1_snrPIfit.fits"].
Proof. eexists. split; reflexivity. Qed.


(** C46. Finding: one unknown name in the list blanks every map. *)
Theorem C46_unknown_name_refuted : forall FDF phi fwhm freq lam0 ps noise I variance nphi ny nx q,
  shape FDF = [nphi; ny; nx] -> shape fwhm = [ny; nx] -> freq <> [] -> (forall f, In f freq -> 0 < f) ->
  good_stokes freq lam0 I ny nx -> good_noise (List.length freq) noise ->
  In q ps -> (forall P, q <> s (product_name P)) ->
  exists m, pixelwise_peak_fitting FDF phi fwhm (map lsq freq) lam0 ps noise I (Some variance) = POk m /\ maps_of ps ny nx m /\
    forall n a x y, In (n, a) m -> (x < ny)%nat -> (y < nx)%nat -> at_nd None a [x; y] = None.
Proof. exact @pixelwise_unknown. Qed.
Print Assumptions C46_unknown_name_refuted.
Example C46_unknown_nonvacuous : forall P, s "dQU" <> s (product_name P).
Proof. intros P. destruct P; discriminate. Qed.


(** C46. Finding: an image of one column with a Stokes I cube has values in its first pixel only. *)
Theorem C46_column_refuted : forall (f : image (option C)) (k b : nat) (fwhm : nd (option R)) (freq : list R) (lam0 crpix crval cdelt : R),
  wf_image f -> spectral_axis (s "FDEP") (i_ctype f) k -> (2 <= len (i_naxis f) k)%nat ->
  long_axes (i_naxis f) (rev (others k (List.length (i_naxis f)))) = [b] ->
  filter (fun n => negb (n =? 1)%nat) (shape fwhm) = [len (i_naxis f) b] -> 0 < cdelt -> freq <> [] -> (forall x, In x freq -> 0 < x) ->
  let n := len (i_naxis f) k in
  let ax := mk_axis (Z.of_nat n) crpix crval cdelt in
  forall (g : image (option R)) (cube : nd (option R)), readFitsCube None g = POk cube -> good_stokes freq lam0 (Some cube) (len (i_naxis f) b) 1 ->
  forall Ps variance, (2 <= len (i_naxis f) b)%nat ->
      exists m, peakfit_files f ax fwhm freq lam0 (names Ps) None (Some g) (Some variance) = POk m /\ maps_of (names Ps) 1 (len (i_naxis f) b) m /\
        forall nm a y, In (nm, a) m -> (0 < y < len (i_naxis f) b)%nat -> at_nd None a [0%nat; y] = None.
Proof. exact @column_blank. Qed.
Print Assumptions C46_column_refuted.
Example C46_column_nonvacuous : exists cube, readFitsCube None (mk_image [1; 2; 4]%nat [Some (s "RA"); Some (s "DEC"); Some (s "FREQ")] (tab_nd [4; 2; 1]%nat (fun _ => Some 1))) = POk cube /\
  good_stokes px_freq ((299792458 / 2) ^ 2) (Some cube) 2 1.
Proof. eexists. split; [reflexivity|]. split; [reflexivity|]. split; [exact px_asc|]. split; [exact px_lam0|]. rewrite px_ref. cbn. lra. Qed.


(** C46. Finding: and with noise raises. *)
Theorem C46_column_noise_refuted : forall (f : image (option C)) (k b : nat) (fwhm : nd (option R)) (freq : list R) (lam0 crpix crval cdelt : R),
  wf_image f -> spectral_axis (s "FDEP") (i_ctype f) k -> (2 <= len (i_naxis f) k)%nat ->
  long_axes (i_naxis f) (rev (others k (List.length (i_naxis f)))) = [b] ->
  filter (fun n => negb (n =? 1)%nat) (shape fwhm) = [len (i_naxis f) b] -> 0 < cdelt -> freq <> [] -> (forall x, In x freq -> 0 < x) ->
  let n := len (i_naxis f) k in
  let ax := mk_axis (Z.of_nat n) crpix crval cdelt in
  forall (g : image (option R)) (cube : nd (option R)), readFitsCube None g = POk cube -> good_stokes freq lam0 (Some cube) (len (i_naxis f) b) 1 ->
  forall Ps ns variance, (2 <= len (i_naxis f) b)%nat -> good_noise (List.length freq) (Some ns) ->
      peakfit_files f ax fwhm freq lam0 (names Ps) (Some ns) (Some g) (Some variance) = PErr.
Proof. exact @column_raises. Qed.
Print Assumptions C46_column_noise_refuted.


(** C46. Finding: a single pixel raises. *)
Theorem C46_single_pixel_refuted : forall f k fwhm freq lam0 ps noise w crpix crval cdelt,
  wf_image f -> spectral_axis (s "FDEP") (i_ctype f) k -> (2 <= len (i_naxis f) k)%nat ->
  long_axes (i_naxis f) (rev (others k (List.length (i_naxis f)))) = [] -> 0 < cdelt ->
  peakfit_files f (mk_axis (Z.of_nat (len (i_naxis f) k)) crpix crval cdelt) fwhm freq lam0 ps noise None w = PErr.
Proof. exact @single_pixel_raises. Qed.
Print Assumptions C46_single_pixel_refuted.
Example C46_single_nonvacuous : long_axes [1; 1; 4]%nat (rev (others 3 3)) = [].
Proof. reflexivity. Qed.


(** C46. Finding: with the reference at zero Stokes I is half-way between the first two planes. *)
Theorem C46_zero_reference_refuted : forall freq cube ny nx, freq <> [] -> (forall f, In f freq -> 0 < f) -> (2 <= List.length freq)%nat -> shape cube = [List.length freq; ny; nx] ->
  exists I0, I_map (map lsq freq) 0 (Some cube) ny nx = POk I0 /\ shape I0 = [ny; nx] /\
    forall x y, (x < ny)%nat -> (y < nx)%nat ->
      at_nd None I0 [x; y] = match at_nd None cube [0%nat; x; y], at_nd None cube [1%nat; x; y] with Some u, Some v => Some ((u + v) / 2) | _, _ => None end.
Proof. exact @zero_reference. Qed.
Print Assumptions C46_zero_reference_refuted.


(** C46. Finding: negative Stokes I gives negative noise. *)
Theorem C46_negative_noise_refuted : forall FDF phi fwhm freq lam0 Ps ns cube variance nphi ny nx x y j z,
  shape FDF = [nphi; ny; nx] -> shape fwhm = [ny; nx] -> freq <> [] -> (forall f, In f freq -> 0 < f) ->
  good_stokes freq lam0 (Some cube) ny nx -> good_noise (List.length freq) (Some ns) -> List.length phi = nphi ->
  (x < ny)%nat -> (y < nx)%nat -> (0 < j < nphi - 1)%nat -> at_nd None FDF [j; x; y] = Some z ->
  (forall c, (c < List.length freq)%nat -> exists v, at_nd None cube [c; x; y] = Some v /\ v < 0) -> In Pnoise Ps ->
  exists m a v, pixelwise_peak_fitting FDF phi fwhm (map lsq freq) lam0 (names Ps) (Some ns) (Some cube) (Some variance) = POk m /\
    In (s "dFDFth", a) m /\ at_nd None a [x; y] = Some v /\ v < 0.
Proof. exact @negative_noise. Qed.
Print Assumptions C46_negative_noise_refuted.


(** C46. Finding: an output prefix without a directory raises after the fit. *)
Theorem C46_save_here_refuted : forall dirs m prefix bunit, (forall x, In x prefix -> x <> slash) -> save_maps dirs m prefix bunit = PErr.
Proof. exact @save_here_raises. Qed.
Print Assumptions C46_save_here_refuted.

