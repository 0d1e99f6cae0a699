(** Cubes, cut-outs, 2-D headers, companion names and peak maps: the theorems that count. *)
From Coq Require Import Reals List Arith ZArith Bool Ascii String Lia Lra.
Set Warnings "-ambiguous-paths".
From Coquelicot Require Import Coquelicot.
From Verif Require Import PyRes PyStr PyStr_Proofs PyList PyList_Proofs NdArray NdIndex CBase Interp_Model Synth_Model Synth_Spec
  Clean_Model CleanTop_Model Cube_Model Cube_Spec Cube_Proofs Cube_Laws Peak_Proofs Region_Model Region_Spec Region_Proofs
  Header_Model Header_Spec Header_Proofs.
Import ListNotations.
Local Open Scope nat_scope.

(** *** A cube with a degenerate Stokes axis, frequency third *)
Definition ex_ctype (spec : string) : list (option str) := [Some (s "RA---SIN"); Some (s "DEC--SIN"); Some (s spec); Some (s "STOKES")].
Definition ex_image {A} (spec : string) (x : A) : image A := mk_image [2; 3; 4; 1] (ex_ctype spec) (mk_nd [1; 4; 3; 2] (repeat x 24)).

Lemma ex_wf : forall A spec (x : A), wf_image (ex_image spec x).
Proof. intros. split; [reflexivity|]. split; reflexivity. Qed.

Lemma not_hit : forall pat c, caps pat -> hit pat c = false -> ~ mentions pat c.
Proof. intros pat c C H M. apply hit_iff in M; auto. congruence. Qed.

Lemma ex_axis : forall spec, spec = "FREQ"%string \/ spec = "FDEP"%string -> spectral_axis (s spec) (ex_ctype spec) 3.
Proof.
  intros spec [-> | ->]; (split; [simpl; lia|]); split.
  - intros j Hj. simpl in Hj. assert (j = 4) as -> by lia. apply not_hit; [apply caps_FREQ|reflexivity].
  - left. apply hit_iff; [apply caps_FREQ|reflexivity].
  - intros j Hj. simpl in Hj. assert (j = 4) as -> by lia. apply not_hit; [apply caps_FDEP|reflexivity].
  - left. apply hit_iff; [apply caps_FDEP|reflexivity].
Qed.

(** C24. Reading puts the frequency axis first, drops axes of length one of images with four or more axes, and moves no voxel; more than three remaining axes is an error. *)
Theorem C24_read_cube : forall {A} (d : A) (f : image A) k, wf_image f -> spectral_axis (s "FREQ") (i_ctype f) k ->
  let N := List.length (i_naxis f) in
  let axes := k :: rev (others k N) in
  let kept := if 4 <=? N then long_axes (i_naxis f) axes else axes in
  (List.length kept <= 3 -> exists a, readFitsCube d f = POk a /\ wf_nd a /\ shape a = map (len (i_naxis f)) kept /\
     forall p, in_image (i_naxis f) p -> at_nd d a (map p kept) = vox d f p) /\
  (3 < List.length kept -> readFitsCube d f = PErr).
Proof. exact @read_cube. Qed.
Print Assumptions C24_read_cube.
Example C24_read_nonvacuous : wf_image (ex_image "FREQ" (Some 1%R)) /\ spectral_axis (s "FREQ") (i_ctype (ex_image "FREQ" (Some 1%R))) 3.
Proof. split; [apply ex_wf|apply (ex_axis "FREQ"); auto]. Qed.


(** C24. Writing puts the Faraday depth axis where frequency was, every voxel at its sky position. *)
Theorem C24_write_cube : forall {A} (d : A) naxis ctype k (cube : nd A) nphi kept,
  List.length ctype = List.length naxis -> spectral_axis (s "FREQ") ctype k ->
  (forall a, 1 <= a <= List.length naxis -> a <> k -> nth (a - 1) ctype None <> None) ->
  kept = rev (others k (List.length naxis)) \/ kept = long_axes naxis (rev (others k (List.length naxis))) ->
  wf_nd cube -> shape cube = nphi :: map (len naxis) kept ->
  exists out, writefits_cube d naxis ctype cube = POk out /\ wf_image out /\
    i_naxis out = with_len naxis k nphi /\
    (forall a, 1 <= a <= List.length naxis -> nth (a - 1) (i_ctype out) None = if a =? k then Some (s "FDEP") else nth (a - 1) ctype None) /\
    forall p, in_image (i_naxis out) p -> vox d out p = at_nd d cube (map p (k :: kept)).
Proof. exact @write_cube. Qed.
Print Assumptions C24_write_cube.
Example C24_write_nonvacuous : let naxis := [2; 3; 4; 1] in let kept := long_axes naxis (rev (others 3 4)) in
  kept = [2; 1] /\ (forall a, 1 <= a <= 4 -> a <> 3 -> nth (a - 1) (ex_ctype "FREQ") None <> None) /\
  wf_nd (mk_nd (7 :: map (len naxis) kept) (repeat 0 42)).
Proof.
  split; [reflexivity|]. split; [|reflexivity].
  intros a Ha Hk. assert (a = 1 \/ a = 2 \/ a = 4) as [-> | [-> | ->]] by lia; discriminate.
Qed.


(** C24. End to end: every voxel of the written cube is the Faraday spectrum of the spectrum at that sky position. *)
Theorem C24_rmsynth3d_voxels : forall (Q U : image (option R)) l2 phi wA lam0in k,
  wf_image Q -> wf_image U -> i_naxis U = i_naxis Q -> i_ctype U = i_ctype Q ->
  spectral_axis (s "FREQ") (i_ctype Q) k ->
  (forall a, 1 <= a <= List.length (i_naxis Q) -> a <> k -> nth (a - 1) (i_ctype Q) None <> None) ->
  (List.length (i_naxis Q) <= 3 \/
   len (i_naxis Q) k <> 1 /\ List.length (long_axes (i_naxis Q) (seq 1 (List.length (i_naxis Q)))) <= 3) ->
  len (i_naxis Q) k = List.length l2 ->
  match wA with None => True | Some w => List.length w = List.length l2 end ->
  antisym phi -> 2 <= List.length phi ->
  exists out l0, rmsynth3d_cube Q U l2 phi wA lam0in = POk out /\ wf_image out /\
    i_naxis out = with_len (i_naxis Q) k (List.length phi) /\
    (match lam0in with Some l => l0 = l | None => True end) /\
    ((forall a, 1 <= a <= List.length (i_naxis Q) -> a <> k -> ~ mentions (s "FDEP") (nth (a - 1) (i_ctype Q) None)) ->
     spectral_axis (s "FDEP") (i_ctype out) k) /\
    forall p, in_image (i_naxis out) p ->
      let chs := image_chans Q U k l2 (weights_of (List.length l2) wA) p in
      let c := vox None out p in
      (wsum chs = 0%R -> c = None) /\
      (wsum chs <> 0%R ->
        (c = None <-> forall f, In f phi -> FDF_spec chs l0 f = RtoC 0) /\
        (forall z, c = Some z -> z = FDF_spec chs l0 (nth (p k) phi 0%R))).
Proof. exact @rmsynth3d_voxels. Qed.
Print Assumptions C24_rmsynth3d_voxels.
Example C24_rmsynth3d_nonvacuous : let Q := ex_image "FREQ" (Some 1%R) in
  len (i_naxis Q) 3 <> 1 /\ List.length (long_axes (i_naxis Q) (seq 1 4)) <= 3 /\ antisym [-1; 0; 1]%R.
Proof.
  split; [discriminate|]. split; [simpl; lia|].
  intros k Hk. simpl in Hk. assert (k = 0 \/ k = 1 \/ k = 2) as [-> | [-> | ->]] by lia; simpl; lra.
Qed.


(** C24. Finding: an axis without CTYPE is read but writing the result fails. *)
Theorem C24_write_needs_ctype_refuted : forall {A} (d : A) naxis ctype k (cube : nd A) a,
  List.length ctype = List.length naxis -> spectral_axis (s "FREQ") ctype k ->
  1 <= a <= List.length naxis -> a <> k -> nth (a - 1) ctype None = None ->
  writefits_cube d naxis ctype cube = PErr.
Proof. exact @write_needs_ctype. Qed.
Print Assumptions C24_write_needs_ctype_refuted.
Example C24_ctype_nonvacuous : spectral_axis (s "FREQ") [None; None; Some (s "FREQ")] 3 /\ nth (1 - 1) [None; None; Some (s "FREQ")] None = None.
Proof.
  split; [|reflexivity]. split; [simpl; lia|]. split.
  - intros j Hj. simpl in Hj. lia.
  - left. apply hit_iff; [apply caps_FREQ|reflexivity].
Qed.


(** C25. Whenever rmclean3d returns, the three cubes have the shape of the input exactly when the axes of length one come first (in array order, leaving the Faraday depth axis aside); then every spectrum is at the sky position of its input. The Faraday depth axis has more than one sample. *)
Theorem C25_rmclean3d_axes : forall fdf rmsf phi phi2 fwhm cutoff maxIter gain pool window k,
  wf_image fdf -> spectral_axis (s "FDEP") (i_ctype fdf) k -> len (i_naxis fdf) k <> 1 ->
  let N := List.length (i_naxis fdf) in
  let kept := long_axes (i_naxis fdf) (k :: rev (others k N)) in
  forall cl cc rs,
  run_rmclean_cubes fdf rmsf phi phi2 fwhm cutoff maxIter gain pool window = POk (cl, cc, rs) ->
  (shape cl = rev (i_naxis fdf) <-> degenerate_first (i_naxis fdf) k) /\
  (degenerate_first (i_naxis fdf) k ->
    exists dirty RMSF r, do_rmclean_hogbom dirty phi RMSF phi2 fwhm cutoff maxIter gain None pool window = CRetOk r /\
      wf_nd dirty /\ shape dirty = map (len (i_naxis fdf)) kept /\
      (forall p, in_image (i_naxis fdf) p -> at_nd None dirty (map p kept) = vox None fdf p) /\
      forall out res, In (out, res) [(cl, cleanFDF r); (cc, ccArr r); (rs, residFDF r)] ->
        shape out = rev (i_naxis fdf) /\
        forall p, in_image (i_naxis fdf) p -> at_nd None out (map p (rev (seq 1 N))) = at_nd None res (map p kept)).
Proof. exact @rmclean3d_axes. Qed.
Print Assumptions C25_rmclean3d_axes.
Example C25_nonvacuous : let f := ex_image "FDEP" (Some (RtoC 1)) in
  wf_image f /\ spectral_axis (s "FDEP") (i_ctype f) 3 /\ len (i_naxis f) 3 <> 1 /\ degenerate_first (i_naxis f) 3.
Proof.
  split; [apply ex_wf|]. split; [apply (ex_axis "FDEP"); auto|]. split; [discriminate|].
  exists 1, [3; 2]. split; [reflexivity|]. intros n [<- | [<- | []]]; discriminate.
Qed.


(** C25. Putting the axes back never fails. *)
Theorem C25_rmclean3d_total : forall fdf rmsf phi phi2 fwhm cutoff maxIter gain pool window k r,
  wf_image fdf -> spectral_axis (s "FDEP") (i_ctype fdf) k -> len (i_naxis fdf) k <> 1 ->
  do_rmclean_hogbom (read_FDF_cube None fdf) phi (read_FDF_cube None rmsf) phi2 fwhm cutoff maxIter gain None pool window = CRetOk r ->
  exists o, run_rmclean_cubes fdf rmsf phi phi2 fwhm cutoff maxIter gain pool window = POk o.
Proof. exact @rmclean3d_total. Qed.
Print Assumptions C25_rmclean3d_total.


(** C25. Finding: an image one pixel wide comes back with its axes swapped. *)
Theorem C25_one_wide_refuted : exists (f : image nat) k, wf_image f /\ spectral_axis (s "FDEP") (i_ctype f) k /\
  i_naxis f = [1; 2; 3] /\
  exists out, restore_axes 0 (i_naxis f) (i_ctype f) (read_FDF_cube 0 f) = POk out /\ shape out = [3; 1; 2].
Proof. exact @restore_one_wide_refuted. Qed.
Print Assumptions C25_one_wide_refuted.


(** C23. 3 and 4 axes: the cut-out is the requested box clipped to the image, its header agrees with its data, each voxel keeps value and world coordinate (the distance to the reference pixel). Limits of the box are ordered, upper limits are not negative (or are -1). *)
Theorem C23_region_box : forall {A} (d : A) (f : image A) crpix (args : R * R * R * R) (center : bool) (zarg : option (Z * Z)) b0 b1 b2 b3,
  wf_image f -> List.length (i_naxis f) = 3 \/ List.length (i_naxis f) = 4 ->
  List.length crpix = List.length (i_naxis f) ->
  (b0, b1, b2, b3) = (match args with (a0, a1, a2, a3) => if center then (a0 - a1, a0 + a1, a2 - a3, a2 + a3)%R else args end) ->
  (b0 <= b1)%R -> (b2 <= b3)%R -> (0 <= py_int b1 \/ py_int b1 = -1)%Z -> (0 <= py_int b3 \/ py_int b3 = -1)%Z ->
  (forall z0 z1, zarg = Some (z0, z1) -> 1 <= z0 /\ 0 <= z1)%Z ->
  let N := List.length (i_naxis f) in
  let lim := limits (i_naxis f) (py_int b0, py_int b1) (py_int b2, py_int b3) zarg in
  exists out crpix', extract_region d f crpix args center zarg = POk (out, crpix') /\ wf_image out /\
    i_ctype out = i_ctype f /\ List.length (i_naxis out) = N /\ List.length crpix' = N /\
    (forall a, 1 <= a <= N -> len (i_naxis out) a = Z.to_nat (snd (lim a) - fst (lim a) + 1)) /\
    forall p, in_image (i_naxis out) p ->
      in_image (i_naxis f) (source lim p) /\ vox d out p = vox d f (source lim p) /\
      forall a, 1 <= a <= N ->
        (INR (p a + 1) - nth (a - 1) crpix' 0 = INR (source lim p a + 1) - nth (a - 1) crpix 0)%R.
Proof. exact @region_box. Qed.
Print Assumptions C23_region_box.
Example C23_nonvacuous : let f := ex_image "FREQ" 1 in
  wf_image f /\ (IZR 1 <= IZR 2)%R /\ (0 <= py_int (IZR 2))%Z /\
  limits (i_naxis f) (1, 2)%Z (0, 9)%Z (Some (2, 3)%Z) 2 = (1, 3)%Z /\ limits (i_naxis f) (1, 2)%Z (0, 9)%Z (Some (2, 3)%Z) 3 = (2, 3)%Z.
Proof. split; [apply ex_wf|]. split; [lra|]. split; [rewrite py_int_IZR; lia|]. split; reflexivity. Qed.


(** C23. Finding: -1 as an upper limit is always refused, because the limits are checked before it is interpreted. *)
Theorem C23_minus_one_refuted : forall {A} (d : A) (f : image A) crpix a0 a2 a3 zarg,
  (-1 < a0)%R -> extract_region d f crpix (a0, -1, a2, a3)%R false zarg = PErr.
Proof. exact @minus_one_rejected. Qed.
Print Assumptions C23_minus_one_refuted.
Example C23_minus_one_nonvacuous : (-1 < 1)%R.
Proof. lra. Qed.


(** C23. Finding: for 2-D images the last row and column of every box are lost. *)
Theorem C23_two_dimensions_refuted : forall {A} (d : A) (f : image A) crpix x0 x1 y0 y1,
  wf_image f -> List.length (i_naxis f) = 2 ->
  (1 <= x0 <= x1)%Z -> (x1 <= Z.of_nat (len (i_naxis f) 1))%Z ->
  (1 <= y0 <= y1)%Z -> (y1 <= Z.of_nat (len (i_naxis f) 2))%Z ->
  exists out crpix', extract_region d f crpix (IZR x0, IZR x1, IZR y0, IZR y1) false None = POk (out, crpix') /\
    i_naxis out = [Z.to_nat (x1 - x0); Z.to_nat (y1 - y0)].
Proof. exact @region_2d. Qed.
Print Assumptions C23_two_dimensions_refuted.
Example C23_2d_nonvacuous : let f := mk_image [4; 3] [None; None] (mk_nd [3; 4] (seq 0 12)) in
  wf_image f /\ (1 <= 2 <= 4)%Z /\ (4 <= Z.of_nat (len (i_naxis f) 1))%Z.
Proof. split; [split; [reflexivity|split; reflexivity]|]. simpl. lia. Qed.


(** C23. Finding: -1 on the third axis is the last plane but one. *)
Theorem C23_z_minus_one_refuted : exists (f : image nat) out crpix', wf_image f /\ i_naxis f = [1; 1; 4] /\ flat (i_data f) = [10; 20; 30; 40] /\
  extract_region 0 f [1; 1; 1]%R (IZR 1, IZR 1, IZR 1, IZR 1) false (Some (-1, -1)%Z) = POk (out, crpix') /\
  flat (i_data out) = [30].
Proof. exact @region_z_minus_one. Qed.
Print Assumptions C23_z_minus_one_refuted.


(** C23. Finding: a box outside the image can return pixels. *)
Theorem C23_outside_refuted : exists (f : image nat) out crpix', wf_image f /\ i_naxis f = [5; 1; 1] /\ flat (i_data f) = [10; 20; 30; 40; 50] /\
  extract_region 0 f [1; 1; 1]%R (IZR (-6), IZR (-3), IZR 1, IZR 1) false None = POk (out, crpix') /\
  flat (i_data out) = [10; 20].
Proof. exact @region_outside. Qed.
Print Assumptions C23_outside_refuted.


(** C26. The 2-D header: no keyword of the third and fourth axis is left, NAXIS and WCSAXES are 2, WCSAXES comes just before the first celestial keyword, and every other card is kept, in order. *)
Theorem C26_header_2d : forall (V : Type) (two : V) (h h' : list (str * V)), remove_header_third_fourth_axis two h = POk h' ->
    (forall c, In c h' -> ~ axis_key (fst c) /\ fst c <> s "STOKES") /\
    cards (s "NAXIS") h' = (s "NAXIS", two) :: tl (cards (s "NAXIS") h) /\
    cards (s "WCSAXES") h' = [(s "WCSAXES", two)] /\
    (exists a c b, h' = a ++ (s "WCSAXES", two) :: c :: b /\ celestial_key (fst c) /\ forall x, In x a -> ~ celestial_key (fst x)) /\
    (forall f : str -> bool, (forall k, f k = true -> ~ axis_key k /\ k <> s "STOKES" /\ k <> s "WCSAXES" /\ k <> s "NAXIS") ->
       filter (fun c => f (fst c)) h' = filter (fun c => f (fst c)) h) /\
    (forall f : str -> bool, (forall k, f k = true -> ~ axis_key k /\ k <> s "STOKES" /\ k <> s "WCSAXES") -> In (s "NAXIS") (map fst h) ->
       filter f (map fst h') = filter f (map fst h)).
Proof. exact @header_2d. Qed.
Print Assumptions C26_header_2d.


(** C26. It fails exactly when the header has no celestial keyword (finding: such a header is legal). *)
Theorem C26_header_2d_defined : forall (V : Type) (two : V) (h : list (str * V)),
    (exists h', remove_header_third_fourth_axis two h = POk h') <-> (exists c, In c h /\ celestial_key (fst c)).
Proof. exact @header_2d_defined. Qed.
Print Assumptions C26_header_2d_defined.
Example C26_nonvacuous : exists h', remove_header_third_fourth_axis 2 [(s "SIMPLE", 1); (s "NAXIS", 3); (s "NAXIS3", 5); (s "CRPIX1", 7); (s "CRPIX3", 7); (s "HISTORY", 0)]
    = POk h' /\ h' = [(s "SIMPLE", 1); (s "NAXIS", 2); (s "WCSAXES", 2); (s "CRPIX1", 7); (s "HISTORY", 0)].
Proof. eexists. split; [vm_compute; reflexivity|]. reflexivity. Qed.


(** C26. Finding: CD and CROTA keywords of the removed axes are left. *)
Theorem C26_cd_left_refuted : forall V (two : V) v, exists h',
  remove_header_third_fourth_axis two [(s "NAXIS", v); (s "CRPIX1", v); (s "CD3_3", v); (s "CROTA3", v)] = POk h' /\
  In (s "WCSAXES", two) h' /\ In (s "CD3_3", v) h' /\ In (s "CROTA3", v) h'.
Proof. exact @cd_left_behind. Qed.
Print Assumptions C26_cd_left_refuted.


(** C42. Whichever component is named, the real, imaginary and width files of the same directory and prefix are opened, if directory and prefix contain none of the markers. *)
Theorem C42_companion_names : forall pre, free3 pre ->
  forall stem tail, In (stem, tail) [(s "FDF", s "_dirty.fits"); (s "FDF_clean", s ".fits"); (s "FDF_CC", s ".fits"); (s "RMSF", s ".fits")] ->
  forall m, In m [s "_tot"; s "_real"; s "_im"] ->
  real_name (pre ++ stem ++ m ++ tail) = pre ++ stem ++ s "_real" ++ tail /\
  imag_name (pre ++ stem ++ m ++ tail) = pre ++ stem ++ s "_im" ++ tail /\
  fwhm_name (pre ++ stem ++ m ++ tail) = pre ++ stem ++ s "_FWHM" ++ tail.
Proof. exact @companion_names. Qed.
Print Assumptions C42_companion_names.
Example C42_nonvacuous : free3 (s "/data/run7/src_A/obs1_") /\
  real_name (s "/data/run7/src_A/obs1_" ++ s "FDF_im_dirty.fits") = s "/data/run7/src_A/obs1_FDF_real_dirty.fits".
Proof. split; [|reflexivity]. unfold free3. rewrite !free_contains. repeat split; reflexivity. Qed.


(** C42. The same for the width map of the peak fitting tool. *)
Theorem C42_peakfit_names : forall pre, free_of (s "FDF_") pre ->
  forall m, In m [s "FDF_tot_dirty"; s "FDF_real_dirty"; s "FDF_im_dirty"; s "FDF_clean_tot"; s "FDF_clean_real"; s "FDF_clean_im"] ->
  peakfit_fwhm_name (pre ++ m ++ s ".fits") = pre ++ s "RMSF_FWHM" ++ s ".fits".
Proof. exact @peakfit_names. Qed.
Print Assumptions C42_peakfit_names.
Example C42_peakfit_nonvacuous : free_of (s "FDF_") (s "/data/my_images/obs1_").
Proof. apply free_contains. reflexivity. Qed.


(** C42. Finding: a directory (or prefix) that contains a marker is changed. *)
Theorem C42_marker_directory_refuted : real_name (s "my_images/FDF_tot_dirty.fits") = s "my_realages/FDF_real_dirty.fits" /\
  imag_name (s "src_real/FDF_tot_dirty.fits") = s "src_im/FDF_im_dirty.fits" /\
  fwhm_name (s "my_images/RMSF_tot.fits") = s "my_FWHMages/RMSF_FWHM.fits".
Proof. exact @companion_dir_refuted. Qed.
Print Assumptions C42_marker_directory_refuted.


(** C45. Per pixel: the largest amplitude and the depth where it first occurs; NaN in both for blank pixels. Every pixel is blank or complete, as in every cube RM-synthesis makes (next theorem). *)
Theorem C45_peak_maps : forall (cube : nd (option C)) phi axis,
  axis < List.length (shape cube) -> nth axis (shape cube) 0 = List.length phi -> phi <> [] ->
  let sh := delete_at axis (shape cube) in
  (forall idx, valid sh idx ->
     (forall k, k < List.length phi -> at_nd None cube (insert_at axis k idx) = None) \/
     (forall k, k < List.length phi -> at_nd None cube (insert_at axis k idx) <> None)) ->
  exists mx rm, create_peak_maps cube phi axis = POk (mx, rm) /\
    shape mx = sh /\ shape rm = sh /\ wf_nd mx /\ wf_nd rm /\
    forall idx, valid sh idx ->
      let cell k := at_nd None cube (insert_at axis k idx) in
      ((forall k, k < List.length phi -> cell k = None) -> at_nd None mx idx = None /\ at_nd None rm idx = None) /\
      ((forall k, k < List.length phi -> cell k <> None) ->
        exists i z, i < List.length phi /\ cell i = Some z /\ at_nd None mx idx = Some (Cmod z) /\
          at_nd None rm idx = Some (nth i phi 0%R) /\
          (forall j y, j < List.length phi -> cell j = Some y -> (Cmod y <= Cmod z)%R) /\
          (forall j y, j < i -> cell j = Some y -> (Cmod y < Cmod z)%R)).
Proof. exact @peak_maps_spec. Qed.
Print Assumptions C45_peak_maps.
Example C45_nonvacuous : let cube := mk_nd [3; 2] [Some (RtoC 1); None; Some (RtoC 5); None; Some (RtoC 2); None] in
  0 < List.length (shape cube) /\ nth 0 (shape cube) 0 = List.length [-10; 0; 10]%R /\
  (forall idx, valid (delete_at 0 (shape cube)) idx ->
     (forall k, k < 3 -> at_nd None cube (insert_at 0 k idx) = None) \/ (forall k, k < 3 -> at_nd None cube (insert_at 0 k idx) <> None)).
Proof.
  split; [simpl; lia|]. split; [reflexivity|]. intros idx H. simpl in H.
  inversion H as [|a n l l' Ha Hl]; subst. inversion Hl; subst.
  assert (a = 0 \/ a = 1) as [-> | ->] by lia; [right|left]; intros k Hk;
    assert (k = 0 \/ k = 1 \/ k = 2) as [-> | [-> | ->]] by lia; first [discriminate | reflexivity].
Qed.


(** C45. Cubes made by RM-synthesis have no partially blank pixel. *)
Theorem C45_synth_columns : forall dataQ dataU l2 phi wA lam0in r,
  do_rmsynth_planes dataQ dataU l2 phi wA lam0in = Some r ->
  forall p, p < npix dataQ ->
    (forall k, k < List.length phi -> at2 (npix dataQ) None (flat (FDFcube r)) k p = None) \/
    (forall k, k < List.length phi -> at2 (npix dataQ) None (flat (FDFcube r)) k p <> None).
Proof. exact @synth_columns. Qed.
Print Assumptions C45_synth_columns.


(** C45. Finding: a partially blank pixel gives NaN for the maximum and the depth of the first blank sample. *)
Theorem C45_partial_blank_refuted : exists cube phi mx rm,
  create_peak_maps cube phi 0 = POk (mx, rm) /\
  flat cube = [Some (RtoC 1); None; Some (RtoC 5)] /\ phi = [-10; 0; 10]%R /\
  flat mx = [None] /\ flat rm = [Some 0%R].
Proof. exact @peak_partial_blank_refuted. Qed.
Print Assumptions C45_partial_blank_refuted.

