(** Model of how cubes are read and written (RMtools_3D): the place of the
    frequency / Faraday depth axis, removed and restored degenerate axes, the
    headers of the outputs, and peak maps.

    A FITS image is its axis lengths (FITS order), the CTYPE of each axis if
    present, and the data as numpy sees it (axes reversed). The other keywords
    do not take part here (the depth axis keywords are in Setup_Model.v, the 2D
    headers in Header_Model.v). *)
From Coq Require Import Reals List Arith ZArith Bool Ascii String.
Set Warnings "-ambiguous-paths".
From Coquelicot Require Import Coquelicot.
From Verif Require Import PyRes PyList PyStr NdArray NdIndex Synth_Model Clean_Model.
Import ListNotations.
Local Open Scope nat_scope.

Record image (A : Type) := mk_image { i_naxis : list nat; i_ctype : list (option str); i_data : nd A }.
Arguments mk_image {A} _ _ _.
Arguments i_naxis {A} _.
Arguments i_ctype {A} _.
Arguments i_data {A} _.

(** str.upper() on ASCII *)
Definition upper_ch (c : ascii) : ascii :=
  let n := nat_of_ascii c in
  if (97 <=? n) && (n <=? 122) then ascii_of_nat (n - 32) else c.
Definition upper (x : str) : str := map upper_ch x.

(** The loop shared by find_freq_axis (do_RMsynth_3D.py:720-730), writefits
    (355-362) and find_axes (do_RMclean_3D.py:371-385): the last axis whose
    CTYPE contains [pat], otherwise [dflt]. A missing CTYPE is skipped. *)
Definition find_axis (pat : str) (dflt : nat) (ctype : list (option str)) : nat :=
  fold_left (fun acc ic => match snd ic with
                           | Some ct => if contains pat (upper ct) then fst ic else acc
                           | None => acc
                           end) (combine (seq 1 (List.length ctype)) ctype) dflt.

(** do_RMsynth_3D.py:713-730 *)
Definition find_freq_axis (ctype : list (option str)) : nat := find_axis (s "FREQ") 0 ctype.

(** do_RMsynth_3D.py:755-778. [data] has the axes of the header, reversed. *)
Definition readFitsCube {A} (d : A) (f : image A) : pyres (nd A) :=
  let N_dim := List.length (i_naxis f) in
  let freq_axis := find_freq_axis (i_ctype f) in
  let data := if negb (freq_axis =? 0) && negb (freq_axis =? N_dim)
              then moveaxis d (i_data f) (N_dim - freq_axis) 0 else i_data f in
  let data := if 4 <=? N_dim then squeeze data else data in
  if 3 <? List.length (shape data) then PErr else POk data.

(** numpy.reshape *)
Definition reshape {A} (a : nd A) (sh : list nat) : pyres (nd A) :=
  if prodn sh =? prodn (shape a) then POk (mk_nd sh (flat a)) else PErr.

(** do_RMsynth_3D.py:664-682: an axis without CTYPE is a KeyError. The other
    effects of _setStokes are on the Stokes keywords only. *)
Definition setStokes_ok (ctype : list (option str)) : bool := forallb (fun c => match c with Some _ => true | None => false end) ctype.

(** do_RMsynth_3D.py:346-439 and 460-560: reshape and move the depth axis of a
    cube (FDF or RMSF) to where the frequency was, with the header of the
    template. The axis lengths in the file are those of the data (astropy). *)
Definition writefits_cube {A} (d : A) (naxis : list nat) (ctype : list (option str)) (cube : nd A) : pyres (image A) :=
  let Ndim := List.length naxis in
  let freq_axis := find_axis (s "FREQ") Ndim ctype in
  let ctype' := upd ctype (freq_axis - 1) (fun _ => Some (s "FDEP")) in
  let output_axes := rev (delete_at (freq_axis - 1) naxis) in
  pybind (reshape cube (nth 0 (shape cube) 0 :: output_axes)) (fun c =>
  let c := moveaxis d c 0 (Ndim - freq_axis) in
  if setStokes_ok ctype' then POk (mk_image (rev (shape c)) ctype' c) else PErr).

(** rmsynth3d without a Stokes I model, from the Q and U images to the image of
    the dirty FDF: do_RMsynth_3D.py:57-269 around do_rmsynth_planes, then 346-439. *)
Definition rmsynth3d_cube (Q U : image (option R)) (l2 phi : list R) (wA : option (list (option R))) (lam0in : option R)
    : pyres (image (option C)) :=
  pybind (readFitsCube None Q) (fun q =>
  pybind (readFitsCube None U) (fun u =>
  match do_rmsynth_planes q u l2 phi wA lam0in with
  | None => PErr
  | Some r => writefits_cube None (i_naxis Q) (i_ctype Q) (FDFcube r)
  end)).

(** do_RMclean_3D.py:371-385 *)
Definition find_axes (f : list (option str)) (Ndim : nat) : nat := find_axis (s "FDEP") Ndim f.

(** do_RMclean_3D.py:405-419: the complex cube with the depth axis first and
    without degenerate axes. *)
Definition read_FDF_cube {A} (d : A) (f : image A) : nd A :=
  let Ndim := List.length (i_naxis f) in
  let FD_axis := find_axes (i_ctype f) Ndim in
  let c := if negb (FD_axis =? Ndim) then moveaxis d (i_data f) (Ndim - FD_axis) 0 else i_data f in
  squeeze c.

(** do_RMclean_3D.py:146-163: what is done to the cleaned, component and
    residual cubes. A cube with more axes than the header (impossible after
    squeeze) is an exception. *)
Definition restore_axes {A} (d : A) (naxis : list nat) (ctype : list (option str)) (c : nd A) : pyres (nd A) :=
  let old_Ndim := List.length naxis in
  let FD_axis := find_axes ctype old_Ndim in
  let new_Ndim := List.length (shape c) in
  if old_Ndim <? new_Ndim then PErr
  else
    let c := mk_nd (repeat 1 (old_Ndim - new_Ndim) ++ shape c) (flat c) in
    POk (moveaxis d c (old_Ndim - new_Ndim) (old_Ndim - FD_axis)).

(** do_RMclean_3D.py:95-163: run_rmclean between reading and returning. The
    width map is squeezed by the code, which keeps the order of its elements. *)
Definition run_rmclean_cubes (fdf rmsf : image (option C)) (phi phi2 : list R) (fwhm : list (option R))
    (cutoff : R) (maxIter : nat) (gain : R) (pool : option (list nat)) (window : option R)
    : pyres (nd (option C) * nd (option C) * nd (option C)) :=
  match do_rmclean_hogbom (read_FDF_cube None fdf) phi (read_FDF_cube None rmsf) phi2 fwhm cutoff maxIter gain
          None pool window with
  | CRetOk r =>
      pybind (restore_axes None (i_naxis fdf) (i_ctype fdf) (cleanFDF r)) (fun cl =>
      pybind (restore_axes None (i_naxis fdf) (i_ctype fdf) (ccArr r)) (fun cc =>
      pybind (restore_axes None (i_naxis fdf) (i_ctype fdf) (residFDF r)) (fun rs => POk (cl, cc, rs))))
  | _ => PErr
  end.

(** numpy.max: NaN if any element is NaN; ValueError on an empty axis. *)
Definition np_max (l : list (option R)) : pyres (option R) :=
  match all_some l with
  | None => POk None
  | Some v => match rmax_list v with Some m => POk (Some m) | None => PErr end
  end.

(** numpy.argmax: the first NaN if any, else the first maximum. *)
Fixpoint first_none (i : nat) (l : list (option R)) : option nat :=
  match l with [] => None | None :: _ => Some i | Some _ :: t => first_none (S i) t end.
Definition np_argmax (l : list (option R)) : pyres nat :=
  match first_none 0 l with
  | Some i => POk i
  | None => match all_some l with
            | Some v => match argmax Rltb v with Some i => POk i | None => PErr end
            | None => PErr
            end
  end.

(** The values along one axis, at the other coordinates [idx]. *)
Definition along {A} (d : A) (a : nd A) (axis : nat) (idx : list nat) : list A :=
  map (fun k => at_nd d a (insert_at axis k idx)) (seq 0 (nth axis (shape a) 0)).

(** do_RMsynth_3D.py:703-710, one pixel. *)
Definition peak_pixel (phi : list R) (spec : list (option C)) : pyres (option R * option R) :=
  let amp := map (option_map Cmod) spec in
  pybind (np_max amp) (fun mx =>
  pybind (np_argmax amp) (fun i =>
  match nth_error phi i with
  | None => PErr
  | Some f => POk (mx, if forallb is_none spec then None else Some f)
  end)).

Fixpoint pyall {A} (l : list (pyres A)) : pyres (list A) :=
  match l with
  | [] => POk []
  | x :: t => pybind x (fun a => pybind (pyall t) (fun r => POk (a :: r)))
  end.

(** do_RMsynth_3D.py:685-710 [create_peak_maps]: maxPI and peakRM. *)
Definition create_peak_maps (cube : nd (option C)) (phi : list R) (axis : nat) : pyres (nd (option R) * nd (option R)) :=
  let sh := delete_at axis (shape cube) in
  pybind (pyall (map (fun idx => peak_pixel phi (along None cube axis idx)) (indices sh))) (fun l =>
  POk (mk_nd sh (map fst l), mk_nd sh (map snd l))).
