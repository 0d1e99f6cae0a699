(** The 3-D tool: RMtools_3D/do_RMsynth_3D.py, from the images to the files.
    Model only.

    Frequencies are finite and not zero. Non-finite samples are [None]. sys.exit
    and exceptions are PErr. Log messages are left out. A frequency or noise file
    with one line is read as an array without axes, which is outside the model.
    After an exception files may have been written. *)
From Coq Require Import Reals List Arith ZArith Bool Ascii String.
Set Warnings "-ambiguous-paths".
From Coquelicot Require Import Coquelicot.
From Verif Require Import CBase PyRes PyStr PyList NdArray NdIndex Synth_Model CleanTop_Model Setup_Model Cube_Model Measure_Model Pixfit_Model.
Import ListNotations.
Local Open Scope R_scope.

(** numpy a / b of two arrays of one shape; a zero divisor gives inf or NaN *)
Definition odiv_nd (a b : nd (option R)) : nd (option R) :=
  mk_nd (shape a) (map (fun xy => odiv (fst xy) (snd xy)) (combine (flat a) (flat b))).

(** a *= b, numpy: b has no more axes than a, and each of its axes, counted from
    the last, is one or that of a *)
Definition fits_in (sb sa : list nat) : bool :=
  ((List.length sb <=? List.length sa) &&
   forallb (fun mn => (fst mn =? 1) || (fst mn =? snd mn)) (combine sb (skipn (List.length sa - List.length sb) sa)))%nat.
Definition bc_index (sb idx : list nat) : list nat :=
  map (fun ni => if Nat.eqb (fst ni) 1 then 0%nat else snd ni) (combine sb (skipn (List.length idx - List.length sb) idx)).
Definition imul (a : nd (option C)) (b : nd (option R)) : pyres (nd (option C)) :=
  if fits_in (shape b) (shape a) then
    POk (tab_nd (shape a) (fun idx => match at_nd None a idx, at_nd None b (bc_index (shape b) idx) with
                                      | Some z, Some r => Some (z * RtoC r)%C
                                      | _, _ => None end))
  else PErr.

(** 235-239; numpy.nanmean of finite numbers *)
Definition freq0_3D (freq : list R) (lam0 : option R) : R :=
  match lam0 with
  | Some l => if Rlt_dec 0 l then c_light / sqrt l else rsum freq / INR (List.length freq)
  | None => rsum freq / INR (List.length freq)
  end.

(** 242-248: [plane] raises unless there are three axes *)
Definition Ifreq0Arr (freq : list R) (cube : nd (option R)) (f0 : R) : pyres (nd (option R)) :=
  match argmin (map (fun f => Rabs (f - f0)) freq) with
  | None => PErr
  | Some idx =>
      let f := nth idx freq 0 in
      let z := Z.of_nat idx in
      let two i j := pybind (plane cube i) (fun a => pybind (plane cube j) (fun b => POk (half_way a b))) in
      if Rlt_dec f f0 then two z (z + 1)%Z
      else if Rlt_dec f0 f then two (z - 1)%Z z
      else plane cube z
  end.

(** [g_variance]: weightType is "variance" *)
Record opts3 := mk_opts3 { g_phiMax : option R; g_dPhi : option R; g_nSamples : R; g_variance : bool; g_fitRMSF : bool;
  g_not_rmsynth : bool; g_not_rmsf : bool; g_super : bool }.

(** 253-267: the three forms of dataArr *)
Inductive data3 :=
  | OnlyFDF (FDF : nd (option C)) (phi : list R) (lam0 : R) (l2 : list R)
  | OnlyRMSF (RMSF : nd (option C)) (phi2 : list R) (fwhm : nd (option R)) (stat : nd Z) (lam0 : option R)
  | Both (FDF : nd (option C)) (phi : list R) (RMSF : nd (option C)) (phi2 : list R) (fwhm : nd (option R)) (stat : nd Z)
         (lam0 : option R) (l2 : list R).

(** str(a.shape) == str(b.shape) *)
Definition same_shape {A B} (a : nd A) (b : nd B) : bool := if list_eq_dec Nat.eq_dec (shape a) (shape b) then true else false.

(** 57-269 [run_rmsynth]. [fit]: the fitter of the spread function (the boolean:
    fit the real part). Where do_rmsynth_planes returns (None, None), so does the
    check in get_rmsf_planes with its four values for five names, or the
    comparison of None with 0 raises. The order of independent steps that can
    raise is not kept. *)
Definition run_rmsynth_3D (fit : bool -> list R -> list (option C) -> option (Z * R))
    (dataQ dataU : nd (option R)) (freq : list R) (dataI : option (nd (option R))) (rms : option (list (option R))) (o : opts3) : pyres data3 :=
  if (g_not_rmsynth o && g_not_rmsf o)%bool then PErr
  else if negb (same_shape dataQ dataU) then PErr
  else if negb (match dataI with Some i => same_shape i dataQ | None => true end) then PErr
  else
    let l2 := map (fun f => (c_light / f) ^ 2) freq in
    pybind (grid_params l2 (g_super o) (g_dPhi o) (g_phiMax o) (g_nSamples o)) (fun dp =>
    pybind (depth_grid_3D (snd dp) (fst dp)) (fun phi =>
    pybind (match rms with
            | Some r => weights_1D (g_variance o) (List.length freq) r
            | None => weights_1D false (List.length freq) []
            end) (fun w =>
    let qA := match dataI with Some i => odiv_nd dataQ i | None => dataQ end in
    let uA := match dataI with Some i => odiv_nd dataU i | None => dataU end in
    let lam0in := if g_super o then Some 0 else None in
    let msk := mk_nd (shape dataQ) (map is_none (flat dataQ)) in
    if g_not_rmsynth o then
      match get_rmsf_planes (fit (g_super o)) l2 phi (Some w) (Some msk) lam0in true (g_fitRMSF o || g_super o) with
      | RetOk s => POk (OnlyRMSF (RMSFcube s) (phi2Arr s) (fwhmRMSFArr s) (statArr s) (rmsf_lam0 s))
      | _ => PErr
      end
    else
      match do_rmsynth_planes qA uA l2 phi (Some w) lam0in with
      | None => PErr
      | Some r =>
        let lam0 := synth_lam0 r in
        pybind (match dataI with
                | None => POk (FDFcube r)
                | Some i => pybind (Ifreq0Arr freq i (freq0_3D freq (Some lam0))) (fun i0 => imul (FDFcube r) i0)
                end) (fun FDF =>
        if g_not_rmsf o then POk (OnlyFDF FDF phi lam0 l2)
        else match get_rmsf_planes (fit (g_super o)) l2 phi (Some w) (Some msk) (Some lam0) true (g_fitRMSF o || g_super o) with
             | RetOk s => POk (Both FDF phi (RMSFcube s) (phi2Arr s) (fwhmRMSFArr s) (statArr s) (rmsf_lam0 s) l2)
             | _ => PErr
             end)
      end))).

(** An image file: the complex cube whose real part, imaginary part and modulus
    are the three files (or three extensions), the depth axis and LAMSQ0. *)
Record cube_file := mk_cube_file { f_image : image (option C); f_axis : lin_axis; f_lamsq0 : R }.
Definition part_real (f : cube_file) : image (option R) :=
  mk_image (i_naxis (f_image f)) (i_ctype (f_image f)) (mk_nd (shape (i_data (f_image f))) (map (option_map fst) (flat (i_data (f_image f))))).
Definition part_imag (f : cube_file) : image (option R) :=
  mk_image (i_naxis (f_image f)) (i_ctype (f_image f)) (mk_nd (shape (i_data (f_image f))) (map (option_map snd) (flat (i_data (f_image f))))).
Definition part_tot (f : cube_file) : image (option R) :=
  mk_image (i_naxis (f_image f)) (i_ctype (f_image f)) (mk_nd (shape (i_data (f_image f))) (map (option_map Cmod) (flat (i_data (f_image f))))).

(** 385: a wavelength that is not finite is written as zero *)
Definition lamsq0_key (l : option R) : R := match l with Some l => l | None => 0 end.
(** 408-423 and 479-494 *)
Definition cube_to_file (naxis : list nat) (ctype : list (option str)) (cube : nd (option C)) (phi : list R) (lam0 : option R) : pyres cube_file :=
  pybind (write_depth_axis phi) (fun ax =>
  pybind (writefits_cube None naxis ctype cube) (fun im => POk (mk_cube_file im ax (lamsq0_key lam0)))).

(** What is written: FDF, RMSF with the width map, and the peak maps (with the
    depth axis left in as an axis of length one in front). *)
Record files3 := mk_files3 { o_fdf : option cube_file; o_rmsf : option (cube_file * nd (option R)); o_peak : option (nd (option R) * nd (option R)) }.

(** 272-646 [writefits] with do_peakmaps *)
Definition peak_files (naxis : list nat) (ctype : list (option str)) (f : cube_file) (phi : list R) : pyres (nd (option R) * nd (option R)) :=
  let Ndim := List.length naxis in
  pybind (create_peak_maps (i_data (f_image f)) phi (Ndim - find_axis (s "FREQ") Ndim ctype)) (fun m =>
  let front (a : nd (option R)) := mk_nd (1%nat :: shape a) (flat a) in
  POk (front (fst m), front (snd m))).
Definition writefits_3D (naxis : list nat) (ctype : list (option str)) (d : data3) : pyres files3 :=
  match d with
  | OnlyFDF FDF phi lam0 _ =>
      pybind (cube_to_file naxis ctype FDF phi (Some lam0)) (fun f =>
      pybind (peak_files naxis ctype f phi) (fun pk => POk (mk_files3 (Some f) None (Some pk))))
  | OnlyRMSF RMSF phi2 fwhm _ lam0 =>
      pybind (cube_to_file naxis ctype RMSF phi2 lam0) (fun f => POk (mk_files3 None (Some (f, fwhm)) None))
  | Both FDF phi RMSF phi2 fwhm _ lam0 _ =>
      pybind (cube_to_file naxis ctype FDF phi lam0) (fun f =>
      pybind (cube_to_file naxis ctype RMSF phi2 lam0) (fun g =>
      pybind (peak_files naxis ctype f phi) (fun pk => POk (mk_files3 (Some f) (Some (g, fwhm)) (Some pk)))))
  end.

(** 918-983 [main] after the command line: the header is that of Q *)
Definition rmsynth3d (fit : bool -> list R -> list (option C) -> option (Z * R))
    (Q U : image (option R)) (I : option (image (option R))) (freq : list R) (rms : option (list (option R))) (o : opts3) : pyres files3 :=
  pybind (match I with None => POk None | Some f => pybind (readFitsCube None f) (fun a => POk (Some a)) end) (fun dataI =>
  pybind (readFitsCube None Q) (fun q =>
  pybind (readFitsCube None U) (fun u =>
  pybind (run_rmsynth_3D fit q u freq dataI rms o) (fun d => writefits_3D (i_naxis Q) (i_ctype Q) d)))).
