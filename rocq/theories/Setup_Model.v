(** Set-up of RM-synthesis: depth grid, channel weights, theoretical noise and
    Stokes I at the reference frequency. /repo/RMtools_1D/do_RMsynth_1D.py and
    /repo/RMtools_3D/do_RMsynth_3D.py. Model only. *)
From Coq Require Import Reals List Arith ZArith Bool.
From Verif Require Import PyRes CBase NdArray PyList Synth_Model.
Import ListNotations.
Local Open Scope R_scope.

(** Python's round(x) without digits: nearest integer, ties to even. *)
Definition py_round (x : R) : Z :=
  let f := Int_part x in
  let r := x - IZR f in
  if Rlt_dec r (1 / 2) then f
  else if Rlt_dec (1 / 2) r then (f + 1)%Z
  else if Z.even f then f else (f + 1)%Z.

(** numpy.linspace(a, b, n); a negative n raises. *)
Definition linspace (a b : R) (n : Z) : pyres (list R) :=
  if (n <? 0)%Z then PErr
  else POk (match Z.to_nat n with
            | O => []
            | S O => [a]
            | S m => map (fun i => a + INR i * ((b - a) / INR m)) (seq 0 (S m))
            end).

(** do_RMsynth_1D.py:281-284. dPhi = 0 makes the quotient infinite or NaN, or
    divides by zero; [round] then raises. *)
Definition depth_grid_1D (phiMax dPhi : R) : pyres (list R) :=
  if Req_EM_T dPhi 0 then PErr
  else
    let nChanRM := py_int (IZR (py_round (Rabs ((phiMax - 0) / dPhi))) * 2 + 1) in
    let startPhi := - (IZR nChanRM - 1) * dPhi / 2 in
    let stopPhi := (IZR nChanRM - 1) * dPhi / 2 in
    linspace startPhi stopPhi nChanRM.

(** do_RMsynth_3D.py:158-161 *)
Definition depth_grid_3D (phiMax dPhi : R) : pyres (list R) :=
  if Req_EM_T dPhi 0 then PErr
  else
    let nChanRM := (py_int (IZR (py_round (Rabs ((phiMax - 0) / dPhi)))) * 2 + 1)%Z in
    let startPhi := - (IZR nChanRM - 1) * dPhi / 2 in
    let stopPhi := (IZR nChanRM - 1) * dPhi / 2 in
    linspace startPhi stopPhi (py_int (IZR nChanRM)).

(** numpy.diff *)
Definition np_diff (l : list R) : list R := map (fun ab => snd ab - fst ab) (combine l (tl l)).

(** do_RMsynth_1D.py:262-279, do_RMsynth_3D.py:137-155: (dPhi, phiMax) after
    filling in the defaults. A single channel makes nanmax raise. A zero range
    or zero spacing gives infinite defaults; modelled as an exception, because
    rounding an infinity raises (phiMax) or the grid is NaN (dPhi). *)
Definition grid_params (l2 : list R) (super_resolution : bool) (dPhi phiMax : option R) (nSamples : R)
    : pyres (R * R) :=
  match rmax_list l2, rmin_list l2, rmax_list (map Rabs (np_diff l2)) with
  | Some mx, Some mn, Some dmax =>
      let fwhm := if super_resolution then (if Req_EM_T (mx + mn) 0 then None else Some (2 / (mx + mn)))
                  else (if Req_EM_T (mx - mn) 0 then None else Some (38 / 10 / (mx - mn))) in
      match (match dPhi with Some d => Some d | None => match fwhm with Some f => Some (f / nSamples) | None => None end end),
            (match phiMax with
             | Some p => Some p
             | None => match fwhm with
                       | Some f => if Req_EM_T dmax 0 then None else Some (Rmax (sqrt 3 / dmax) (f * 10))
                       | None => None end end) with
      | Some d, Some p => POk (d, p)
      | _, _ => PErr
      end
  | _, _, _ => PErr
  end.

(* ------------------------------------------------------------------ noise *)

(** do_RMsynth_1D.py:197-198: |dq+du|/2 *)
Definition dqu_of (dq du : list (option R)) : list (option R) :=
  map (fun ab => match fst ab, snd ab with Some a, Some b => Some (Rabs (a + b) / 2) | _, _ => None end) (combine dq du).

(** do_RMsynth_1D.py:294-298. A zero error would give an infinite weight; that
    case is an exception here (every later number is then NaN). *)
Fixpoint inv_var (dqu : list (option R)) : pyres (list (option R)) :=
  match dqu with
  | [] => POk []
  | None :: t => pybind (inv_var t) (fun r => POk (None :: r))
  | Some s :: t => if Req_EM_T s 0 then PErr else pybind (inv_var t) (fun r => POk (Some (1 / s ^ 2) :: r))
  end.
Definition weights_1D (variance : bool) (n : nat) (dqu : list (option R)) : pyres (list (option R)) :=
  if variance then inv_var dqu else POk (repeat (Some 1) n).

Definition nan0 (x : option R) : R := match x with Some v => v | None => 0 end.

(** do_RMsynth_1D.py:370-373. [None]: the weights sum to zero. *)
Definition dFDFth (Ifreq0 : R) (w dqu : list (option R)) : option R :=
  let sw := rsum (map nan0 w) in
  if Req_EM_T sw 0 then None
  else Some (Rabs Ifreq0 * sqrt (rsum (map (fun ab => nan0 (fst ab) ^ 2 * nan0 (snd ab) ^ 2) (combine w dqu)) / sw ^ 2)).

(* ------------------------------------------------- Stokes I at freq0, 3D *)

(** numpy argmin *)
Definition argmin (l : list R) : option nat := argmax (fun a b => Rltb b a) l.

(** scipy map_coordinates of order 1 at height f between two planes, one pixel
    (util_misc.py:875-893) *)
Definition interp_images (a b f : R) : R := a + f * (b - a).

(** a[i] for a possibly negative Python index *)
Definition py_index {A} (l : list A) (i : Z) : pyres A :=
  let n := Z.of_nat (length l) in
  let i := if (i <? 0)%Z then (i + n)%Z else i in
  if (i <? 0)%Z then PErr else match nth_error l (Z.to_nat i) with Some x => POk x | None => PErr end.

(** do_RMsynth_3D.py:236-243, one pixel: [I] is its Stokes I model spectrum *)
Definition Ifreq0_3D (freq : list R) (I : list R) (freq0 : R) : pyres R :=
  match argmin (map (fun f => Rabs (f - freq0)) freq) with
  | None => PErr
  | Some idx =>
      let f := nth idx freq 0 in
      let z := Z.of_nat idx in
      if Rlt_dec f freq0 then
        pybind (py_index I z) (fun a => pybind (py_index I (z + 1)) (fun b => POk (interp_images a b (1 / 2))))
      else if Rlt_dec freq0 f then
        pybind (py_index I (z - 1)) (fun a => pybind (py_index I z) (fun b => POk (interp_images a b (1 / 2))))
      else py_index I z
  end.

(* --------------------------------------------------------- header axes *)

(** The four keywords of one axis. *)
Record lin_axis := mk_axis { NAXISn : Z; CRPIX : R; CRVAL : R; CDELT : R }.

(** do_RMsynth_3D.py:409-418 and 485-494: the depth axis of an output cube.
    One sample makes np.diff(...)[0] raise. *)
Definition write_depth_axis (phi : list R) : pyres lin_axis :=
  match np_diff phi with
  | [] => PErr
  | d :: _ => POk (mk_axis (Z.of_nat (length phi)) (INR (length phi / 2 + 1)) (nth (length phi / 2) phi 0) d)
  end.

(** util_RM.py:782-797 [fits_make_lin_axis]; division by a zero CDELT raises. *)
Definition fits_make_lin_axis (a : lin_axis) : pyres (list R) :=
  let start := CRVAL a + (1 - CRPIX a) * CDELT a in
  let stop := CRVAL a + (IZR (NAXISn a) - CRPIX a) * CDELT a in
  if Req_EM_T (CDELT a) 0 then PErr
  else linspace start stop (py_int (Rabs (start - stop) / CDELT a + 1)).
