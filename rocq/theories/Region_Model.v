(** Model of extract_region.py (RMtools_3D): cutting a box out of an image.

    Not modelled: sky coordinates (the code raises), the file existence checks,
    keywords other than NAXISn, CTYPEn and CRPIXn, which are copied. *)
From Coq Require Import Reals List Arith ZArith Bool.
From Verif Require Import PyRes PyList PyStr NdArray NdIndex Cube_Model.
Import ListNotations.
Local Open Scope nat_scope.

(** extract_region.py:82-90 *)
Definition box_of (center : bool) (a : R * R * R * R) : R * R * R * R :=
  match a with (a0, a1, a2, a3) => if center then (a0 - a1, a0 + a1, a2 - a3, a2 + a3)%R else a end.

(** extract_region.py:137-144: one pair of limits against the axis length *)
Definition clamp (n : nat) (lo hi : Z) : Z * Z :=
  ((if (lo <? 1)%Z then 1%Z else lo),
   (if (hi =? -1)%Z || (Z.of_nat n <? hi)%Z then Z.of_nat n else hi)).

(** extract_region.py:92-184. Axis lengths of the result are those of the data
    (astropy corrects NAXISn in the header when it writes the file). *)
Definition extract_region {A} (d : A) (f : image A) (crpix : list R) (args : R * R * R * R) (center : bool)
    (zarg : option (Z * Z)) : pyres (image A * list R) :=
  match box_of center args with (b0, b1, b2, b3) =>
  if Rltb b1 b0 then PErr
  else if Rltb b3 b2 then PErr
  else
    let naxis := i_naxis f in
    let NAXIS := List.length naxis in
    let n i := nth (i - 1) naxis 0 in
    let cube_axis := if NAXIS =? 3 then 3 else if NAXIS =? 4 then (if n 3 =? 1 then 4 else 3) else 2 in
    if (NAXIS <? 2) || (4 <? NAXIS) then PErr
    else
      let zlim := match zarg with Some z => z | None => (1%Z, Z.of_nat (n cube_axis)) end in
      let x := clamp (n 1) (py_int b0) (py_int b1) in
      let y := clamp (n 2) (py_int b2) (py_int b3) in
      let zs := (fst zlim - 1, snd zlim)%Z in
      let ys := (fst y - 1, snd y)%Z in
      let xs := (fst x - 1, snd x)%Z in
      let bounds :=
        if NAXIS =? 4 then
          (if cube_axis =? 3 then [(0%Z, Z.of_nat (n 4)); zs; ys; xs] else [zs; (0%Z, Z.of_nat (n 3)); ys; xs])
        else if NAXIS =? 3 then [zs; ys; xs]
        else [(fst y - 1, snd y - 1)%Z; (fst x - 1, snd x - 1)%Z] in
      let data := slice_nd d (i_data f) bounds in
      (* 171-182: CRPIX1 and CRPIX2 are set last, from the original header *)
      let new a c := if a =? 1 then (c - IZR (fst x) + 1)%R
                     else if a =? 2 then (c - IZR (fst y) + 1)%R
                     else if (a =? cube_axis) && (match zarg with Some _ => true | None => false end) then (c - IZR (fst zlim) + 1)%R
                     else c in
      let crpix := map (fun a => new a (nth (a - 1) crpix 0%R)) (seq 1 (List.length crpix)) in
      POk (mk_image (rev (shape data)) (i_ctype f) data, crpix)
  end.
