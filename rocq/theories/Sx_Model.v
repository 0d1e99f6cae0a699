(** Angles and numbers written out for people: RMutils/util_plotFITS.py:33-99,
    RMutils/util_misc.py:314-352, RMutils/util_plotTk.py:2232-2250. Model only.
    Numbers are reals; NaN and infinities are None. A minus zero does not exist:
    it arises in the code only as sign * dd, which "%03d" prints as 0. *)
From Coq Require Import Reals List Arith ZArith Bool Ascii String.
From Verif Require Import PyRes PyStr PyList Setup_Model.
Import ListNotations.
Local Open Scope R_scope.

(** "%0<w>d" % z *)
Definition fmt_d (w : nat) (z : Z) : str :=
  if (z <? 0)%Z then ("-"%char :: format0 (w - 1) (Z.to_nat (- z)))%list else format0 w (Z.to_nat z).
(** "%0<w>.<p>f" % x: nearest, ties to even *)
Definition fmt_f (w p : nat) (x : R) : str :=
  let n := Z.to_nat (py_round (Rabs x * 10 ^ p)) in
  let body := (str_of_nat (n / 10 ^ p) ++ match p with O => [] | _ => "."%char :: format0 p (n mod 10 ^ p) end)%list in
  let neg := if Rlt_dec x 0 then ["-"%char] else [] in
  (neg ++ repeat "0"%char (w - List.length neg - List.length body) ++ body)%list.

(** util_plotFITS.py:38-47, 69-80, util_misc.py:320-329: sign, whole units, minutes, seconds *)
Definition sign_of (x : R) : R := if Req_EM_T (Rabs x) 0 then 1 else Rabs x / x.
Definition sexagesimal (x : R) : Z * Z * R :=
  let angle := Rabs x in
  let dd := py_int angle in
  let rmndr := 60 * (angle - IZR dd) in
  let mm := py_int rmndr in
  (dd, mm, 60 * (rmndr - IZR mm)).

(** float("%05.2f" % ss) >= 60.0; ss is not negative *)
Definition rounds_to_60 (ss : R) : bool := if Rle_dec 60 (IZR (py_round (ss * 100)) / 100) then true else false.
(** util_plotFITS.py:49-55, 82-88; util_misc.py:331-337. [over]: what is left of
    the seconds, 0 for the labels and ss - 60 in deg2dms. mm - 60 is 0. *)
Definition carry (over : R -> R) (f : Z * Z * R) : Z * Z * R :=
  let '(dd, mm, ss) := f in
  let '(mm, ss) := if rounds_to_60 ss then ((mm + 1)%Z, over ss) else (mm, ss) in
  if (60 <=? mm)%Z then ((dd + 1)%Z, (mm - 60)%Z, ss) else (dd, mm, ss).

(** util_plotFITS.py:33-60 [label_format_dms]; int() raises for NaN and infinities *)
Definition label_dms (deg : option R) : pyres str :=
  match deg with
  | None => PErr
  | Some deg =>
      let sg := sign_of deg in
      let '(dd, mm, ss) := carry (fun _ => 0) (sexagesimal deg) in
      POk (fmt_d (if Rlt_dec 0 sg then 2 else 3) (py_int (sg * IZR dd)) ++ s "d" ++ fmt_d 2 mm ++ s "m")%list
  end.

(** util_plotFITS.py:64-93 [label_format_hms] *)
Definition label_hms (deg : option R) : pyres str :=
  match deg with
  | None => PErr
  | Some deg =>
      let hrs := deg / 15 in
      let sg := sign_of hrs in
      let '(dd, mm, ss) := carry (fun _ => 0) (sexagesimal hrs) in
      POk (fmt_d (if Rlt_dec 0 sg then 2 else 3) (py_int (sg * IZR dd)) ++ s "h" ++ fmt_d 2 mm ++ s "m" ++ fmt_f 2 0 ss ++ s "s")%list
  end.

(** util_plotFITS.py:97-98 [label_format_deg] *)
Definition label_deg (deg : R) : str := fmt_f 0 3 deg.

(** util_misc.py:314-352 [deg2dms]; None for an exception *)
Definition deg2dms (deg : option R) (delim : str) (doSign : bool) (nPlaces : Z) : option str :=
  match deg with
  | None => None
  | Some deg =>
      let sg := sign_of deg in
      let '(dd, mm, ss) := carry (fun x => x - 60) (sexagesimal deg) in
      let secs := if (0 <? nPlaces)%Z then fmt_f (2 + Z.to_nat nPlaces + 1) (Z.to_nat nPlaces) ss else fmt_f 2 0 ss in
      let pre := if Rlt_dec 0 sg then (if doSign then s "+" else []) else s "-" in
      Some (pre ++ fmt_d 2 dd ++ delim ++ fmt_d 2 mm ++ delim ++ secs)%list
  end.

(** util_plotTk.py:2232-2250 [label_format_exp]; "%g" is the oracle [fmt_g]. The
    logarithm of 0 raises. *)
Definition log10 (x : R) : R := ln x / ln 10.
Definition label_exp (fmt_g : R -> str) (switchExp : R) (num : option R) : pyres str :=
  match num with
  | None => PErr
  | Some x =>
      let absNum := if Req_EM_T x 0 then 0 else Rabs x in
      let sign := if Req_EM_T x 0 then [] else if (py_int (x / absNum) <? 0)%Z then s "-" else [] in
      let exponent := if Req_EM_T x 0 then 0 else log10 absNum in
      if Rle_dec switchExp (Rabs exponent) then
        if Req_EM_T absNum 0 then PErr
        else POk (s "$" ++ sign ++ s "10^{" ++ fmt_d 1 (py_int (log10 absNum)) ++ s "}$")%list
      else POk (s "$" ++ sign ++ fmt_g absNum ++ s "$")%list
  end.
