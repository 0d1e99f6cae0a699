(** numpy.interp and the extrapolating wrapper. *)
From Coq Require Import Reals List.
Import ListNotations.
Local Open Scope R_scope.

(** numpy.interp for x at or right of the first node: walk to the segment
    containing x. Beyond the last node the last ordinate is returned. *)
Fixpoint interp_from (x : R) (pts : list (R * R)) : R :=
  match pts with
  | [] => 0 (* not reached: numpy raises on empty input *)
  | [(_, y0)] => y0
  | (x0, y0) :: (((x1, y1) :: _) as rest) =>
      if Rlt_dec x x1 then y0 + (x - x0) * ((y1 - y0) / (x1 - x0))
      else interp_from x rest
  end.

(** numpy.interp(x, xp, yp) for increasing xp. *)
Definition np_interp (x : R) (xp yp : list R) : R :=
  match combine xp yp with
  | [] => 0
  | (x0, y0) :: rest => if Rlt_dec x x0 then y0 else interp_from x ((x0, y0) :: rest)
  end.

(** util_RM.py:801-815 (and the copy util_misc.py:1026-1040) [extrap] at one
    abscissa. [None] is the IndexError raised for arrays shorter than two. *)
Definition extrap (x : R) (xp yp : list R) : option R :=
  match xp, yp with
  | xp0 :: xp1 :: _, yp0 :: yp1 :: _ =>
      let n := length xp in
      let k := length yp in
      let xl := nth (n - 1) xp 0 in let xm := nth (n - 2) xp 0 in
      let yl := nth (k - 1) yp 0 in let ym := nth (k - 2) yp 0 in
      let y := np_interp x xp yp in
      let y := if Rlt_dec x xp0
               then yp0 + (x - xp0) * (yp0 - yp1) / (xp0 - xp1) else y in
      let y := if Rlt_dec xl x
               then yl + (x - xl) * (yl - ym) / (xl - xm) else y in
      Some y
  | _, _ => None
  end.
