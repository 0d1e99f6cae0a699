(** Vocabulary for statements about cut-outs. *)
From Coq Require Import Reals List Arith ZArith Bool.
From Verif Require Import PyList NdArray Cube_Model Cube_Spec.
Import ListNotations.
Local Open Scope nat_scope.

(** the third axis that matters: axis 3, or axis 4 if axis 3 has length one *)
Definition third_axis (naxis : list nat) : nat :=
  match naxis with [_; _; 1; _] => 4 | _ => 3 end.

(** pixels lo..hi (from 1, inclusive), inside an axis of length n; -1 is the end
    of the axis *)
Definition clip (n : nat) (lo hi : Z) : Z * Z :=
  (Z.max 1 lo, if (hi =? -1)%Z then Z.of_nat n else Z.min (Z.of_nat n) hi).

(** limits kept on axis a, for pixel limits x, y and (if given) z *)
Definition limits (naxis : list nat) (x y : Z * Z) (z : option (Z * Z)) (a : nat) : Z * Z :=
  if a =? 1 then clip (len naxis 1) (fst x) (snd x)
  else if a =? 2 then clip (len naxis 2) (fst y) (snd y)
  else if a =? third_axis naxis then match z with Some z => clip (len naxis a) (fst z) (snd z) | None => (1%Z, Z.of_nat (len naxis a)) end
  else (1%Z, Z.of_nat (len naxis a)).

(** where a voxel of the cut-out comes from *)
Definition source (lim : nat -> Z * Z) (p : nat -> nat) : nat -> nat := fun a => p a + Z.to_nat (fst (lim a) - 1).
