(** Python/numpy list operations used by several models: slices with negative
    bounds, roll, argmax, int() truncation. Executable where possible. *)
From Coq Require Import Reals List ZArith Arith.
Import ListNotations.

(** CPython slice bound normalisation for step 1 (PySlice_AdjustIndices). *)
Definition py_bound (n x : Z) : Z :=
  let x := if (x <? 0)%Z then (x + n)%Z else x in
  if (x <? 0)%Z then 0%Z else if (n <? x)%Z then n else x.

(** l[start:stop] *)
Definition py_slice {A} (l : list A) (start stop : Z) : list A :=
  let n := Z.of_nat (length l) in
  let a := Z.to_nat (py_bound n start) in
  let b := Z.to_nat (py_bound n stop) in
  firstn (b - a) (skipn a l).

(** is index j inside l[start:stop], for a list of length n *)
Definition in_slice (n : nat) (start stop : Z) (j : nat) : bool :=
  let n := Z.of_nat n in
  (py_bound n start <=? Z.of_nat j)%Z && (Z.of_nat j <? py_bound n stop)%Z.

(** numpy.roll(l, s): the element at i moves to (i+s) mod n. *)
Definition np_roll {A} (d : A) (l : list A) (s : Z) : list A :=
  let n := length l in
  map (fun j => nth (Z.to_nat ((Z.of_nat j - s) mod Z.of_nat n)) l d) (seq 0 n).

(** index of the first maximum for the order [ltb] (numpy.argmax). *)
Fixpoint argmax_aux {A} (ltb : A -> A -> bool) (i best : nat) (bv : A) (l : list A) : nat :=
  match l with
  | [] => best
  | x :: t => if ltb bv x then argmax_aux ltb (S i) i x t else argmax_aux ltb (S i) best bv t
  end.
(** [None]: ValueError on an empty array. *)
Definition argmax {A} (ltb : A -> A -> bool) (l : list A) : option nat :=
  match l with [] => None | x :: t => Some (argmax_aux ltb 1 0 x t) end.

(** l with element i replaced by f (l[i]) *)
Fixpoint upd {A} (l : list A) (i : nat) (f : A -> A) : list A :=
  match l, i with
  | [], _ => []
  | x :: t, O => f x :: t
  | x :: t, S i => x :: upd t i f
  end.

(** int(x) for a real: truncation towards zero. *)
Definition Rfloor (x : R) : Z := Int_part x.
Definition py_int (x : R) : Z :=
  if Rle_dec 0 x then Rfloor x else (- Rfloor (- x))%Z.

Definition Rltb (x y : R) : bool := if Rlt_dec x y then true else false.
Definition Rleb (x y : R) : bool := if Rle_dec x y then true else false.
