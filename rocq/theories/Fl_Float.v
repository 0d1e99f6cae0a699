(** The two roundings of IEEE 754 arithmetic with an unbounded exponent:
    to nearest, ties to even, with 24 and 53 binary digits. *)
From Coq Require Import Reals ZArith.
From Flocq Require Import Core.
Definition f32 (x : R) : R := round radix2 (FLX_exp 24) ZnearestE x.
Definition f64 (x : R) : R := round radix2 (FLX_exp 53) ZnearestE x.
