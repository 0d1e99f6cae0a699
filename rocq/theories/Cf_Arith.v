(** Complex arithmetic as a value: the operations that RM-CLEAN uses. *)
From Coq Require Import Reals List.
Set Warnings "-ambiguous-paths".
From Coquelicot Require Import Coquelicot.
Import ListNotations.
Local Open Scope R_scope.

(** modulus; real times complex; product; sum; difference; value of a Gaussian
    of amplitude [amp], mean, width at half height at x *)
Record arith := mk_arith {
  a_abs : C -> R; a_scal : R -> C -> C; a_mul : C -> C -> C; a_add : C -> C -> C; a_sub : C -> C -> C;
  a_gauss : C -> R -> R -> R -> C }.

(** The operations as NumPy before version 2 does them (setup.py:19), for
    spectra of a type with rounding [r]; [rw] is the rounding of float64, the
    type of Python numbers. [absf] is numpy.abs of a complex number and
    [gaussf mean fwhm x] the exponential factor of the Gaussian.
    - gain times one sample: both are scalars, so the result has the wide type
      (the product by the imaginary part 0 of the gain is exact);
    - component times array: the component is cast to the type of the array;
      a complex product takes four products, a difference and a sum;
    - [ccArr[i] += CC] and [cleanFDF += ...] add in the wide type and cast;
    - [residFDF -= ...] works in the type of the spectrum. *)
Definition rounded (r rw : R -> R) (absf : C -> R) (gaussf : R -> R -> R -> R) : arith :=
  mk_arith absf
    (fun g z => (rw (g * fst z), rw (g * snd z)))
    (fun z w => let x := r (fst z) in let y := r (snd z) in
       (r (r (x * fst w) - r (y * snd w)), r (r (x * snd w) + r (y * fst w))))
    (fun z w => (r (rw (fst z + fst w)), r (rw (snd z + snd w))))
    (fun z w => (r (fst z - fst w), r (snd z - snd w)))
    (fun amp m f x => (rw (fst amp * gaussf m f x), rw (snd amp * gaussf m f x))).

(** exact arithmetic *)
Definition exact : arith := mk_arith Cmod (fun g z => RtoC g * z)%C Cmult Cplus Cminus
  (fun amp m f x => amp * RtoC (exp (- ((x - m) ^ 2) / (2 * (f / (2 * sqrt (2 * ln 2))) ^ 2))))%C.
