(** Vocabulary for statements about RM-CLEAN with rounding. *)
From Coq Require Import Reals List Arith ZArith.
Set Warnings "-ambiguous-paths".
From Coquelicot Require Import Coquelicot.
From Verif Require Import CBase Clean_Spec Cf_Arith.
Import ListNotations.
Local Open Scope R_scope.

(** An arithmetic with relative errors: u of sums and differences, v of the
    product by a real number, m of the complex product, e of the modulus, h of
    the Gaussian (relative to its amplitude). *)
Definition accurate (a : arith) (fwhm u v m e h : R) : Prop :=
  (forall z, Rabs (a_abs a z - Cmod z) <= e * Cmod z) /\
  (forall g z, Cmod (a_scal a g z - RtoC g * z)%C <= v * Rabs g * Cmod z) /\
  (forall z w, Cmod (a_mul a z w - z * w)%C <= m * Cmod z * Cmod w) /\
  (forall z w, Cmod (a_add a z w - (z + w))%C <= u * Cmod (z + w)%C) /\
  (forall z w, Cmod (a_sub a z w - (z - w))%C <= u * Cmod (z - w)%C) /\
  (forall amp mu x, Cmod (a_gauss a amp mu fwhm x - amp * RtoC (beam fwhm (x - mu)))%C <= h * Cmod amp).

(** Subtracted components, as pairs of channel and value: their total size, the
    sum of those of one channel, their exact response and their exact sum of
    beams. *)
Definition total (T : list (nat * C)) : R := fold_right Rplus 0 (map (fun t => Cmod (snd t)) T).
Definition at_chan (T : list (nat * C)) (i : nat) : C := csum (map (fun t => if Nat.eqb (fst t) i then snd t else czero) T).
Definition size_at (T : list (nat * C)) (i : nat) : R := fold_right Rplus 0 (map (fun t => if Nat.eqb (fst t) i then Cmod (snd t) else 0) T).

(** every sample is at most B *)
Definition samples_le (RMSF : list C) (B : R) : Prop := forall k, Cmod (nth k RMSF czero) <= B.

(** growth of k roundings, per unit: k u (1+u)^(k-1) *)
Definition grown (u : R) (k : nat) : R := INR k * u * (1 + u) ^ (pred k).

(** One source of amplitude A at channel i0, plus anything of size d at most. *)
Definition noisy_source (RMSF : list C) (imax n i0 : nat) (A : C) (d : R) (l : list C) : Prop :=
  length l = n /\ (i0 < n)%nat /\
  forall j, (j < n)%nat -> Cmod (nth j l czero - A * zsample RMSF (Z.of_nat imax + Z.of_nat j - Z.of_nat i0))%C <= d.

(** the RMSF is one at its peak and at most rho elsewhere *)
Definition sidelobes (RMSF : list C) (imax : nat) (rho : R) : Prop :=
  (imax < length RMSF)%nat /\ nth imax RMSF czero = RtoC 1 /\
  forall k, (k < length RMSF)%nat -> k <> imax -> Cmod (nth k RMSF czero) <= rho.

(** errors of one step at the source, relative to its residual: of the product,
    and of the new residual *)
Definition prod_err (g v m : R) : R := g * ((1 + v) * (1 + m) - 1).
Definition peak_err (g u v m : R) : R := prod_err g v m + u * (1 - g + prod_err g v m).
(** bound on the error of a residual, and of the component, after k steps, for
    a source of size A and noise d *)
Definition resid_err (g u v m A d : R) (k : nat) : R :=
  (1 + u) ^ k * (2 * d + (peak_err g u v m + prod_err g v m + u) * (A + d) / (g - peak_err g u v m)).
Definition comp_err (g u v m A d : R) (k : nat) : R :=
  (1 + u) ^ k * (d + (peak_err g u v m + v * g) * (A + d) / (g - peak_err g u v m) + INR k * u * A).

(** error of a complex product whose first factor is rounded before *)
Definition mul_err (u : R) : R := (1 + u) * (1 + 3 / 2 * ((1 + u) ^ 2 - 1)) - 1.
