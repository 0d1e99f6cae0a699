(** Vocabulary for the Stokes I fit: channels (frequency, I, error), misfit,
    weighted mean, polynomials by degree. *)
From Coq Require Import Reals List Arith ZArith Bool.
From Verif Require Import CBase StokesI_Spec Mp_Spec.
Import ListNotations.
Local Open Scope R_scope.

(** errors that are all zero stand for unit errors *)
Definition with_errors (g : list (R * R * R)) : list (R * R * R) :=
  if forallb (fun t => if Req_EM_T (snd t) 0 then true else false) g then map (fun t => (fst t, 1)) g else g.

(** chi squared of a Stokes I model *)
Definition misfit (g : list (R * R * R)) (model : R -> R) : R :=
  rsum (map (fun t => ((model (fst (fst t)) - snd (fst t)) / snd t) ^ 2) g).

Definition mean_I (g : list (R * R * R)) : R := mean (map (fun t => snd (fst t)) g).

(** the sum of the weights, and the weighted mean *)
Definition weight_sum (g : list (R * R * R)) : R := rsum (map (fun t => 1 / snd t ^ 2) g).
Definition weighted_mean (g : list (R * R * R)) : R :=
  rsum (map (fun t => snd (fst t) / snd t ^ 2) g) / weight_sum g.

(** c 0 + c 1 x + ... + c d x^d *)
Definition polynomial (c : nat -> R) (d : nat) (x : R) : R := total (S d) (fun k => c k * x ^ k).

(** the matrix of the fit: column j belongs to the power d - j *)
Definition design (g : list (R * R * R)) (ref : R) (d : nat) : nat -> nat -> R :=
  fun i j => (fst (fst (nth i g (0, 0, 0))) / ref) ^ (d - j) / snd (nth i g (0, 0, 0)).

(** a list that is all zero but for its last entry *)
Definition last_only (d : nat) (v : R) : nat -> R := fun j => if Nat.eqb j d then v else 0.
