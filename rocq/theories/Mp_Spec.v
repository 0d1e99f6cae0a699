(** Vocabulary for the statements about the fitter: vectors and matrices as
    functions of indices, least squares, and the fit as an outside observer
    sees it. Independent of the definitions in Mp_Model. *)
From Coq Require Import Reals List Arith ZArith Permutation.
From Verif Require Import CBase.
Import ListNotations.
Local Open Scope R_scope.

(** the sum of f 0, ..., f (n-1) *)
Definition total (n : nat) (f : nat -> R) : R := rsum (map f (seq 0 n)).

Definition dot (m : nat) (u v : nat -> R) : R := total m (fun i => u i * v i).

(** squared length of a vector: chi squared, for residuals *)
Definition sqlen (m : nat) (v : nat -> R) : R := dot m v v.

(** J p *)
Definition times (n : nat) (J : nat -> nat -> R) (p : nat -> R) : nat -> R := fun i => total n (fun j => J i j * p j).

Definition column (J : nat -> nat -> R) (j : nat) : nat -> R := fun i => J i j.

(** entries of J^T J *)
Definition gram (m : nat) (J : nat -> nat -> R) (a b : nat) : R := dot m (column J a) (column J b).

(** p minimises the length of f + J p *)
Definition least_squares (m n : nat) (J : nat -> nat -> R) (f p : nat -> R) : Prop :=
  forall z, sqlen m (fun i => f i + times n J p i) <= sqlen m (fun i => f i + times n J z i).

(** no column is a combination of the others, by the margin [tol] relative to
    the length of any column *)
Definition independent (tol : R) (m n : nat) (J : nat -> nat -> R) : Prop :=
  forall z k l, (k < n)%nat -> (l < n)%nat -> z k = 1 ->
    tol ^ 2 * gram m J l l < sqlen m (times n J z).

(** V is the inverse of the n x n matrix G *)
Definition inverse_of (n : nat) (G V : nat -> nat -> R) : Prop :=
  forall a b, (a < n)%nat -> (b < n)%nat -> total n (fun k => G a k * V k b) = if Nat.eqb a b then 1 else 0.

(** the parameters listed in [free] take the values x, the others keep theirs *)
Definition assigned (free : list nat) (start x p : nat -> R) : Prop :=
  (forall j, (j < length free)%nat -> p (nth j free 0%nat) = x j) /\
  (forall i, ~ In i free -> p i = start i).

(** residual [i] depends on the [npar] parameters only *)
Definition reads (npar m : nat) (fcn : (nat -> R) -> nat -> R) : Prop :=
  forall p q, (forall k, (k < npar)%nat -> p k = q k) -> forall i, (i < m)%nat -> fcn p i = fcn q i.

(** chi squared of the parameters p *)
Definition chi2 (m : nat) (fcn : (nat -> R) -> nat -> R) (p : nat -> R) : R := sqlen m (fcn p).

(** the increment used for numerical derivatives *)
Definition increment (x : R) : R := if Req_EM_T x 0 then / 2 ^ 26 else Rabs x / 2 ^ 26.

(** the slope of the residuals in parameter k at p, by a forward difference *)
Definition slope (fcn : (nat -> R) -> nat -> R) (p : nat -> R) (k i : nat) : R :=
  (fcn (fun l => if Nat.eqb l k then p k + increment (p k) else p l) i - fcn p i) / increment (p k).

(** residuals that are linear in the parameters left free: y + A p wherever the
    other parameters have their starting values *)
Definition linear_in (npar m : nat) (free : list nat) (start : nat -> R) (fcn : (nat -> R) -> nat -> R)
    (A : nat -> nat -> R) (y : nat -> R) : Prop :=
  reads npar m fcn /\ forall p, (forall k, ~ In k free -> p k = start k) -> forall i, (i < m)%nat ->
    fcn p i = y i + total npar (fun k => A i k * p k).

(** the length of a parameter vector, each parameter measured by the length of
    the column it multiplies *)
Definition scaled_length (m n : nat) (J : nat -> nat -> R) (x : nat -> R) : R :=
  sqrt (sqlen n (fun j => sqrt (gram m J j j) * x j)).

(** The full least-squares step from the starting values is at most 110 times
    as long as the starting values themselves (1 for vanishing values): the
    first trust region does not shorten it. *)
Definition within_reach (m n : nat) (J : nat -> nat -> R) (start step : nat -> R) : Prop :=
  let x := scaled_length m n J start in
  scaled_length m n J step <= 110 * (if Req_EM_T x 0 then 1 else x).

(** (J^T J + par D^2) x = J^T f *)
Definition lm_equations (m n : nat) (J : nat -> nat -> R) (f : nat -> R) (diag : nat -> R) (par : R) (x : nat -> R) : Prop :=
  forall l, (l < n)%nat -> total n (fun k => gram m J l k * x k) + par * (diag l * diag l) * x l = dot m (column J l) f.

(** the part of a matrix on and above the diagonal *)
Definition triangle (r : nat -> nat -> R) : nat -> nat -> R := fun i j => if Nat.leb i j then r i j else 0.

(** the columns of J taken in the order ipvt are Q R, with R the triangle of r
    and orthonormal columns Q, and qtf is Q^T f: seen through the products
    J^T J = P R^T R P^T and J^T f = P R^T qtf *)
Definition factor_of (m n : nat) (J : nat -> nat -> R) (f : nat -> R) (ipvt : nat -> nat) (r : nat -> nat -> R) (qtf : nat -> R) : Prop :=
  Permutation (map ipvt (seq 0 n)) (seq 0 n) /\
  (forall a b, (a < n)%nat -> (b < n)%nat -> dot n (column (triangle r) a) (column (triangle r) b) = gram m J (ipvt a) (ipvt b)) /\
  (forall a, (a < n)%nat -> dot n (column (triangle r) a) qtf = dot m (column J (ipvt a)) f).
