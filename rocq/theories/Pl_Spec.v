(** Vocabulary for statements about the numbers behind the figures. *)
From Coq Require Import Reals List Arith ZArith Bool.
From Verif Require Import Pl_Model.
Import ListNotations.
Local Open Scope R_scope.

(** below the lower or above the upper limit, where given *)
Definition outside (lo hi : option R) (v : R) : Prop := (exists l, lo = Some l /\ v < l) \/ (exists h, hi = Some h /\ h < v).

(** the samples i and i+1 are numbers further apart than d *)
Definition leaps (dat : list (option R)) (d : R) (i : nat) : Prop :=
  exists x y, nth i dat None = Some x /\ nth (S i) dat None = Some y /\ d < Rabs (y - x).
(** samples a to b-1 *)
Definition piece {A} (dat : list A) (ab : nat * nat) : list A := firstn (snd ab - fst ab) (skipn (fst ab) dat).

(** twice the signed area inside a path that ends where it started *)
Fixpoint twice_area (l : list (R * R)) : R :=
  match l with
  | p :: (q :: _) as t => fst p * snd q - fst q * snd p + twice_area t
  | _ => 0
  end.
(** sum of height times width *)
Fixpoint bars (bins n : list R) : R :=
  match bins, n with
  | b0 :: (b1 :: _) as t, h :: n => h * (b1 - b0) + bars t n
  | _, _ => 0
  end.
(** the outline of the bars from left to right *)
Fixpoint stairs (bins n : list R) : list (R * R) :=
  match bins, n with
  | b0 :: (b1 :: _) as t, h :: n => (b0, h) :: (b1, h) :: stairs t n
  | _, _ => []
  end.

(** parameters for which the stretch maps 0 to 0 and 1 to 1 *)
Definition sound (st : stretch) (mid exponent : option R) : Prop :=
  match st with
  | SLinear | SSqrt => True
  | SLog => exists m, mid = Some m /\ (0 < m \/ m < -1)
  | SArcsinh => exists m, mid = Some m /\ m <> 0
  | SPower => exists e, exponent = Some e /\ 0 < e
  | SOther => False
  end.

(** the curve of the stretch from the fraction r of the range to the shade y *)
Definition curve (st : stretch) (mid exponent : option R) (r y : R) : Prop :=
  match st with
  | SLinear => y = r
  | SSqrt => 0 <= y /\ y * y = r
  | SLog => forall m, mid = Some m -> m * (Rpower (1 + 1 / m) y - 1) = r
  | SArcsinh => forall m, mid = Some m -> m * sinh (y * arcsinh (1 / m)) = r
  | SPower => forall q, exponent = Some q -> r = 0 /\ y = 0 \/ 0 < r /\ y = Rpower r q
  | SOther => False
  end.
(** the stretch has the parameters it needs *)
Definition settled (st : stretch) (mid exponent : option R) : Prop :=
  match st with
  | SLinear | SSqrt => True
  | SLog | SArcsinh => exists m, mid = Some m /\ m <> 0
  | SPower => exponent <> None
  | SOther => False
  end.

(** the numbers of an array that count: zeros do not, if masked *)
Fixpoint kept (maskzero : bool) (l : list (option R)) : list R :=
  match l with
  | [] => []
  | None :: t => kept maskzero t
  | Some v :: t => if Req_EM_T v 0 then (if maskzero then kept maskzero t else v :: kept maskzero t) else v :: kept maskzero t
  end.
(** sum of a list *)
Fixpoint total (l : list R) : R := match l with [] => 0 | x :: t => x + total t end.
(** at least half of the list is not above m and at least half not below *)
Definition halves (l : list R) (m : R) : Prop :=
  (length l <= 2 * length (filter (fun x => if Rle_dec x m then true else false) l))%nat /\
  (length l <= 2 * length (filter (fun x => if Rle_dec m x then true else false) l))%nat.
