(** Vocabulary of the statements about the main lobe of the spread function.
    Nothing here comes from the model. *)
From Coq Require Import Reals List Arith ZArith Bool.
From Verif Require Import CBase.
Import ListNotations.
Local Open Scope R_scope.

(** The first of the largest samples. *)
Definition first_peak (y : list R) (k : nat) : Prop :=
  (k < length y)%nat /\ (forall i, (i < length y)%nat -> nth i y 0 <= nth k y 0) /\
  forall i, (i < k)%nat -> nth i y 0 < nth k y 0.

(** Sample [k + s] is the first from [k] on that is below [t]. *)
Definition falls_after (t : R) (y : list R) (k s : nat) : Prop :=
  (k + s < length y)%nat /\ nth (k + s) y 0 < t /\ forall j, (j < s)%nat -> t <= nth (k + j) y 0.

(** All samples from [k] to [i] are at or above [t]. *)
Definition joined (t : R) (y : list R) (k i : nat) : Prop :=
  forall j, (Nat.min i k <= j <= Nat.max i k)%nat -> t <= nth j y 0.

(** The samples around [k] look the same to the left and to the right. *)
Definition mirrored (y : list R) (k s : nat) : Prop :=
  (s <= k)%nat /\ forall j, (j <= s)%nat -> nth (k - j) y 0 = nth (k + j) y 0.

(** The numbers of the samples less than [s] away from [k]. *)
Definition around (k s : nat) : list nat := seq (k + 1 - s) (2 * s - 1).

Definition take (idx : list nat) (l : list R) : list R := map (fun i => nth i l 0) idx.

(** Which samples a fit should use: those at or above [t], unless there are
    fewer than four. *)
Definition used (t : R) (y : list R) (k s : nat) : list nat :=
  let above := filter (fun i => if Rle_dec t (nth i y 0) then true else false) (around k s) in
  if Nat.leb 4 (length above) then above else around k s.

(** A Gaussian of height [a] at [b], [w] wide where it is half as high. *)
Definition gaussian (a b w x : R) : R := a * exp (- ln 2 * (2 * (x - b) / w) ^ 2).

Definition distance (xs ys : list R) (a b w : R) : R :=
  rsum (map (fun p => (gaussian a b w (fst p) - snd p) ^ 2) (combine xs ys)).

(** The largest minus the smallest. *)
Definition extent (xs : list R) (e : R) : Prop :=
  exists hi lo, In hi xs /\ In lo xs /\ (forall x, In x xs -> lo <= x <= hi) /\ e = hi - lo.

(** Where the samples less than [s] away from sample [c] are, [step] apart, seen
    from sample [c]. *)
Definition lobe_axis (c s : nat) (step : R) : list R := map (fun i => (INR i - INR c) * step) (around c s).
