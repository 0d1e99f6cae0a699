(** What the spectra figures should show: words for the statements. Nothing here
    uses the model's functions, only its figures. *)
From Coq Require Import Reals List Arith Bool Ascii String.
Set Warnings "-ambiguous-paths".
From Coquelicot Require Import Coquelicot.
From Verif Require Import PyRes PyStr Fg_Model.
Import ListNotations.
Local Notation length := List.length.
Local Open Scope R_scope.

(** finite numbers as a column *)
Definition known (l : list R) : col := map Some l.

(** the modulus where both parts are known *)
Definition modulus_of (q u : option R) (p : option R) : Prop :=
  match q, u with Some a, Some b => p = Some (Cmod (a, b)) | _, _ => p = None end.
(** [r] is made of [a] and [b] point by point *)
Definition pointwise (rel : option R -> option R -> option R -> Prop) (a b r : col) : Prop :=
  length a = length r /\ length b = length r /\ forall i, (i < length r)%nat -> rel (nth i a None) (nth i b None) (nth i r None).

(** the least and greatest known value *)
Definition least (l : col) (x : R) : Prop := In (Some x) l /\ forall y, In (Some y) l -> x <= y.
Definition greatest (l : col) (x : R) : Prop := In (Some x) l /\ forall y, In (Some y) l -> y <= x.
(** the extent of the data and a margin on both sides *)
Definition margin (f : R) (l : col) (lim : R * R) : Prop :=
  exists lo hi, least l lo /\ greatest l hi /\ lim = (lo - f * (hi - lo), hi + f * (hi - lo)).

(** half of the known values are not above, and half not below *)
Definition middle (l : col) (m : R) : Prop :=
  let k := List.filter (fun x => match x with Some _ => true | None => false end) l in
  (length k <= 2 * length (List.filter (fun x => match x with Some x => if Rle_dec x m then true else false | None => false end) l))%nat /\
  (length k <= 2 * length (List.filter (fun x => match x with Some x => if Rle_dec m x then true else false | None => false end) l))%nat.

(** errors are at least zero *)
Definition errors_ok (d : col) : Prop := forall e, In (Some e) d -> 0 <= e.

(** the first-order error of a function of two independent quantities *)
Definition propagated (f : R -> R -> R) (x y dx dy e : R) : Prop :=
  exists fx fy, is_derive (fun t => f t y) x fx /\ is_derive (fun t => f x t) y fy /\ e = sqrt ((fx * dx) ^ 2 + (fy * dy) ^ 2).

(** an angle in degrees of a polarised signal *)
Definition angle_at (q u a : R) : Prop :=
  - (90) < a <= 90 /\ q = Cmod (q, u) * cos (2 * (a * PI / 180)) /\ u = Cmod (q, u) * sin (2 * (a * PI / 180)).
Definition angle_rel (q u a : option R) : Prop :=
  match q, u with Some q, Some u => exists x, a = Some x /\ angle_at q u x | _, _ => a = None end.

(** how many samples of a column are within limits *)
Definition tally (f : C -> R) (rows : list (list C)) (j : nat) (lo hi : R) : nat :=
  length (List.filter (fun r => if Rle_dec lo (f (nth j r (RtoC 0))) then if Rle_dec (f (nth j r (RtoC 0))) hi then true else false else false) rows).
(** a band of 1000 samples: 68 per cent within, half on each side of the line *)
Definition band_of (f : C -> R) (n : nat) (rows : list (list C)) (lo med hi : col) : Prop :=
  length lo = n /\ length med = n /\ length hi = n /\
  forall j, (j < n)%nat -> exists l m h, nth j lo None = Some l /\ nth j med None = Some m /\ nth j hi None = Some h /\ l <= m <= h /\
    (680 <= tally f rows j l h)%nat /\
    (500 <= length (List.filter (fun r => if Rle_dec (f (nth j r (RtoC 0))) m then true else false) rows))%nat /\
    (500 <= length (List.filter (fun r => if Rle_dec m (f (nth j r (RtoC 0))) then true else false) rows))%nat.

(** the angle of a complex number, zero for zero *)
Definition angle_fun (f : C -> R) : Prop := f (RtoC 0) = 0 /\ forall z, z <> RtoC 0 -> angle_at (fst z) (snd z) (f z).

(** orientations are the same after half a turn: within [w] degrees of [a] *)
Definition near (a w x : R) : Prop := exists k, Rabs (x - a - 180 * IZR k) <= w.

(** [r] is made of [a] point by point *)
Definition each {A} (rel : option A -> option R -> Prop) (a : list (option A)) (r : col) : Prop :=
  length r = length a /\ forall i, (i < length a)%nat -> rel (nth i a None) (nth i r None).
Definition part (f : C -> R) (z : option C) (r : option R) : Prop := match z with Some z => r = Some (f z) | None => r = None end.
(** a Gaussian by its height, centre and full width at half maximum *)
Definition bell (a b w x : R) : R := a * exp (- (4 * ln 2) * (x - b) ^ 2 / w ^ 2).
(** the fitted peak near its centre *)
Definition fit_rel (a b w : R) (x y : option R) : Prop :=
  match x with Some x => (Rabs (x - b) <= w / 3 -> y = Some (bell a b w x)) /\ (w / 3 < Rabs (x - b) -> y = None) | None => y = None end.
