(** What the simulated cubes should hold. *)
From Coq Require Import Reals List Arith ZArith Bool Ascii String.
Set Warnings "-ambiguous-paths".
From Coquelicot Require Import Coquelicot.
From Verif Require Import CBase PyStr.
Import ListNotations.
Local Notation length := List.length.
Local Open Scope R_scope.

(** wavelength squared (m^2) of a frequency in Hz *)
Definition lam2 (f : R) : R := (299792458 / f) ^ 2.
Definition deg (x : R) : R := x * PI / 180.

(** distance between pixels i and j of a ring of n *)
Definition ring (n i j : nat) : nat := Nat.min (i - j + (j - i)) (n - (i - j + (j - i))).
(** A Gaussian of dispersion 20/2.35 pixels, one at the centre, cut off beyond
    34 pixels, on a ring of n pixels. *)
Definition beam (n i j : nat) : R :=
  if (ring n i j <=? 34)%nat then exp (- (INR (ring n i j)) ^ 2 / (2 * (20 / (235 / 100)) ^ 2)) else 0.

(** plain blurring of an image with that beam, one channel at a time *)
Definition blur (n : nat) (g : nat -> nat -> nat -> R) (x y c : nat) : R :=
  rsum (map (fun i => rsum (map (fun j => beam n x i * beam n y j * g i j c) (seq 0 n))) (seq 0 n)).

(** mean and root mean square deviation *)
Definition avg (l : list R) : R := rsum l / INR (length l).
Definition dev (l : list R) : R := sqrt (avg (map (fun x => (x - avg l) ^ 2) l)).
(** all voxels *)
Definition voxels (n nf : nat) (g : nat -> nat -> nat -> R) : list R :=
  flat_map (fun x => flat_map (fun y => map (g x y) (seq 0 nf)) (seq 0 n)) (seq 0 n).

(** a numbered line of text *)
Definition S_ (s : string) : str := list_ascii_of_string s.

(** the first card with a key *)
Fixpoint card {V} (k : str) (h : list (str * V)) : option V :=
  match h with [] => None | (k', v) :: t => if list_eq_dec ascii_dec k k' then Some v else card k t end.
