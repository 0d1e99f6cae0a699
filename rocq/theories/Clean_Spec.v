(** Vocabulary for the RM-CLEAN theorems; independent of Clean_Model. *)
From Coq Require Import Reals List Arith ZArith Bool Permutation.
Set Warnings "-ambiguous-paths".
From Coquelicot Require Import Coquelicot.
From Verif Require Import CBase.
Import ListNotations.
Local Open Scope R_scope.

Definition czero : C := RtoC 0.

(** Channel j of the response, through an RMSF sampled on a longer grid whose
    peak is at sample [imax], to components [ccs]: sum_i cc_i R[imax + j - i].
    The index is an integer and a sample outside the grid counts as absent
    (zero), so no wrap-around. *)
Definition zsample (l : list C) (k : Z) : C :=
  if (k <? 0)%Z then czero else nth (Z.to_nat k) l czero.

Definition response (RMSF : list C) (imax : nat) (ccs : list C) (j : nat) : C :=
  csum (map (fun i => (nth i ccs czero * zsample RMSF (Z.of_nat imax + Z.of_nat j - Z.of_nat i))%C)
            (seq 0 (length ccs))).

(** Gaussian restoring beam: peak one, full width at half maximum [fwhm]. *)
Definition beam (fwhm x : R) : R := exp (- (4 * ln 2) * (x / fwhm) ^ 2).

Definition restored (fwhm : R) (phi : list R) (ccs : list C) (j : nat) : C :=
  csum (map (fun i => (nth i ccs czero * RtoC (beam fwhm (nth j phi 0 - nth i phi 0)))%C)
            (seq 0 (length ccs))).

(** The RMSF is sampled on a grid that is longer than the FDF grid by the same
    positive number of channels at each end, and its peak is far enough from
    both ends for any shift of up to n-1 channels. *)
Definition roomy (n n2 imax : nat) : Prop :=
  (exists p, (0 < p)%nat /\ n2 = (n + 2 * p)%nat) /\ (n <= imax + 1)%nat /\ (imax + n <= n2)%nat.

(** [imax] is the only largest sample of an RMSF: every other sample has a
    smaller real part (the peak of an RMSF is real and equals one). *)
Definition peak_at (RMSF : list C) (imax : nat) : Prop :=
  (imax < length RMSF)%nat /\
  forall k, (k < length RMSF)%nat -> k <> imax -> fst (nth k RMSF czero) < fst (nth imax RMSF czero).

(** Every entry is below [t] in modulus. *)
Definition all_below (t : R) (l : list C) : Prop := forall z, In z l -> Cmod z < t.

(* ------------------------------------------------------------------ cubes *)

(** Pixel [p] of an array with [m] pixels per plane holds the finite spectrum [l]. *)
Definition has_spec (m p : nat) (a : list (option C)) (l : list C) : Prop :=
  forall k, (k < length l)%nat -> nth (k * m + p) a None = Some (nth k l czero).

(** Some sample of pixel [p] (n channels) reaches [t]; blank samples do not count. *)
Definition reaches (m n p : nat) (a : list (option C)) (t : R) : bool :=
  existsb (fun k => match nth (k * m + p) a None with
                    | Some z => if Rle_dec t (Cmod z) then true else false
                    | None => false end) (seq 0 n).

(** number of pixels that are cleaned *)
Definition n_loud (m n : nat) (a : list (option C)) (t : R) : nat :=
  length (filter (fun p => reaches m n p a t) (seq 0 m)).

(** The workers of a pool of [k] tasks finish in some order. *)
Definition any_order (k : nat) (pool : option (list nat)) : Prop :=
  match pool with None => True | Some sched => Permutation sched (seq 0 k) end.

(** The dirty spectrum of one source of amplitude [A] at channel [i0]. *)
Definition single_source (RMSF : list C) (imax n i0 : nat) (A : C) (d : list C) : Prop :=
  length d = n /\ (i0 < n)%nat /\
  forall j, (j < n)%nat -> nth j d czero = (A * zsample RMSF (Z.of_nat imax + Z.of_nat j - Z.of_nat i0))%C.

(** normalised RMSF: one at its peak, smaller elsewhere *)
Definition unit_peak (RMSF : list C) (imax : nat) : Prop :=
  (imax < length RMSF)%nat /\ nth imax RMSF czero = RtoC 1 /\
  forall k, (k < length RMSF)%nat -> k <> imax -> Cmod (nth k RMSF czero) < 1.

(** A uniformly spaced grid with an odd number (2h+1, h >= 1) of samples,
    symmetric about zero. *)
Definition centred_grid (phi : list R) (h : nat) (step : R) : Prop :=
  (1 <= h)%nat /\ length phi = (2 * h + 1)%nat /\
  forall k, (k < length phi)%nat -> nth k phi 0 = (INR k - INR h) * step.

(** Stokes data of a channel list with flags: NaN where flagged. *)
Definition flagged_data (flags : list bool) (v : list R) : list (option R) :=
  map (fun bv : bool * R => if fst bv then None else Some (snd bv)) (combine flags v).
