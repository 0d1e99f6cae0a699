(** Vocabulary of the statements about the deprecated and prototype routines.
    Nothing here comes from the model. *)
From Coq Require Import Reals List Arith ZArith Bool.
Set Warnings "-ambiguous-paths".
From Coquelicot Require Import Coquelicot.
From Verif Require Import CBase NdArray Synth_Spec.
Import ListNotations.
Local Open Scope R_scope.

(** Data in spectral order: channel [j] of pixel [p] is element [p * n + j].
    A channel with a NaN weight is no channel. *)
Definition good_at (n : nat) (Q U : list (option R)) (p j : nat) : bool :=
  finite (nth (p * n + j) Q None) && finite (nth (p * n + j) U None).

Definition spec_chans (n : nat) (Q U : list (option R)) (l2 : list R) (w : list (option R)) (p : nat) : list chan :=
  flat_map (fun j =>
    match nth (p * n + j) Q None, nth (p * n + j) U None, nth j w None with
    | Some q, Some u, Some v => [mk_chan (nth j l2 0) v (q, u)]
    | _, _, _ => []
    end) (seq 0 n).

(** Channels with data in at least one of [m] pixels. *)
Definition spec_live (n m : nat) (Q U : list (option R)) (l2 : list R) (w : list (option R)) : list chan :=
  flat_map (fun j =>
    if existsb (fun p => good_at n Q U p j) (seq 0 m)
    then match nth j w None with Some v => [mk_chan (nth j l2 0) v (RtoC 0)] | None => [] end
    else []) (seq 0 n).

Definition given_weights (n : nat) (wA : option (list (option R))) : list (option R) :=
  match wA with None => repeat (Some 1) n | Some w => w end.

(** The channels flagged in pixel [p] are flagged in every pixel. *)
Definition flags_whole (n m : nat) (Q U : list (option R)) (p : nat) : Prop :=
  forall j p', (j < n)%nat -> (p' < m)%nat -> good_at n Q U p' j = true -> good_at n Q U p j = true.

Definition valid_spectral (dQ dU : nd (option R)) (l2 : list R) (wA : option (list (option R))) : Prop :=
  shape dQ = shape dU /\ (1 <= length (shape dQ) <= 3)%nat /\ last (shape dQ) 0%nat = length l2 /\
  match wA with None => True | Some w => length w = length l2 end.

Definition spix (d : nd (option R)) : nat := prodn (removelast (shape d)).

(** The same data in the two orders of axes. *)
Definition transposed (n m : nat) (spectral planes : nd (option R)) : Prop :=
  forall j p, (j < n)%nat -> (p < m)%nat ->
    nth (p * n + j) (flat spectral) None = nth (j * m + p) (flat planes) None.

Definition increasing (phi : list R) : Prop :=
  forall i j, (i < j < length phi)%nat -> nth i phi 0 < nth j phi 0.

(** One weight per voxel: good channels of pixel [p] with their own weights. *)
Definition voxel_chans (n m : nat) (Q U : list (option R)) (l2 w : list R) (p : nat) : list chan :=
  flat_map (fun j =>
    match nth (j * m + p) Q None, nth (j * m + p) U None with
    | Some q, Some u => [mk_chan (nth j l2 0) (nth (j * m + p) w 0) (q, u)]
    | _, _ => []
    end) (seq 0 n).
(** Channels of pixel [p], flagged there or not, that have data in some pixel. *)
Definition voxel_live (n m : nat) (Q U : list (option R)) (l2 w : list R) (p : nat) : list chan :=
  flat_map (fun j =>
    if existsb (fun q => finite (nth (j * m + q) Q None) && finite (nth (j * m + q) U None)) (seq 0 m)
    then [mk_chan (nth j l2 0) (nth (j * m + p) w 0) (RtoC 0)] else []) (seq 0 n).
Definition weight_chans (n m : nat) (l2 w : list R) (p : nat) : list chan :=
  map (fun j => mk_chan (nth j l2 0) (nth (j * m + p) w 0) (RtoC 0)) (seq 0 n).
(** NaN weights are zero weights. *)
Definition nan0 (w : list (option R)) : list R := map (fun x => match x with Some v => v | None => 0 end) w.

(** The grid [phi2] is [phi] with [pad] further depths at each end. *)
Definition extends_by (pad : nat) (phi phi2 : list R) : Prop :=
  (0 < pad)%nat /\ length phi2 = (length phi + 2 * pad)%nat /\ NoDup phi2 /\
  forall i, (i < length phi)%nat -> nth (pad + i) phi2 0 = nth i phi 0.

(** The restoring beam with 4 ln 2 rounded to twelve digits. *)
Definition beam12 (fwhm x : R) : R := exp (- 2.77258872224 * (x / fwhm) ^ 2).
Definition restored12 (fwhm : R) (phi : list R) (ccs : list C) (j : nat) : C :=
  csum (map (fun i => (nth i ccs (RtoC 0) * RtoC (beam12 fwhm (nth j phi 0 - nth i phi 0)))%C) (seq 0 (length ccs))).

(** Weights of the voxels of a cube: missing ones are one, NaN is zero. *)
Definition voxel_weights (size : nat) (wA : option (nd (option R))) : list R :=
  match wA with None => repeat 1 size | Some w => nan0 (flat w) end.
Definition valid_noise (dQ dU : nd (option R)) (l2 : list R) (wA : option (nd (option R))) : Prop :=
  shape dQ = shape dU /\ length (shape dQ) = 3%nat /\ nth 0 (shape dQ) 0%nat = length l2 /\
  match wA with None => True | Some w => shape w = shape dQ end.

(** [c] over the range of the wavelengths squared; not finite for one wavelength. *)
Definition range_width (c : R) (l2 : list R) (fw : option R) : Prop :=
  exists hi lo, In hi l2 /\ In lo l2 /\ (forall l, In l l2 -> lo <= l <= hi) /\
    fw = if Req_EM_T hi lo then None else Some (c / (hi - lo)).

(** The width and the status of a fit that may have failed. *)
Definition fit_or (fitted : option (Z * R)) (fw0 : option R) : Z * option R :=
  match fitted with
  | Some (st, x) => if (1 <=? st)%Z then (st, Some x) else ((-1)%Z, fw0)
  | None => ((-1)%Z, fw0)
  end.

Definition without_ones (sh : list nat) : list nat := filter (fun d => negb (Nat.eqb d 1)) sh.

(** Every channel has one weight in the whole image. *)
Definition same_everywhere (n m : nat) (w : list R) : Prop :=
  forall j p, (j < n)%nat -> (p < m)%nat -> nth (j * m + p) w 0 = nth (j * m) w 0.

(** The channels with a weight. *)
Definition given_chans (n : nat) (l2 : list R) (w : list (option R)) : list chan :=
  flat_map (fun j => match nth j w None with Some v => [mk_chan (nth j l2 0) v (RtoC 0)] | None => [] end) (seq 0 n).
