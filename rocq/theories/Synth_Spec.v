(** Independent specification of RM-synthesis: Brentjens & de Bruyn's sums over
    a list of good channels. Nothing here comes from the model. *)
From Coq Require Import Reals List Arith ZArith Bool.
Set Warnings "-ambiguous-paths".
From Coquelicot Require Import Coquelicot.
From Verif Require Import CBase NdArray.
Import ListNotations.
Local Open Scope R_scope.

(** A channel with data: wavelength squared, weight, complex polarisation. *)
Record chan := mk_chan { c_l2 : R; c_w : R; c_P : C }.

Definition wsum (chs : list chan) : R := rsum (map c_w chs).

(** F(phi) = sum w P exp(-2 i phi (l2 - l0)) / sum w *)
Definition FDF_spec (chs : list chan) (l0 phi : R) : C :=
  (csum (map (fun c => RtoC (c_w c) * c_P c * cis (-2 * phi * (c_l2 c - l0))) chs)
   / RtoC (wsum chs))%C.

(** R(phi) = sum w exp(-2 i phi (l2 - l0)) / sum w *)
Definition RMSF_spec (chs : list chan) (l0 phi : R) : C :=
  (csum (map (fun c => RtoC (c_w c) * cis (-2 * phi * (c_l2 c - l0))) chs)
   / RtoC (wsum chs))%C.

(** weighted mean wavelength squared *)
Definition mean_l2 (chs : list chan) : R := rsum (map (fun c => c_w c * c_l2 c) chs) / wsum chs.

(** The good channels of pixel [p] of an (n x m) data set. *)
Definition pixel_chans (n m : nat) (Q U : list (option R)) (l2 w : list R) (p : nat) : list chan :=
  flat_map (fun j =>
    match nth (j * m + p) Q None, nth (j * m + p) U None with
    | Some q, Some u => [mk_chan (nth j l2 0) (nth j w 0) (q, u)]
    | _, _ => []
    end) (seq 0 n).

(** Channels with data in at least one pixel. *)
Definition live_chans (n m : nat) (Q U : list (option R)) (l2 w : list R) : list chan :=
  flat_map (fun j =>
    if existsb (fun p => match nth (j * m + p) Q None, nth (j * m + p) U None with
                         | Some _, Some _ => true | _, _ => false end) (seq 0 m)
    then [mk_chan (nth j l2 0) (nth j w 0) (RtoC 0)] else []) (seq 0 n).

(** A grid is antisymmetric when reversing it negates it. *)
Definition antisym (phi : list R) : Prop :=
  forall k, (k < length phi)%nat -> nth (length phi - 1 - k) phi 0 = - nth k phi 0.

(** Faraday-thin source: P(l2) = p exp(2 i (psi + RM l2)). *)
Definition thin (p psi RM l2 : R) : C := (RtoC p * cis (2 * (psi + RM * l2)))%C.

(* ---------------- vocabulary of the statements ---------------- *)

(** Weights the caller means: missing weights are one, NaN weights zero. *)
Definition weights_of (n : nat) (wA : option (list (option R))) : list R :=
  match wA with
  | None => repeat 1 n
  | Some w => map (fun x => match x with Some v => v | None => 0 end) w
  end.

(** A blank (NaN) output sample counts as zero. *)
Definition blank0 (x : option C) : C := match x with Some z => z | None => RtoC 0 end.

Definition finite {A} (x : option A) : bool := match x with Some _ => true | None => false end.

(** Inputs that pass the sanity checks. *)
Definition valid_synth (dataQ dataU : nd (option R)) (l2 : list R) (wA : option (list (option R))) : Prop :=
  shape dataQ = shape dataU /\ (1 <= length (shape dataQ) <= 3)%nat /\
  nth 0 (shape dataQ) 0%nat = length l2 /\
  match wA with None => True | Some w => length w = length l2 end.

Definition npix (d : nd (option R)) : nat := prodn (tl (shape d)).

Definition lin_cell (a b : R) (x y : option R) : option R :=
  match x, y with Some x, Some y => Some (a * x + b * y) | _, _ => None end.

(** pixelwise a*X + b*Y *)
Definition lin_nd (a b : R) (X Y : nd (option R)) : nd (option R) :=
  mk_nd (shape X) (map (fun xy => lin_cell a b (fst xy) (snd xy)) (combine (flat X) (flat Y))).

Definition same_flags (X Y : nd (option R)) : Prop :=
  length (flat X) = length (flat Y) /\
  forall i, finite (nth i (flat X) None) = finite (nth i (flat Y) None).

(** The spectrum of pixel [p] as a 1D array. *)
Definition column (d : nd (option R)) (n p : nat) : nd (option R) :=
  mk_nd [n] (map (fun j => at2 (npix d) None (flat d) j p) (seq 0 n)).

(** Changing other pixels: same column, same set of fully flagged planes. *)
Definition plane_flagged (d e : nd (option R)) (j : nat) : Prop :=
  forall p, (p < npix d)%nat ->
    at2 (npix d) None (flat d) j p = None \/ at2 (npix d) None (flat e) j p = None.

(** Keep the elements whose position carries [true]. *)
Fixpoint select {A} (keep : list bool) (l : list A) : list A :=
  match keep, l with
  | b :: ks, x :: t => if b then x :: select ks t else select ks t
  | _, _ => []
  end.

(** positions where both Q and U are finite *)
Definition good (Q U : list (option R)) : list bool :=
  map (fun qu => finite (fst qu) && finite (snd qu)) (combine Q U).

(** NaN weights act as zero weights. *)
Definition nan_w_0 (w : option R) : option R := match w with None => Some 0 | x => x end.

Definition scale_w (c : R) (w : option R) : option R := option_map (Rmult c) w.

(** pixel [p] contains a thin source, possibly with flagged channels *)
Definition thin_pixel (dQ dU : nd (option R)) (l2 : list R) (p : nat) (amp psi RM : R) : Prop :=
  forall j q u, (j < length l2)%nat ->
    at2 (npix dQ) None (flat dQ) j p = Some q -> at2 (npix dQ) None (flat dU) j p = Some u ->
    (q, u) = thin amp psi RM (nth j l2 0).

Definition nonneg_w (wA : option (list (option R))) : Prop :=
  match wA with None => True | Some w => forall x, In (Some x) w -> 0 <= x end.

(** channels not masked in pixel [p] *)
Definition mask_chans (n m : nat) (msk : list bool) (l2 w : list R) (p : nat) : list chan :=
  flat_map (fun j => if nth (j * m + p) msk false then [] else [mk_chan (nth j l2 0) (nth j w 0) (RtoC 0)]) (seq 0 n).

Definition valid_rmsf (l2 : list R) (wA : option (list (option R))) (msk : nd bool) : Prop :=
  l2 <> [] /\ (1 <= length (shape msk) <= 3)%nat /\ nth 0 (shape msk) 0%nat = length l2 /\
  match wA with None => True | Some w => length w = length l2 end.

Definition mpix (msk : nd bool) : nat := prodn (tl (shape msk)).

(** Closed form of the doubled grid. *)
Definition ext_index (phi : list R) (i : Z) : R :=
  let n := length phi in
  if (i <? 0)%Z then nth 0 phi 0 + IZR i * (nth 1 phi 0 - nth 0 phi 0)
  else if (i <? Z.of_nat n)%Z then nth (Z.to_nat i) phi 0
  else nth (n - 1) phi 0 + (IZR i - INR (n - 1)) * (nth (n - 1) phi 0 - nth (n - 2) phi 0).

