(** Vocabulary for the set-up theorems; independent of Setup_Model. *)
From Coq Require Import Reals List Arith ZArith Bool.
Set Warnings "-ambiguous-paths".
From Coquelicot Require Import Coquelicot.
From Verif Require Import CBase.
Import ListNotations.
Local Open Scope R_scope.

(** Sample k of the grid is (k-h)*step, and there are 2h+1 of them. *)
Definition odd_centred (phi : list R) (h : nat) (step : R) : Prop :=
  length phi = (2 * h + 1)%nat /\
  forall k, (k < length phi)%nat -> nth k phi 0 = (INR k - INR h) * step.

(** Uniform grid. *)
Definition uniform (phi : list R) (start step : R) : Prop :=
  forall k, (k < length phi)%nat -> nth k phi 0 = start + INR k * step.

(** The world coordinate of pixel k (1-based), FITS standard. *)
Definition world (crval crpix cdelt : R) (k : nat) : R := crval + (INR k - crpix) * cdelt.

(** Noise of the weighted mean of channels with weight w and noise s. *)
Definition propagated_noise (ws : list (R * R)) : R :=
  sqrt (rsum (map (fun x => (fst x * snd x) ^ 2) ws)) / rsum (map fst ws).

Definition ascending (f : list R) : Prop :=
  forall i j, (i < j < length f)%nat -> nth i f 0 < nth j f 0.

(** linear interpolation between samples k and k+1 *)
Definition lin_interp (f v : list R) (k : nat) (x : R) : R :=
  nth k v 0 + (x - nth k f 0) / (nth (S k) f 0 - nth k f 0) * (nth (S k) v 0 - nth k v 0).

(** largest, smallest *)
Definition is_max (l : list R) (m : R) : Prop := In m l /\ forall x, In x l -> x <= m.
Definition is_min (l : list R) (m : R) : Prop := In m l /\ forall x, In x l -> m <= x.

(** A channel set with wavelength squared, weight and noise per channel. *)
Record nchan := mk_nchan { n_l2 : R; n_w : R; n_s : R }.

(** the linear form sum a_j Re P_j + b_j Im P_j *)
Definition lin_form (ab : list (R * R)) (P : list C) : R :=
  rsum (map (fun x => fst (fst x) * fst (snd x) + snd (fst x) * snd (snd x)) (combine ab P)).
(** its standard deviation when Re P_j and Im P_j are independent with noise s_j *)
Definition form_noise (ab : list (R * R)) (s : list R) : R :=
  sqrt (rsum (map (fun x => (fst (fst x) ^ 2 + snd (fst x) ^ 2) * snd x ^ 2) (combine ab s))).
