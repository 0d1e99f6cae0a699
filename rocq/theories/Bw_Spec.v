(** Vocabulary for bandwidth depolarisation. *)
From Coq Require Import Reals List Arith ZArith Bool.
Set Warnings "-ambiguous-paths".
From Coquelicot Require Import Coquelicot.
From Verif Require Import CBase NdArray PyList Synth_Model Synth_Spec Setup_Model Setup_Spec Bw_Model.
Import ListNotations.
Local Open Scope R_scope.

(** z is the mean of f over [a, b] *)
Definition is_mean (f : R -> C) (a b : R) (z : C) : Prop :=
  is_RInt (fun x => fst (f x)) a b ((b - a) * fst z) /\ is_RInt (fun x => snd (f x)) a b ((b - a) * snd z).

(** the rotation exp(2 i phi lambda^2) at the frequency nu *)
Definition rotation (phi nu : R) : C := cis (2 * phi * (299792458 / nu) ^ 2).

(** a channel whose edges are positive frequencies *)
Definition channel_ok (width center : R) : Prop := width <> 0 /\ 0 < center - width / 2 /\ 0 < center + width / 2.

(** mean rotation over a channel *)
Definition mean_rotation (width center phi : R) : C :=
  (RInt (fun x => fst (rotation phi x)) (center - width / 2) (center + width / 2) / width,
   RInt (fun x => snd (rotation phi x)) (center - width / 2) (center + width / 2) / width).

(** a channel with data: centre, weight, error, complex polarisation *)
Record bchan := mk_bchan { b_nu : R; b_w : R; b_d : R; b_P : C }.

Definition bwsum (chs : list bchan) : R := rsum (map b_w chs).
Definition mean_lam2 (chs : list bchan) : R := rsum (map (fun c => b_w c * (299792458 / b_nu c) ^ 2) chs) / bwsum chs.

(** F(phi) = exp(2 i phi l0) sum w P conj(mean rotation) / sum w *)
Definition adj_spec (width : R) (chs : list bchan) (l0 phi : R) : C :=
  (cis (2 * phi * l0) * csum (map (fun c => RtoC (b_w c) * b_P c * Cconj (mean_rotation width (b_nu c) phi)) chs) / RtoC (bwsum chs))%C.
(** sensitivity: sum w |mean rotation|^2 / sum w *)
Definition sens_spec (width : R) (chs : list bchan) (phi : R) : R :=
  rsum (map (fun c => b_w c * Cmod (mean_rotation width (b_nu c) phi) ^ 2) chs) / bwsum chs.
(** noise: sqrt(sum (w d)^2 |mean rotation|^2) / |sum w| *)
Definition noise_spec (width : R) (chs : list bchan) (phi : R) : R :=
  sqrt (rsum (map (fun c => (b_w c * b_d c) ^ 2 * Cmod (mean_rotation width (b_nu c) phi) ^ 2) chs)) / Rabs (bwsum chs).

(** the good channels of pixel p, and the channels with data in some pixel *)
Definition pixel_bchans (n m : nat) (Q U : list (option R)) (nu w d : list R) (p : nat) : list bchan :=
  flat_map (fun j => match nth (j * m + p) Q None, nth (j * m + p) U None with
                     | Some q, Some u => [mk_bchan (nth j nu 0) (nth j w 0) (nth j d 0) (q, u)]
                     | _, _ => [] end) (seq 0 n).
Definition live_bchans (n m : nat) (Q U : list (option R)) (nu w d : list R) : list bchan :=
  flat_map (fun j =>
    if existsb (fun p => match nth (j * m + p) Q None, nth (j * m + p) U None with Some _, Some _ => true | _, _ => false end) (seq 0 m)
    then [mk_bchan (nth j nu 0) (nth j w 0) (nth j d 0) (RtoC 0)] else []) (seq 0 n).

(** the width every channel gets *)
Definition width_used (w : widths) (freq : list R) (b : R) : Prop :=
  match w with
  | WNone => (2 <= length freq)%nat /\ b = nth 1 freq 0 - nth 0 freq 0
  | WOne c => b = c
  | WArr l => l = [b]
  end.

(** a Faraday-thin source of amplitude amp, angle psi and depth RM, averaged
    over a channel *)
Definition thin_chan (width amp psi RM nu : R) : C := (RtoC amp * cis (2 * psi) * mean_rotation width nu RM)%C.
Definition bw_source (width : R) (Q U : list (option R)) (freq : list R) (amp psi RM : R) : Prop :=
  forall j q u, (j < length freq)%nat -> nth j Q None = Some q -> nth j U None = Some u -> (q, u) = thin_chan width amp psi RM (nth j freq 0).

(** a missing error counts as zero *)
Definition err0 (x : option R) : R := match x with Some v => v | None => 0 end.

(** a spectrum as an array of one dimension, and its good channels *)
Definition spec1 (l : list (option R)) : nd (option R) := mk_nd [length l] l.
Definition spectrum_chans (freq : list R) (Q U : list (option R)) (wA : option (list (option R))) (d : list R) : list bchan :=
  pixel_bchans (length freq) 1 Q U freq (weights_of (length freq) wA) d 0.

(** inverse-variance weights *)
Definition inverse_variance (d : list R) : list (option R) := map (fun x => Some (1 / x ^ 2)) d.

(** the response to a unit source at depth RM, with the masked channels dropped *)
Definition unit_chans (width : R) (freq w : list R) (msk : list bool) (RM : R) : list bchan :=
  flat_map (fun j => if nth j msk false then [] else [mk_bchan (nth j freq 0) (nth j w 0) 0 (thin_chan width 1 0 RM (nth j freq 0))]) (seq 0 (length freq)).

(** evenly spaced with step h *)
Definition even_grid (phi : list R) (h : R) : Prop := forall k, (S k < length phi)%nat -> nth (S k) phi 0 = nth k phi 0 + h.

(** the widths the prediction tool uses, one per channel *)
Definition widths_used (w : widths) (freq ws : list R) : Prop :=
  match w with
  | WNone => (2 <= length freq)%nat /\ ws = repeat (nth 1 freq 0 - nth 0 freq 0) (length freq)
  | WOne b => ws = repeat b (length freq)
  | WArr l => ws = l /\ length l = length freq
  end.

(** its default step and range *)
Definition l2s (freq : list R) : list R := map (fun f => (299792458 / f) ^ 2) freq.
Definition step_used (dPhi : option R) (freq : list R) (d : R) : Prop :=
  match dPhi with Some x => d = x | None => exists mx mn, is_max (l2s freq) mx /\ is_min (l2s freq) mn /\ d * (mx - mn) = 2 * sqrt 3 end.
Definition range_used (phiMax : option R) (freq : list R) (p : R) : Prop :=
  match phiMax with Some x => p = x | None => exists m, is_min (map Rabs (np_diff (l2s freq))) m /\ p * m = 2 * sqrt 3 end.

(** mean of the squared mean rotations *)
Definition sens_uniform (ws freq : list R) (phi : R) : R :=
  rsum (map (fun j => Cmod (mean_rotation (nth j ws 0) (nth j freq 0) phi) ^ 2) (seq 0 (length freq))) / INR (length freq).

(** the columns of a run: seven, or five with Stokes I taken as one *)
Definition bw_columns (d : bw_data) (noI : bool) (freq : list R) (iA Q U dI dQ dU : list (option R)) : Prop :=
  (exists I0 dI0, d = Cols7 freq I0 Q U dI0 dQ dU /\
     if noI then iA = repeat (Some 1) (length Q) /\ dI = repeat (Some 0) (length Q) else iA = I0 /\ dI = dI0) \/
  (d = Cols5 freq Q U dQ dU /\ iA = repeat (Some 1) (length Q) /\ dI = repeat (Some 0) (length Q)).

Definition bw_step (dPhi : option R) (nSamples : R) (freq : list R) (d : R) : Prop :=
  match dPhi with
  | Some x => d = x
  | None => nSamples <> 0 /\ exists mx mn, is_max (l2s freq) mx /\ is_min (l2s freq) mn /\ d * nSamples * (mx - mn) = 2 * sqrt 3
  end.
Definition bw_range (phiMax : option R) (freq : list R) (p : R) : Prop :=
  match phiMax with
  | Some x => p = x
  | None => exists m, is_max (map Rabs (np_diff (l2s freq))) m /\ m <> 0 /\ p = Rmax (sqrt 3 / m) 600
  end.

(** the error of a channel, and the weights of a run *)
Definition sigmas (eq eu : list R) : list R := map (fun ab => (fst ab + snd ab) / 2) (combine eq eu).
Definition run_weights (variance : bool) (sg : list R) : list (option R) := if variance then inverse_variance sg else repeat (Some 1) (length sg).

Definition opt0 (x : option R) : R := match x with Some v => v | None => 0 end.

(** normalised amplitude |F| / sensitivity of a sample *)
Definition norm_amp (F : list (option C)) (S : list (option R)) (k : nat) (a : R) : Prop :=
  exists z s, nth k F None = Some z /\ nth k S None = Some s /\ s <> 0 /\ a = Cmod z / s.

Definition chans_ok (b : R) (chs : list bchan) : Prop := forall c, In c chs -> channel_ok b (b_nu c) /\ 0 <= b_w c.

Definition variance_w (chs : list bchan) : Prop := forall c, In c chs -> b_d c <> 0 /\ b_w c = 1 / b_d c ^ 2.
