(** Vocabulary for statements about the 1-D tools. The input, the options and
    the output record are the API; nothing else comes from the model. *)
From Coq Require Import Reals List Arith ZArith Bool.
Set Warnings "-ambiguous-paths".
From Coquelicot Require Import Coquelicot.
From Verif Require Import CBase NdArray Synth_Spec Setup_Spec StokesI_Model StokesI_Spec Run1D_Model.
Import ListNotations.
Local Open Scope R_scope.

(** The columns of an input; without Stokes I it is one with zero errors. *)
Definition input_columns (d : synth_data) (noI : bool) (freq : list R) (iA Q U dI dQ dU : list (option R)) : Prop :=
  (exists I0 dI0, d = Data7 freq I0 Q U dI0 dQ dU /\
     if noI then iA = repeat (Some 1) (length Q) /\ dI = repeat (Some 0) (length Q) else iA = I0 /\ dI = dI0) \/
  (d = Data5 freq Q U dQ dU /\ iA = repeat (Some 1) (length Q) /\ dI = repeat (Some 0) (length Q)).

(** Columns of one length, positive frequencies. *)
Definition good_input (d : synth_data) (noI : bool) (freq : list R) (iA Q U dI dQ dU : list (option R)) : Prop :=
  input_columns d noI freq iA Q U dI dQ dU /\
  length iA = length freq /\ length Q = length freq /\ length U = length freq /\
  length dI = length freq /\ length dQ = length freq /\ length dU = length freq /\
  forall f, In f freq -> 0 < f.

(** A fitter that returns six parameters, and a known fit function; a table of
    Stokes I values has one per channel. *)
Definition good_opts (mpfit : mpin -> PyRes.pyres mpres) (o : run_opts) (n : nat) : Prop :=
  (forall qn r, mpfit qn = PyRes.POk r -> length (mp_params r) = 6%nat) /\ o_fitfun o <> OtherFun /\
  (forall m, o_modStokesI o = Some m -> length m = n).

(** wavelength squared *)
Definition lsq (f : R) : R := (299792458 / f) ^ 2.

(** Stokes I model in channel j: the table given by the user or the fit the tool reports. *)
Definition stokes_model (o : run_opts) (fr : FitResult) (freq : list R) (j : nat) : R :=
  match o_modStokesI o with Some m => nth j m 0 | None => model_at fr (nth j freq 0) end.

(** Channels with Q and U and a Stokes I model: fractional polarisation. *)
Definition used_chans (freq : list R) (Q U : list (option R)) (mdl : nat -> R) (w : list R) : list chan :=
  flat_map (fun j => match nth j Q None, nth j U None with
    | Some q, Some u => if Req_EM_T (mdl j) 0 then [] else [mk_chan (lsq (nth j freq 0)) (nth j w 0) (q / mdl j, u / mdl j)]
    | _, _ => [] end) (seq 0 (length freq)).

(** Channels with Q and a Stokes I model, whatever U is. *)
Definition q_chans (freq : list R) (Q : list (option R)) (mdl : nat -> R) (w : list R) : list chan :=
  flat_map (fun j => match nth j Q None with
    | Some q => if Req_EM_T (mdl j) 0 then [] else [mk_chan (lsq (nth j freq 0)) (nth j w 0) (RtoC 0)]
    | None => [] end) (seq 0 (length freq)).

(** Weight of a channel: one, or the inverse variance of its fractional
    polarisation, or zero when that has no meaning. *)
Definition chan_weight (variance : bool) (dQ dU : option R) (m : R) : R :=
  if variance then match dQ, dU with
                   | Some a, Some b => (2 * m / (a + b)) ^ 2
                   | _, _ => 0 end
  else 1.

(** Q and U of a Faraday-thin source with fractional polarisation p: every
    finite sample is p I exp 2i(psi + RM lambda^2). *)
Definition thin_columns (freq : list R) (Q U : list (option R)) (mdl : nat -> R) (p psi RM : R) : Prop :=
  forall j q u, (j < length freq)%nat -> nth j Q None = Some q -> nth j U None = Some u ->
    (q, u) = (RtoC (mdl j * p) * cis (2 * (psi + RM * lsq (nth j freq 0))))%C.

(** The step and the largest depth: what the user gives, or the defaults from
    the range [mn, mx] of wavelengths squared and the largest channel gap. *)
Definition chosen_grid (o : run_opts) (freq : list R) (step pm : R) : Prop :=
  exists mx mn gap, is_max (map lsq freq) mx /\ is_min (map lsq freq) mn /\
    is_max (map (fun j => Rabs (lsq (nth (S j) freq 0) - lsq (nth j freq 0))) (seq 0 (length freq - 1))) gap /\
    let width := if o_super o then 2 / (mx + mn) else 38 / 10 / (mx - mn) in
    step = match o_dPhi o with Some d => d | None => width / o_nSamples o end /\
    pm = match o_phiMax o with Some p => p | None => Rmax (sqrt 3 / gap) (10 * width) end.

(** Frequencies of the channels with Q, a Stokes I model and a weight. *)
Definition counted (freq : list R) (Q : list (option R)) (mdl : nat -> R) (w : list R) : list R :=
  flat_map (fun j => match nth j Q None with
    | Some _ => if Req_EM_T (mdl j) 0 then [] else if Req_EM_T (nth j w 0) 0 then [] else [nth j freq 0]
    | None => [] end) (seq 0 (length freq)).

(** Q and U are flagged in the same channels. *)
Definition flagged_alike (Q U : list (option R)) : Prop := forall j, nth j Q None = None <-> nth j U None = None.

(** The Stokes I model the tool starts from: the table, the fit, or one if the
    fit raises. There is something to fit in some channel. *)
Definition first_model (mpfit : mpin -> PyRes.pyres mpres) (o : run_opts) (freq : list R) (iA dI : list (option R)) (fm : nat -> R) : Prop :=
  match o_modStokesI o with
  | Some m => forall j, (j < length freq)%nat -> fm j = nth j m 0
  | None => (exists j, (j < length freq)%nat /\ nth j iA None <> None /\ nth j dI None <> None) /\
            match fit_StokesI_model mpfit freq iA dI (o_polyOrd o) (o_fitfun o) with
            | PyRes.POk fr => (exists cov, pcov fr = Some cov) /\ forall j, (j < length freq)%nat -> fm j = model_at fr (nth j freq 0)
            | PyRes.PErr => forall j, (j < length freq)%nat -> fm j = 1
            end
  end.

(** What a run needs to end: two different frequencies, errors that do not
    cancel when they are used as weights, a grid with more than one depth, and
    a signal at some depth of the grid. A Stokes I table needs different
    frequencies throughout and the usual reference wavelength. *)
Definition run_ready (o : run_opts) (freq : list R) (Q U dQ dU : list (option R)) (fm : nat -> R) : Prop :=
  (exists f g, In f freq /\ In g freq /\ f <> g) /\
  (forall m, o_modStokesI o = Some m -> NoDup freq /\ o_super o = false) /\
  (o_variance o = true -> forall j a b, nth j dQ None = Some a -> nth j dU None = Some b -> fm j <> 0 -> a + b <> 0) /\
  let w := map (fun j => chan_weight (o_variance o) (nth j dQ None) (nth j dU None) (fm j)) (seq 0 (length freq)) in
  let chs := used_chans freq Q U fm w in
  0 < wsum chs /\
  forall step pm, chosen_grid o freq step pm -> step <> 0 /\ Rabs step / 2 < Rabs pm /\
    exists z, Rabs (IZR z) * Rabs step <= Rabs pm - Rabs step / 2 /\ FDF_spec chs (if o_super o then 0 else mean_l2 chs) (IZR z * step) <> RtoC 0.

(** Noise of the fractional polarisation of a channel, zero when it has none. *)
Definition chan_noise (dQ dU : option R) (m : R) : R :=
  match dQ, dU with
  | Some a, Some b => if Req_EM_T m 0 then 0 else Rabs (a + b) / (2 * Rabs m)
  | _, _ => 0
  end.

(** The spectrum of pixel (y, x), counted from zero, of a cube of n channels and ny by nx pixels. *)
Definition is_cube (c : nd (option R)) (n ny nx : nat) : Prop := shape c = [n; ny; nx] /\ length (flat c) = (n * ny * nx)%nat.
Definition spectrum_at (c : nd (option R)) (n ny nx y x : nat) : list (option R) :=
  map (fun j => nth ((j * ny + y) * nx + x) (flat c) None) (seq 0 n).

(** The pixel a request means: the user counts pixels from one; a sky position
    means the pixel it falls in. *)
Definition asks_for (p : pixel_request) (y x : nat) : Prop :=
  match p with
  | ByPixel px py => px = INR x + 1 /\ py = INR y + 1
  | BySky px py => Rabs (px - INR x) < 1 / 2 /\ Rabs (py - INR y) < 1 / 2
  end.

(** Residual of a channel in units of its error: Stokes parameter x against m t,
    for a Stokes I model m and a fractional polarisation model t; error e. *)
Definition resid (x e : option R) (m t : R) : option R :=
  match x, e with
  | Some x, Some e => if Req_EM_T m 0 then None else if Req_EM_T e 0 then None else Some ((x - m * t) / e)
  | _, _ => None
  end.
Definition unit_error (e : option R) (m : R) : option R :=
  match e with Some e => if Req_EM_T m 0 then None else if Req_EM_T e 0 then None else Some 1 | None => None end.
