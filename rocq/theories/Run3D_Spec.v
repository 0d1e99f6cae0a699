(** Vocabulary for statements about the 3-D tool: voxels of FITS images. The
    options and the output record are the API; nothing else comes from the model. *)
From Coq Require Import Reals List Arith ZArith Bool Ascii String.
Set Warnings "-ambiguous-paths".
From Coquelicot Require Import Coquelicot.
From Verif Require Import CBase PyRes PyStr NdArray NdIndex Synth_Spec Setup_Spec Cube_Model Cube_Spec Run1D_Spec Pixfit_Spec Setup_Model Run3D_Model.
Import ListNotations.
Local Open Scope R_scope.

(** The sky axes as the tools see them: all but the spectral one; of four or more
    axes only those longer than one. *)
Definition sky_axes (naxis : list nat) (k : nat) : list nat :=
  let o := others k (List.length naxis) in if (4 <=? List.length naxis)%nat then long_axes naxis o else o.

(** Stokes I of a voxel; one without a cube *)
Definition stokes_vox (I : option (image (option R))) (p : nat -> nat) : option R := match I with None => Some 1 | Some f => vox None f p end.

(** fractional polarisation of a voxel *)
Definition frac_vox (Q U : image (option R)) (I : option (image (option R))) (p : nat -> nat) : option C :=
  match vox None Q p, vox None U p, stokes_vox I p with
  | Some q, Some u, Some i => if Req_EM_T i 0 then None else Some (q / i, u / i)
  | _, _, _ => None
  end.

(** The channels with fractional polarisation at a sky position. *)
Definition sky_chans (Q U : image (option R)) (I : option (image (option R))) (k : nat) (freq : list R) (w : nat -> R) (p : nat -> nat) : list chan :=
  flat_map (fun j => match frac_vox Q U I (at_chan p k j) with Some P => [mk_chan (lsq (nth j freq 0)) (w j) P] | None => [] end) (seq 0 (List.length freq)).
(** The channels with Stokes Q at a sky position. *)
Definition sky_q_chans (Q : image (option R)) (k : nat) (freq : list R) (w : nat -> R) (p : nat -> nat) : list chan :=
  flat_map (fun j => match vox None Q (at_chan p k j) with Some _ => [mk_chan (lsq (nth j freq 0)) (w j) (RtoC 0)] | None => [] end) (seq 0 (List.length freq)).

(** Weights: the inverse variance if asked for and given, else one; zero for NaN. *)
Definition weight3 (o : opts3) (rms : option (list (option R))) (j : nat) : R :=
  match rms with
  | Some r => if g_variance o then match nth j r None with Some v => / v ^ 2 | None => 0 end else 1
  | None => 1
  end.

(** The weighted mean of lambda^2 over the channels that have [D]; zero if they
    have no weight. *)
Definition mean_over (D : nat -> Prop) (freq : list R) (w : nat -> R) (l0 : R) : Prop :=
  exists L, NoDup L /\ (forall j, In j L <-> (j < List.length freq)%nat /\ D j) /\
    let sw := rsum (map w L) in
    (sw = 0 -> l0 = 0) /\ (sw <> 0 -> l0 = rsum (map (fun j => w j * lsq (nth j freq 0)) L) / sw).

(** The reference wavelength: zero with super-resolution, else the mean over the
    channels with data somewhere in the cube. *)
Definition reference3 (o : opts3) (Q U : image (option R)) (I : option (image (option R))) (k : nat) (freq : list R) (w : nat -> R) (l0 : R) : Prop :=
  if g_super o then l0 = 0
  else mean_over (fun j => exists p, in_image (i_naxis Q) (at_chan p k j) /\ frac_vox Q U I (at_chan p k j) <> None) freq w l0.

(** the reference frequency: that of the reference wavelength, or the mean *)
Definition ref_freq3 (freq : list R) (l0 f0 : R) : Prop :=
  (0 < l0 -> f0 = 299792458 / sqrt l0) /\ (l0 = 0 -> f0 = rsum freq / INR (List.length freq)).
(** Stokes I there; one without a cube *)
Definition ref_stokes3 (freq : list R) (l0 : R) (I : option (image (option R))) (k : nat) (p : nat -> nat) (v : option R) : Prop :=
  match I with
  | None => v = Some 1
  | Some f => exists f0, ref_freq3 freq l0 f0 /\ ref_value freq f0 (fun j => vox None f (at_chan p k j)) v
  end.

(** The step and the largest depth, as for the 1-D tool. *)
Definition chosen_grid3 (o : opts3) (freq : list R) (step pm : R) : Prop :=
  exists mx mn gap, is_max (map lsq freq) mx /\ is_min (map lsq freq) mn /\
    is_max (map (fun j => Rabs (lsq (nth (S j) freq 0) - lsq (nth j freq 0))) (seq 0 (List.length freq - 1))) gap /\
    let width := if g_super o then 2 / (mx + mn) else 38 / 10 / (mx - mn) in
    step = match g_dPhi o with Some d => d | None => width / g_nSamples o end /\
    pm = match g_phiMax o with Some p => p | None => Rmax (sqrt 3 / gap) (10 * width) end.
(** the grid: 2h+1 depths (k-h)*step, the last within half a step of the largest asked for *)
Definition grid3 (o : opts3) (freq : list R) (phi : list R) (h : nat) (step : R) : Prop :=
  exists pm, chosen_grid3 o freq step pm /\ odd_centred phi h step /\ Rabs (INR h * Rabs step - Rabs pm) <= Rabs step / 2.

(** Files that go together: same axes, channels as in the frequency file, at most
    two sky axes, and every axis of Q has a CTYPE. A Stokes I cube needs two sky
    axes, the first longer than one, and ascending frequencies. *)
Definition good_files (Q U : image (option R)) (I : option (image (option R))) (k : nat) (freq : list R) : Prop :=
  wf_image Q /\ wf_image U /\ i_naxis U = i_naxis Q /\ spectral_axis (s "FREQ") (i_ctype Q) k /\ spectral_axis (s "FREQ") (i_ctype U) k /\
  (forall a, (1 <= a <= List.length (i_naxis Q))%nat -> a <> k -> nth (a - 1) (i_ctype Q) None <> None) /\
  len (i_naxis Q) k = List.length freq /\ (List.length (sky_axes (i_naxis Q) k) <= 2)%nat /\
  (forall a, (1 <= a <= List.length (i_naxis Q))%nat -> (0 < len (i_naxis Q) a)%nat) /\
  (forall f, In f freq -> 0 < f) /\ (exists f g, In f freq /\ In g freq /\ f <> g) /\
  match I with
  | None => True
  | Some f => wf_image f /\ i_naxis f = i_naxis Q /\ spectral_axis (s "FREQ") (i_ctype f) k /\ ascending freq /\
      exists x y, sky_axes (i_naxis Q) k = [x; y] /\ len (i_naxis Q) x <> 1%nat
  end.
(** Noise values: one for each channel, none zero. *)
Definition good_rms (o : opts3) (rms : option (list (option R))) (n : nat) : Prop :=
  match rms with None => True | Some r => g_variance o = true -> List.length r = n /\ ~ In (Some 0) r end.
(** More than one depth; something to do. *)
Definition good_opts3 (o : opts3) (freq : list R) : Prop :=
  (g_not_rmsynth o = false \/ g_not_rmsf o = false) /\
  forall step pm, chosen_grid3 o freq step pm -> step <> 0 /\ Rabs step / 2 < Rabs pm.

(** [F] holds, at every voxel, the spectrum of the channels there about [l0],
    times the Stokes I there. A spectrum that is zero at all depths is blank. *)
Definition holds_FDF (F : image (option C)) (Q U : image (option R)) (I : option (image (option R))) (k : nat) (freq : list R) (w : nat -> R) (phi : list R) (l0 : R) : Prop :=
  forall p, in_image (i_naxis F) p -> exists i0, ref_stokes3 freq l0 I k p i0 /\
    let chs := sky_chans Q U I k freq w p in
    (i0 = None -> vox None F p = None) /\
    (wsum chs = 0 -> vox None F p = None) /\
    forall i, i0 = Some i -> wsum chs <> 0 ->
      ((forall f, In f phi -> FDF_spec chs l0 f = RtoC 0) -> vox None F p = None) /\
      ((exists f, In f phi /\ FDF_spec chs l0 f <> RtoC 0) -> vox None F p = Some (RtoC i * FDF_spec chs l0 (nth (p k) phi 0))%C).
(** [G] holds the spread function of the channels with Q. *)
Definition holds_RMSF (G : image (option C)) (Q : image (option R)) (k : nat) (freq : list R) (w : nat -> R) (phi2 : list R) (l0 : R) : Prop :=
  forall p, in_image (i_naxis G) p -> let chs := sky_q_chans Q k freq w p in
    wsum chs <> 0 -> vox None G p = Some (RMSF_spec chs l0 (nth (p k) phi2 0)).

(** the depth axis of a file gives the depths [phi] *)
Definition axis_gives (ax : lin_axis) (phi : list R) : Prop :=
  NAXISn ax = Z.of_nat (List.length phi) /\ forall j, (j < List.length phi)%nat -> world (CRVAL ax) (CRPIX ax) (CDELT ax) (S j) = nth j phi 0.
(** the file has the axes of Q with the spectral one replaced *)
Definition axes_like {A B} (F : image A) (Q : image B) (k n : nat) : Prop :=
  wf_image F /\ i_naxis F = with_len (i_naxis Q) k n /\ nth (k - 1) (i_ctype F) None = Some (s "FDEP") /\
  forall a, (1 <= a <= List.length (i_naxis Q))%nat -> a <> k -> nth (a - 1) (i_ctype F) None = nth (a - 1) (i_ctype Q) None.

(** the reference wavelength of a spread function made without spectra *)
Definition reference_rmsf (o : opts3) (Q U : image (option R)) (I : option (image (option R))) (k : nat) (freq : list R) (w : nat -> R) (l0 : R) : Prop :=
  if g_not_rmsynth o then
    if g_super o then l0 = 0
    else mean_over (fun j => exists p, in_image (i_naxis Q) (at_chan p k j) /\ vox None Q (at_chan p k j) <> None) freq w l0
  else reference3 o Q U I k freq w l0.

(** the number of a sky position in a map *)
Definition pixel_no (naxis : list nat) (k : nat) (p : nat -> nat) : nat :=
  let sky := rev (others k (List.length naxis)) in ravel (map (len naxis) sky) (map p sky).

(** an image of the sky axes that are longer than one *)
Definition sky_map (naxis : list nat) (k : nat) (a : nd (option R)) : Prop :=
  filter (fun n => negb (n =? 1)%nat) (shape a) = map (len naxis) (long_axes naxis (rev (others k (List.length naxis)))).

(** [fw] holds the widths: 3.8 over the range of lambda^2, unless a fit was asked
    for and ended well *)
Definition holds_width (fit : bool -> list R -> list (option C) -> option (Z * R)) (o : opts3) (freq : list R) (G : image (option C)) (k : nat) (phi2 : list R) (fw : list (option R)) : Prop :=
  exists mx mn, is_max (map lsq freq) mx /\ is_min (map lsq freq) mn /\
  forall p, in_image (i_naxis G) p ->
    nth (pixel_no (i_naxis G) k p) fw None =
    match (if g_fitRMSF o || g_super o then fit (g_super o) phi2 (sky_spectrum G k p) else None) with
    | Some (st, v) => if (1 <=? st)%Z then Some v else Some (38 / 10 / (mx - mn))
    | None => Some (38 / 10 / (mx - mn))
    end.

(** [mx] holds the largest modulus of each spectrum and [rm] its depth; the first
    of several *)
Definition holds_peaks (F : image (option C)) (k : nat) (phi : list R) (mx rm : nd (option R)) : Prop :=
  forall p, in_image (i_naxis F) p ->
    let idx := 0%nat :: map p (rev (others k (List.length (i_naxis F)))) in
    let cell j := vox None F (at_chan p k j) in
    ((forall j, (j < List.length phi)%nat -> cell j = None) /\ at_nd None mx idx = None /\ at_nd None rm idx = None) \/
    (exists i z, (i < List.length phi)%nat /\ cell i = Some z /\ at_nd None mx idx = Some (Cmod z) /\ at_nd None rm idx = Some (nth i phi 0) /\
       (forall j, (j < List.length phi)%nat -> exists y, cell j = Some y /\ Cmod y <= Cmod z /\ ((j < i)%nat -> Cmod y < Cmod z))).

(** A Faraday-thin source at a sky position: polarised fraction, angle at
    wavelength zero and depth; channels without data do not matter. *)
Definition thin_at (Q U : image (option R)) (I : option (image (option R))) (k : nat) (freq : list R) (p : nat -> nat) (a psi RM : R) : Prop :=
  forall j P, (j < List.length freq)%nat -> frac_vox Q U I (at_chan p k j) = Some P -> P = (RtoC a * cis (2 * (psi + RM * lsq (nth j freq 0))))%C.
(** Two channels with data and weight whose wavelengths tell the depth from all
    others of the grid. *)
Definition tells (Q U : image (option R)) (I : option (image (option R))) (k : nat) (freq : list R) (w : nat -> R) (phi : list R) (p : nat -> nat) (RM : R) : Prop :=
  exists j1 j2, (j1 < List.length freq)%nat /\ (j2 < List.length freq)%nat /\
    frac_vox Q U I (at_chan p k j1) <> None /\ frac_vox Q U I (at_chan p k j2) <> None /\ 0 < w j1 /\ 0 < w j2 /\
    lsq (nth j1 freq 0) <> lsq (nth j2 freq 0) /\
    forall f, In f phi -> Rabs (f - RM) * Rabs (lsq (nth j1 freq 0) - lsq (nth j2 freq 0)) < PI.
(** the channels with Q are those with a fractional polarisation *)
Definition flagged_alike (Q U : image (option R)) (I : option (image (option R))) (k : nat) (freq : list R) (p : nat -> nat) : Prop :=
  forall j, (j < List.length freq)%nat -> vox None Q (at_chan p k j) = None <-> frac_vox Q U I (at_chan p k j) = None.
