(** Vocabulary for statements about peak maps. Nothing here is a helper of the
    model of the tool. *)
From Coq Require Import Reals List Arith ZArith Bool Ascii String.
Set Warnings "-ambiguous-paths".
From Coquelicot Require Import Coquelicot.
From Verif Require Import CBase PyRes PyStr NdArray NdIndex Setup_Spec Cube_Model Cube_Spec Measure_Model.
Import ListNotations.
Local Open Scope R_scope.

(** The products a map can be made of. *)
Inductive product :=
  Pcormad | Pphi | Pdphi | Pamp | Peff | Pdamp | Psnr | Pindx | Pimag | Preal | Pangle | Pdangle | Pangle0 | Pdangle0 |
  Plam0 | Pfreq0 | Pfwhm | PI0 | Pfrac | Pmin | Pmax | Pchans | Pwidth | Pnoise.
Definition product_name (P : product) : string :=
  match P with
  | Pcormad => "dFDFcorMAD" | Pphi => "phiPeakPIfit_rm2" | Pdphi => "dPhiPeakPIfit_rm2" | Pamp => "ampPeakPIfit" | Peff => "ampPeakPIfitEff"
  | Pdamp => "dAmpPeakPIfit" | Psnr => "snrPIfit" | Pindx => "indxPeakPIfit" | Pimag => "peakFDFimagFit" | Preal => "peakFDFrealFit"
  | Pangle => "polAngleFit_deg" | Pdangle => "dPolAngleFit_deg" | Pangle0 => "polAngle0Fit_deg" | Pdangle0 => "dPolAngle0Fit_deg"
  | Plam0 => "lam0Sq_m2" | Pfreq0 => "freq0_Hz" | Pfwhm => "fwhmRMSF" | PI0 => "Ifreq0" | Pfrac => "fracPol" | Pmin => "min_freq" | Pmax => "max_freq"
  | Pchans => "N_channels" | Pwidth => "median_channel_width" | Pnoise => "dFDFth"
  end.

(** [v] is the value of a product for a pixel with measured parameters [p],
    width [fw], Stokes I [i0] and noise [dF], channels [freq]. *)
Definition reports (freq : list R) (lam0 : R) (p : parms) (fw i0 : option R) (dF : option (option R)) (P : product) (v : option R) : Prop :=
  match P with
  | Pcormad => v = dFDFcorMAD p | Pphi => v = phiPeakPIfit p | Pdphi => v = dPhiPeakPIfit p | Pamp => v = ampPeakPIfit p | Peff => v = ampPeakPIfitEff p
  | Pdamp => v = dAmpPeakPIfit p | Psnr => v = snrPIfit p | Pindx => v = indxPeakPIfit p | Pimag => v = peakFDFimagFit p | Preal => v = peakFDFrealFit p
  | Pangle => v = polAngleFit_deg p | Pdangle => v = dPolAngleFit_deg p | Pangle0 => v = polAngle0Fit_deg p | Pdangle0 => v = dPolAngle0Fit_deg p
  | Plam0 => v = Some lam0
  | Pfreq0 => 0 < lam0 -> v = Some (299792458 / sqrt lam0)
  | Pfwhm => v = fw
  | PI0 => v = i0
  | Pfrac => match ampPeakPIfit p, i0 with Some a, Some i => i <> 0 -> v = Some (a / i) | _, _ => v = None end
  | Pmin => exists f, is_min freq f /\ v = Some f
  | Pmax => exists f, is_max freq f /\ v = Some f
  | Pchans => v = Some (INR (List.length freq))
  | Pwidth => v = median (map (fun j => nth (S j) freq 0 - nth j freq 0) (seq 0 (List.length freq - 1)))
  | Pnoise => v = match dF with Some d => d | None => None end
  end.

(** The channel at a frequency, or the mean of the two channels around it. *)
Definition ref_value (freq : list R) (f0 : R) (I : nat -> option R) (v : option R) : Prop :=
  (exists k, (k < List.length freq)%nat /\ nth k freq 0 = f0 /\ v = I k) \/
  (exists k, (S k < List.length freq)%nat /\ nth k freq 0 < f0 < nth (S k) freq 0 /\
     v = match I k, I (S k) with Some a, Some b => Some ((a + b) / 2) | _, _ => None end).

(** weight and noise of the channels with a noise value *)
Definition noise_weights (variance : bool) (noise : list (option R)) : list (R * R) :=
  flat_map (fun x => match x with Some v => [(if variance then / v ^ 2 else 1, v)] | None => [] end) noise.

(** [m] holds one map of ny rows and nx columns for each name *)
Definition maps_of (names : list str) (ny nx : nat) (m : list (str * nd (option R))) : Prop :=
  NoDup (map fst m) /\ (forall n, In n (map fst m) <-> In n names) /\ forall n a, In (n, a) m -> shape a = [ny; nx] /\ wf_nd a.

(** A Stokes I cube that goes with the channels: frequencies ascending, the
    reference between the first and the last. *)
Definition good_stokes (freq : list R) (lam0 : R) (I : option (nd (option R))) (ny nx : nat) : Prop :=
  match I with
  | None => True
  | Some cube => shape cube = [List.length freq; ny; nx] /\ ascending freq /\ 0 < lam0 /\ nth 0 freq 0 <= 299792458 / sqrt lam0 <= nth (List.length freq - 1) freq 0
  end.
(** Stokes I of a pixel at the reference; one without a cube *)
Definition ref_at (freq : list R) (lam0 : R) (I : option (nd (option R))) (x y : nat) (v : option R) : Prop :=
  match I with None => v = Some 1 | Some cube => ref_value freq (299792458 / sqrt lam0) (fun j => at_nd None cube [j; x; y]) v end.

(** One positive value or NaN for each channel, not all NaN. *)
Definition good_noise (n : nat) (noise : option (list (option R))) : Prop :=
  match noise with
  | None => True
  | Some ns => List.length ns = n /\ (forall v, In (Some v) ns -> 0 < v) /\ exists v, In (Some v) ns
  end.
(** noise of a pixel with Stokes I [i0] *)
Definition noise_of (variance : bool) (noise : option (list (option R))) (i0 : option R) : option (option R) :=
  match noise with None => None | Some ns => Some (option_map (fun i => i * propagated_noise (noise_weights variance ns)) i0) end.

(** the spectrum of a pixel *)
Definition pixel_spectrum (FDF : nd (option C)) (nphi x y : nat) : list (option C) := map (fun k => at_nd None FDF [k; x; y]) (seq 0 nphi).
Definition names (Ps : list product) : list str := map (fun P => s (product_name P)) Ps.

(** the unit of a product, given that of the FDF *)
Definition product_unit (flux : str) (P : product) : str :=
  match P with
  | Pcormad | Pamp | Peff | Pdamp | Pimag | Preal | PI0 | Pnoise => flux
  | Pphi | Pdphi | Pfwhm => s "rad/m^2"
  | Pangle | Pdangle | Pangle0 | Pdangle0 => s "deg"
  | Plam0 => s "m^2"
  | Pfreq0 | Pmin | Pmax | Pwidth => s "Hz"
  | Psnr | Pindx | Pfrac | Pchans => s ""
  end.

(** ** Files *)

(** A Stokes I file that goes with an FDF file: the same sky, the frequency axis
    in the place of the depth axis. *)
Definition good_stokes_file (freq : list R) (lam0 : R) (naxis : list nat) (k : nat) (g : option (image (option R))) : Prop :=
  match g with
  | None => True
  | Some g => wf_image g /\ spectral_axis (s "FREQ") (i_ctype g) k /\ i_naxis g = with_len naxis k (List.length freq) /\ List.length freq <> 1%nat /\
      ascending freq /\ 0 < lam0 /\ nth 0 freq 0 <= 299792458 / sqrt lam0 <= nth (List.length freq - 1) freq 0
  end.
Definition ref_in (freq : list R) (lam0 : R) (k : nat) (g : option (image (option R))) (p : nat -> nat) (v : option R) : Prop :=
  match g with None => v = Some 1 | Some g => ref_value freq (299792458 / sqrt lam0) (fun j => vox None g (at_chan p k j)) v end.
(** the spectrum at a sky position *)
Definition sky_spectrum (f : image (option C)) (k : nat) (p : nat -> nat) : list (option C) :=
  map (fun j => vox None f (at_chan p k j)) (seq 0 (len (i_naxis f) k)).
