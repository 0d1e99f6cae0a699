(** The 1-D tools: claims C40 and C56-C62. *)
From Coq Require Import Reals List Arith ZArith Lia Lra Bool Permutation.
Set Warnings "-ambiguous-paths".
From Coquelicot Require Import Coquelicot.
From Verif Require Import CBase NdArray PyRes PyList Synth_Model Synth_Spec Setup_Model Setup_Spec StokesI_Model StokesI_Spec Measure_Model Measure_Spec Run1D_Model Run1D_Spec Run1D_Proofs Run1D_Laws Run1D_Total Run1D_Fits Run1D_Refute QU_Model QU_Spec Run1D_Meas.
Import ListNotations.
Local Open Scope R_scope.

(** C40. The columns are the spectra of the pixel asked for. *)
Theorem C40_pixel : forall freq Qc Uc Ic p n ny nx y x d, is_cube Qc n ny nx -> is_cube Uc n ny nx -> (forall c, Ic = Some c -> is_cube c n ny nx) ->
  asks_for p y x -> (y < ny)%nat -> (x < nx)%nat -> from_fits freq Qc Uc Ic p = POk d ->
  exists e, length e = length freq /\ (forall v, In v e -> v = Some (1 / 1000)) /\
    d = match Ic with
        | None => Data5 freq (spectrum_at Qc n ny nx y x) (spectrum_at Uc n ny nx y x) e e
        | Some c => Data7 freq (spectrum_at c n ny nx y x) (spectrum_at Qc n ny nx y x) (spectrum_at Uc n ny nx y x) e e e
        end.
Proof. exact @fits_pixel. Qed.
Print Assumptions C40_pixel.
Example C40_nonvacuous : is_cube (mk_nd [2; 1; 2]%nat [Some 1; Some 2; Some 3; Some 4]) 2 1 2 /\ asks_for (ByPixel 2 1) 0 1 /\
  spectrum_at (mk_nd [2; 1; 2]%nat [Some 1; Some 2; Some 3; Some 4]) 2 1 2 0 1 = [Some 2; Some 4].
Proof. split; [split; reflexivity|]. split; [cbn; lra|reflexivity]. Qed.


(** C40. The run is the run on those columns. *)
Theorem C40_run : forall mpfit fit freq Qc Uc Ic p o out, main_from_fits mpfit fit freq Qc Uc Ic p o = POk out <->
  exists d, from_fits freq Qc Uc Ic p = POk d /\ run_rmsynth mpfit fit d o = POk out.
Proof. exact @fits_run. Qed.
Print Assumptions C40_run.


(** C40. A pixel blank in Q and U is refused. *)
Theorem C40_blank : forall freq Qc Uc Ic p n ny nx y x, is_cube Qc n ny nx -> is_cube Uc n ny nx -> (forall c, Ic = Some c -> is_cube c n ny nx) ->
  asks_for p y x -> (y < ny)%nat -> (x < nx)%nat ->
  (forall v, In v (spectrum_at Qc n ny nx y x) -> v = Some 0) -> (forall v, In v (spectrum_at Uc n ny nx y x) -> v = Some 0) ->
  from_fits freq Qc Uc Ic p = PErr.
Proof. exact @fits_blank. Qed.
Print Assumptions C40_blank.


(** C40. Exactly the pixels blank in Q are refused. *)
Theorem C40_blank_rule : forall freq Qc Uc Ic p n ny nx y x, is_cube Qc n ny nx -> is_cube Uc n ny nx -> (forall c, Ic = Some c -> is_cube c n ny nx) ->
  asks_for p y x -> (y < ny)%nat -> (x < nx)%nat ->
  (from_fits freq Qc Uc Ic p = PErr <-> forall v, In v (spectrum_at Qc n ny nx y x) -> v = Some 0).
Proof. exact @fits_blank_rule. Qed.
Print Assumptions C40_blank_rule.


(** C40. A pixel past the last row or column is refused. *)
Theorem C40_outside : forall freq Qc Uc Ic p n ny nx y x, is_cube Qc n ny nx -> asks_for p y x -> (ny <= y)%nat \/ (nx <= x)%nat ->
  from_fits freq Qc Uc Ic p = PErr.
Proof. exact @fits_outside. Qed.
Print Assumptions C40_outside.


(** C40. Finding: a pixel with signal in U only is refused. *)
Theorem C40_blank_refuted : exists freq Qc Uc p, is_cube Qc 1 1 1 /\ is_cube Uc 1 1 1 /\ asks_for p 0 0 /\
  spectrum_at Uc 1 1 1 0 0 = [Some 1] /\ from_fits freq Qc Uc None p = PErr.
Proof. exact @fits_blank_refuted. Qed.
Print Assumptions C40_blank_refuted.


(** C40. Finding: pixel 0 is the last column. *)
Theorem C40_pixel_zero_refuted : exists freq Qc Uc e, is_cube Qc 1 1 2 /\ is_cube Uc 1 1 2 /\
  from_fits freq Qc Uc None (ByPixel 0 1) = POk (Data5 freq (spectrum_at Qc 1 1 2 0 1) (spectrum_at Uc 1 1 2 0 1) e e).
Proof. exact @fits_pixel_zero_refuted. Qed.
Print Assumptions C40_pixel_zero_refuted.


(** C40. Finding: pixel 1.9 is pixel 1. *)
Theorem C40_fraction_refuted : exists freq Qc Uc e, is_cube Qc 1 1 2 /\ is_cube Uc 1 1 2 /\
  from_fits freq Qc Uc None (ByPixel (19 / 10) 1) = POk (Data5 freq (spectrum_at Qc 1 1 2 0 0) (spectrum_at Uc 1 1 2 0 0) e e).
Proof. exact @fits_fraction_refuted. Qed.
Print Assumptions C40_fraction_refuted.


(** C56. Grid, weights, reference wavelength and frequency, Stokes I there, and every sample of the spectrum. *)
Theorem C56_spectrum : forall (mpfit : mpin -> pyres mpres) (fit : bool -> list R -> list (option C) -> option (Z * R)), forall d o freq iA Q U dI dQ dU out,
    good_input d (o_noStokesI o) freq iA Q U dI dQ dU -> good_opts mpfit o (length freq) ->
    run_rmsynth mpfit fit d o = POk out ->
    let mdl := stokes_model o (r_fit out) freq in
    let chs := used_chans freq Q U mdl (r_weight out) in
    exists h step pm I0,
      chosen_grid o freq step pm /\ odd_centred (r_phi out) h step /\ Rabs (INR h * Rabs step - Rabs pm) <= Rabs step / 2 /\
      r_freq out = freq /\ length (r_weight out) = length freq /\
      (forall j, (j < length freq)%nat -> nth j (r_weight out) 0 = chan_weight (o_variance o) (nth j dQ None) (nth j dU None) (mdl j)) /\
      0 < wsum chs /\ 0 < mean_l2 chs /\
      r_lam0 out = (if o_super o then 0 else mean_l2 chs) /\
      (o_super o = false -> r_freq0 out = 299792458 / sqrt (mean_l2 chs)) /\ 0 < r_freq0 out /\ ref_freq (r_fit out) = r_freq0 out /\
      r_Ifreq0 out = Some I0 /\
      match o_modStokesI o with None => I0 = model_at (r_fit out) (r_freq0 out) | Some m => interp1d freq m (r_freq0 out) = POk (Some I0) end /\
      length (r_FDF out) = length (r_phi out) /\
      forall k, (k < length (r_phi out))%nat -> nth k (r_FDF out) None = Some (FDF_spec chs (r_lam0 out) (nth k (r_phi out) 0) * RtoC I0)%C.
Proof. exact @run_refines. Qed.
Print Assumptions C56_spectrum.
Example C56_nonvacuous : good_input (e_data None) (o_noStokesI (e_opts 1)) e_freq e_ones [Some 1; Some 1; Some 1] [Some 0; Some 0; None] [Some 0; Some 0; Some 0] [None; None; None] [None; None; None] /\
  good_opts e_mpfit (e_opts 1) (length e_freq) /\ exists out, run_rmsynth e_mpfit e_fit (e_data None) (e_opts 1) = POk out.
Proof. split; [apply e_input|]. split; [apply e_good_opts|]. apply e_run; [now left|lra]. Qed.


(** C57. Channel count, band edges, reference frequency between them. *)
Theorem C57_channels : forall (mpfit : mpin -> pyres mpres) (fit : bool -> list R -> list (option C) -> option (Z * R)), forall (d : synth_data) (o : run_opts) (freq : list R) (iA Q U dI dQ dU : list (option R)) (out : synth_out),
  good_input d (o_noStokesI o) freq iA Q U dI dQ dU -> good_opts mpfit o (length freq) -> run_rmsynth mpfit fit d o = POk out ->
  let mdl := stokes_model o (r_fit out) freq in
  r_N_channels out = length (counted freq Q mdl (r_weight out)) /\
    exists lo hi, r_min_freq out = Some lo /\ r_max_freq out = Some hi /\
      is_min (counted freq Q mdl (r_weight out)) lo /\ is_max (counted freq Q mdl (r_weight out)) hi /\
      (o_super o = false -> lo <= r_freq0 out <= hi).
Proof. exact @run_channels. Qed.
Print Assumptions C57_channels.


(** C57. The spread function: depths, and every sample. *)
Theorem C57_rmsf : forall (mpfit : mpin -> pyres mpres) (fit : bool -> list R -> list (option C) -> option (Z * R)), forall (d : synth_data) (o : run_opts) (freq : list R) (iA Q U dI dQ dU : list (option R)) (out : synth_out),
  good_input d (o_noStokesI o) freq iA Q U dI dQ dU -> good_opts mpfit o (length freq) -> run_rmsynth mpfit fit d o = POk out ->
  let mdl := stokes_model o (r_fit out) freq in
  let chs := used_chans freq Q U mdl (r_weight out) in
  let qch := q_chans freq Q mdl (r_weight out) in
  exists h step, odd_centred (r_phi out) h step /\ odd_centred (r_phi2 out) (2 * h + 1) step /\
    length (r_RMSF out) = length (r_phi2 out) /\ 0 < wsum qch /\
    forall k, (k < length (r_phi2 out))%nat -> nth k (r_RMSF out) None = Some (RMSF_spec qch (r_lam0 out) (nth k (r_phi2 out) 0)).
Proof. exact @run_rmsf. Qed.
Print Assumptions C57_rmsf.


(** C57. It is that of the channels of the spectrum when Q and U are flagged alike. *)
Theorem C57_rmsf_alike : forall (o : run_opts) (freq : list R) (Q U : list (option R)) (out : synth_out), let mdl := stokes_model o (r_fit out) freq in
  let chs := used_chans freq Q U mdl (r_weight out) in
  let qch := q_chans freq Q mdl (r_weight out) in
  flagged_alike Q U -> forall l0 f, RMSF_spec qch l0 f = RMSF_spec chs l0 f.
Proof. exact @run_rmsf_alike. Qed.
Print Assumptions C57_rmsf_alike.
Example C57_nonvacuous : flagged_alike [Some 1; None] [Some 0; None].
Proof. intros [|[|[|j]]]; cbn; split; intros; try discriminate; reflexivity. Qed.


(** C57. Finding: else a channel without U is in the count and in the spread function but not in the spectrum. *)
Theorem C57_rmsf_refuted : exists d o freq iA Q U dI dQ dU out,
  good_input d (o_noStokesI o) freq iA Q U dI dQ dU /\ good_opts e_mpfit o (length freq) /\ run_rmsynth e_mpfit e_fit d o = POk out /\
  let chs := used_chans freq Q U (stokes_model o (r_fit out) freq) (r_weight out) in
  length chs = 2%nat /\ r_N_channels out = 3%nat /\
  exists k, (k < length (r_phi2 out))%nat /\ RMSF_spec chs (r_lam0 out) (nth k (r_phi2 out) 0) = RtoC 0 /\ nth k (r_RMSF out) None <> Some (RtoC 0).
Proof. exact @run_rmsf_refuted. Qed.
Print Assumptions C57_rmsf_refuted.


(** C58. A Faraday-thin source at a depth of the grid is recovered. *)
Theorem C58_thin_source : forall (mpfit : mpin -> pyres mpres) (fit : bool -> list R -> list (option C) -> option (Z * R)), forall (d : synth_data) (o : run_opts) (freq : list R) (iA Q U dI dQ dU : list (option R)) (out : synth_out),
  good_input d (o_noStokesI o) freq iA Q U dI dQ dU -> good_opts mpfit o (length freq) -> run_rmsynth mpfit fit d o = POk out ->
  let mdl := stokes_model o (r_fit out) freq in
  forall p psi RM h step i j1 j2, thin_columns freq Q U mdl p psi RM -> 0 < p ->
    odd_centred (r_phi out) h step -> 0 < step -> (0 < i < length (r_phi out) - 1)%nat -> nth i (r_phi out) 0 = RM ->
    (j1 < length freq)%nat -> (j2 < length freq)%nat ->
    nth j1 Q None <> None -> nth j1 U None <> None -> nth j2 Q None <> None -> nth j2 U None <> None ->
    mdl j1 <> 0 -> mdl j2 <> 0 -> 0 < nth j1 (r_weight out) 0 -> 0 < nth j2 (r_weight out) 0 -> lsq (nth j1 freq 0) <> lsq (nth j2 freq 0) ->
    (forall k, (k < length (r_phi out))%nat -> Rabs (nth k (r_phi out) 0 - RM) * Rabs (lsq (nth j1 freq 0) - lsq (nth j2 freq 0)) < PI) ->
    forall I0, r_Ifreq0 out = Some I0 -> 0 < I0 ->
    let m := r_parms out in
    phiPeakPIfit m = Some RM /\ ampPeakPIfit m = Some (I0 * p) /\ indxPeakPIfit m = Some (INR i) /\
    (exists a, polAngleFit_deg m = Some a /\ 0 <= a < 180 /\ same_angle a ((psi + RM * r_lam0 out) * 180 / PI)) /\
    (exists a0, polAngle0Fit_deg m = Some a0 /\ 0 <= a0 < 180 /\ same_angle a0 (psi * 180 / PI)) /\
    (forall dF, r_dFDFth out = Some dF -> 0 < dF -> exists f, r_fracPol out = Some f /\ f <= p /\
       (I0 * p < 5 * dF -> f = p) /\ (5 * dF <= I0 * p -> 0 <= f /\ (f * I0) ^ 2 + 23 / 10 * dF ^ 2 = (p * I0) ^ 2)).
Proof. exact @run_thin. Qed.
Print Assumptions C58_thin_source.
Example C58_nonvacuous : exists out h I0, run_rmsynth e_mpfit e_fit (e_data (Some 0)) (e_opts (1 / 2)) = POk out /\
  thin_columns e_freq [Some 1; Some 1; Some 1] [Some 0; Some 0; Some 0] (stokes_model (e_opts (1 / 2)) (r_fit out) e_freq) 1 0 0 /\
  odd_centred (r_phi out) h (1 / 2) /\ (0 < h < length (r_phi out) - 1)%nat /\ nth h (r_phi out) 0 = 0 /\ r_weight out = [1; 1; 1] /\
  lsq (nth 0 e_freq 0) <> lsq (nth 1 e_freq 0) /\
  (forall k, (k < length (r_phi out))%nat -> Rabs (nth k (r_phi out) 0 - 0) * Rabs (lsq (nth 0 e_freq 0) - lsq (nth 1 e_freq 0)) < PI) /\
  r_Ifreq0 out = Some I0 /\ 0 < I0.
Proof. exact e_thin. Qed.


(** C59. A run on good input with a signal ends. *)
Theorem C59_ends : forall mpfit fit d o freq iA Q U dI dQ dU fm,
  good_input d (o_noStokesI o) freq iA Q U dI dQ dU -> good_opts mpfit o (length freq) ->
  first_model mpfit o freq iA dI fm -> run_ready o freq Q U dQ dU fm ->
  exists out, run_rmsynth mpfit fit d o = POk out /\ forall j, (j < length freq)%nat -> stokes_model o (r_fit out) freq j = fm j.
Proof. exact @run_succeeds. Qed.
Print Assumptions C59_ends.
Example C59_nonvacuous : run_ready (e_opts 1) e_freq [Some 1; Some 1; Some 1] [Some 0; Some 0; None] [None; None; None] [None; None; None] (fun _ => 1) /\
  first_model e_mpfit (e_opts 1) e_freq e_ones [Some 0; Some 0; Some 0] (fun _ => 1).
Proof. split; [apply e_ready; [now left|lra]|apply e_model]. Qed.


(** C59. Finding: with super-resolution and a Stokes I table no run ends. *)
Theorem C59_table_super_refuted : forall (mpfit : mpin -> pyres mpres) (fit : bool -> list R -> list (option C) -> option (Z * R)), forall d o freq iA Q U dI dQ dU m,
    good_input d (o_noStokesI o) freq iA Q U dI dQ dU -> good_opts mpfit o (length freq) ->
    o_modStokesI o = Some m -> o_super o = true -> (forall f, In f freq -> 1 < f) -> run_rmsynth mpfit fit d o = PErr.
Proof. exact @run_table_super. Qed.
Print Assumptions C59_table_super_refuted.
Example C59_table_nonvacuous : forall f, In f e_freq -> 1 < f.
Proof. intros f I. repeat destruct I as [<- | I]; try lra. destruct I. Qed.


(** C60. The noise of the spectrum. *)
Theorem C60_noise : forall (mpfit : mpin -> pyres mpres) (fit : bool -> list R -> list (option C) -> option (Z * R)), forall (d : synth_data) (o : run_opts) (freq : list R) (iA Q U dI dQ dU : list (option R)) (out : synth_out),
  good_input d (o_noStokesI o) freq iA Q U dI dQ dU -> good_opts mpfit o (length freq) -> run_rmsynth mpfit fit d o = POk out ->
  let mdl := stokes_model o (r_fit out) freq in
  let s j := chan_noise (nth j dQ None) (nth j dU None) (mdl j) in
  let w j := nth j (r_weight out) 0 in
  let sum f := rsum (map f (seq 0 (length freq))) in
  exists I0, r_Ifreq0 out = Some I0 /\ 0 < sum w /\
    r_dFDFth out = Some (Rabs I0 * sqrt (sum (fun j => (w j * s j) ^ 2)) / sum w) /\
    (o_variance o = true -> r_dFDFth out = Some (Rabs I0 / sqrt (sum w))).
Proof. exact @run_noise. Qed.
Print Assumptions C60_noise.


(** C61. A Stokes I table is interpolated between the neighbours of the reference frequency. *)
Theorem C61_table : forall (mpfit : mpin -> pyres mpres) (fit : bool -> list R -> list (option C) -> option (Z * R)), forall d o freq iA Q U dI dQ dU out m,
    good_input d (o_noStokesI o) freq iA Q U dI dQ dU -> good_opts mpfit o (length freq) -> run_rmsynth mpfit fit d o = POk out ->
    o_modStokesI o = Some m -> NoDup freq ->
    exists i j, (i < length freq)%nat /\ (j < length freq)%nat /\ nth i freq 0 < nth j freq 0 /\ nth i freq 0 <= r_freq0 out <= nth j freq 0 /\
      (forall f, In f freq -> f <= nth i freq 0 \/ nth j freq 0 <= f) /\
      r_Ifreq0 out = Some (nth i m 0 + (r_freq0 out - nth i freq 0) / (nth j freq 0 - nth i freq 0) * (nth j m 0 - nth i m 0)).
Proof. exact @run_table_interpolates. Qed.
Print Assumptions C61_table.
Example C61_nonvacuous : NoDup e_freq /\ o_modStokesI (e_opts 1) = Some [1; 1; 1].
Proof. split; [|reflexivity]. unfold e_freq. repeat (constructor; [cbn; lra|]). constructor. Qed.


(** C61. Without Stokes I the I columns do not matter. *)
Theorem C61_no_stokes_I : forall mpfit fit freq iA Q U dI dQ dU o,
  run_rmsynth mpfit fit (Data7 freq iA Q U dI dQ dU) (without_I o) = run_rmsynth mpfit fit (Data5 freq Q U dQ dU) o.
Proof. exact @run_no_stokes_I. Qed.
Print Assumptions C61_no_stokes_I.


(** C62. The parameters are measured on the saved spectrum; fractional polarisation. *)
Theorem C62_parameters : forall (mpfit : mpin -> pyres mpres) (fit : bool -> list R -> list (option C) -> option (Z * R)), forall (d : synth_data) (o : run_opts) (freq : list R) (iA Q U dI dQ dU : list (option R)) (out : synth_out),
  good_input d (o_noStokesI o) freq iA Q U dI dQ dU -> good_opts mpfit o (length freq) -> run_rmsynth mpfit fit d o = POk out ->
  let mdl := stokes_model o (r_fit out) freq in
  measure_FDF_parms (r_FDF out) (r_phi out) (r_fwhm out) (Some (r_dFDFth out)) (map lsq freq) (r_lam0 out) 5 = POk (r_parms out) /\
    (forall e I0, ampPeakPIfitEff (r_parms out) = Some e -> r_Ifreq0 out = Some I0 -> I0 <> 0 -> r_fracPol out = Some (e / I0)).
Proof. exact @run_parms. Qed.
Print Assumptions C62_parameters.


(** C62. The width of the spread function. *)
Theorem C62_width : forall (mpfit : mpin -> pyres mpres) (fit : bool -> list R -> list (option C) -> option (Z * R)), forall (d : synth_data) (o : run_opts) (freq : list R) (iA Q U dI dQ dU : list (option R)) (out : synth_out),
  good_input d (o_noStokesI o) freq iA Q U dI dQ dU -> good_opts mpfit o (length freq) -> run_rmsynth mpfit fit d o = POk out ->
  let mdl := stokes_model o (r_fit out) freq in
  exists mx mn, is_max (map lsq freq) mx /\ is_min (map lsq freq) mn /\
    let width := if Req_EM_T mx mn then None else Some (38 / 10 / (mx - mn)) in
    r_fwhm out = (if (o_fitRMSF o || o_super o)%bool
                  then match fit (o_super o) (r_phi2 out) (r_RMSF out) with
                       | Some (st, fw) => if Z_lt_dec st 1 then width else Some fw
                       | None => width
                       end
                  else width).
Proof. exact @run_fwhm. Qed.
Print Assumptions C62_width.


(** C62. The complexity is that of the residuals of the reported source. *)
Theorem C62_complexity : forall (mpfit : mpin -> pyres mpres) (fit : bool -> list R -> list (option C) -> option (Z * R)), forall (d : synth_data) (o : run_opts) (freq : list R) (iA Q U dI dQ dU : list (option R)) (out : synth_out),
  good_input d (o_noStokesI o) freq iA Q U dI dQ dU -> good_opts mpfit o (length freq) -> run_rmsynth mpfit fit d o = POk out ->
  let mdl := stokes_model o (r_fit out) freq in
  forall p a RM, r_fracPol out = Some p -> polAngle0Fit_deg (r_parms out) = Some a -> phiPeakPIfit (r_parms out) = Some RM ->
    let n := length freq in
    let t j := thin p (rad a) RM (lsq (nth j freq 0)) in
    let col g := map g (seq 0 n) in
    let yq := col (fun j => resid (nth j Q None) (nth j dQ None) (mdl j) (fst (t j))) in
    let yu := col (fun j => resid (nth j U None) (nth j dU None) (mdl j) (snd (t j))) in
    let eq := col (fun j => unit_error (nth j dQ None) (mdl j)) in
    let eu := col (fun j => unit_error (nth j dU None) (mdl j)) in
    exists sq su sc, r_sigma out = (sq, su, sc) /\
      calc_sigma_add n yq eq 0 1000 = POk sq /\ calc_sigma_add n yu eu 0 1000 = POk su /\
      calc_sigma_add (n + n) (yq ++ yu) (eq ++ eu) 0 1000 = POk sc.
Proof. exact @run_complexity. Qed.
Print Assumptions C62_complexity.
Example C62_nonvacuous : exists out p a RM, run_rmsynth e_mpfit e_fit (e_data (Some 0)) (e_opts (1 / 2)) = POk out /\
  r_fracPol out = Some p /\ polAngle0Fit_deg (r_parms out) = Some a /\ phiPeakPIfit (r_parms out) = Some RM.
Proof. exact e_reported. Qed.
Example C62_residual : resid (Some 3) (Some (1 / 2)) 2 1 = Some 2.
Proof. unfold resid. destruct (Req_EM_T 2 0); [exfalso; lra|]. destruct (Req_EM_T (1 / 2) 0); [exfalso; lra|]. f_equal. lra. Qed.


(** C62. The median error and channel width. *)
Theorem C62_medians : forall (mpfit : mpin -> pyres mpres) (fit : bool -> list R -> list (option C) -> option (Z * R)), forall (d : synth_data) (o : run_opts) (freq : list R) (iA Q U dI dQ dU : list (option R)) (out : synth_out),
  good_input d (o_noStokesI o) freq iA Q U dI dQ dU -> good_opts mpfit o (length freq) -> run_rmsynth mpfit fit d o = POk out ->
  let mdl := stokes_model o (r_fit out) freq in
  r_dQU out = median (flat_map (fun j => match nth j dQ None, nth j dU None with Some a, Some b => [(a + b) / 2] | _, _ => [] end) (seq 0 (length freq))) /\
    r_median_width out = median (map (fun j => nth (S j) freq 0 - nth j freq 0) (seq 0 (length freq - 1))).
Proof. exact @run_medians. Qed.
Print Assumptions C62_medians.

