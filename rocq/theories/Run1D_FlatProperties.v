(** rmtools rmsynth1d and the level of Stokes I: claim C80. *)
From Coq Require Import Reals List Arith ZArith Lia Lra Bool Permutation.
Set Warnings "-ambiguous-paths".
From Coquelicot Require Import Coquelicot.
From Verif Require Import PyRes CBase PyList Synth_Model Synth_Spec Setup_Spec StokesI_Model StokesI_Spec MpI_Model MpI_Spec Measure_Model Measure_Spec Run1D_Model Run1D_Spec Run1D_Refute Run1D_FlatSpec Run1D_Flat.
Import ListNotations.
Local Open Scope R_scope.

(** C80. Proportional Stokes I models give one spectrum, and fractions in that proportion. *)
Theorem C80_proportional : forall (mpfit1 mpfit2 : mpin -> pyres mpres) (fit : bool -> list R -> list (option C) -> option (Z * R)) (d1 d2 : synth_data) (o1 o2 : run_opts) (freq : list R) (I1 I2 Q U dI1 dI2 dQ dU : list (option R)) (out1 out2 : synth_out) (k : R), good_input d1 (o_noStokesI o1) freq I1 Q U dI1 dQ dU -> good_input d2 (o_noStokesI o2) freq I2 Q U dI2 dQ dU ->
  good_opts mpfit1 o1 (length freq) -> good_opts mpfit2 o2 (length freq) -> run_rmsynth mpfit1 fit d1 o1 = POk out1 -> run_rmsynth mpfit2 fit d2 o2 = POk out2 -> same_setup o1 o2 -> k <> 0 ->
  (forall j, (j < length freq)%nat -> stokes_model o1 (r_fit out1) freq j = k * stokes_model o2 (r_fit out2) freq j) ->
  (forall i1 i2, r_Ifreq0 out1 = Some i1 -> r_Ifreq0 out2 = Some i2 -> i1 = k * i2) ->
  same_spectrum out1 out2 /\ (o_super o2 = false -> r_freq0 out1 = r_freq0 out2) /\
    (forall p, r_fracPol out2 = Some p -> r_fracPol out1 = Some (p / k)) /\
    (forall p a RM, r_fracPol out2 = Some p -> polAngle0Fit_deg (r_parms out2) = Some a -> phiPeakPIfit (r_parms out2) = Some RM -> r_sigma out1 = r_sigma out2).
Proof. exact @same_run. Qed.
Print Assumptions C80_proportional.


(** C80. A flat Stokes I spectrum is fitted exactly, for every order and both kinds of model. *)
Theorem C80_flat_fit : forall fuel rest fit d o freq iA Q U dI dQ dU out c,
  good_input d (o_noStokesI o) freq iA Q U dI dQ dU -> good_opts (mpfit_code (S fuel) rest) o (length freq) -> o_modStokesI o = None ->
  flat_I freq iA dI c -> run_rmsynth (mpfit_code (S fuel) rest) fit d o = POk out ->
  (forall f, 0 < f -> model_at (r_fit out) f = c) /\ r_Ifreq0 out = Some c.
Proof. exact @flat_run. Qed.
Print Assumptions C80_flat_fit.
Example C80_flat_nonvacuous : forall fuel fit, good_input f_data (o_noStokesI f_opts) e_freq [Some 4; Some 4; Some 4] f_Q f_U f_err f_err f_err /\
  good_opts (mpfit_code (S fuel) f_rest) f_opts (length e_freq) /\ flat_I e_freq [Some 4; Some 4; Some 4] f_err 4 /\
  exists out, run_rmsynth (mpfit_code (S fuel) f_rest) fit f_data f_opts = POk out.
Proof. intros fuel fit. split; [apply f_input|]. split; [apply f_good_opts|]. split; [apply f_flat|apply f_run]. Qed.


(** C80. The spectrum is then that of Q and U as they are given, in their units. *)
Theorem C80_flat_spectrum : forall fuel rest fit d o freq iA Q U dI dQ dU out c,
  good_input d (o_noStokesI o) freq iA Q U dI dQ dU -> good_opts (mpfit_code (S fuel) rest) o (length freq) -> o_modStokesI o = None ->
  flat_I freq iA dI c -> run_rmsynth (mpfit_code (S fuel) rest) fit d o = POk out ->
  let chs := plain_chans freq Q U (r_weight out) in
  0 < wsum chs /\ r_lam0 out = (if o_super o then 0 else mean_l2 chs) /\ length (r_FDF out) = length (r_phi out) /\
  (forall k, (k < length (r_phi out))%nat -> nth k (r_FDF out) None = Some (FDF_spec chs (r_lam0 out) (nth k (r_phi out) 0))).
Proof. exact @flat_spectrum. Qed.
Print Assumptions C80_flat_spectrum.


(** C80. Runs with different flat Stokes I spectra, or without, report the same. *)
Theorem C80_flat_same : forall fuel1 rest1 fuel2 rest2 fit d1 d2 o1 o2 freq I1 I2 Q U dI1 dI2 dQ dU out1 out2 a b,
  good_input d1 (o_noStokesI o1) freq I1 Q U dI1 dQ dU -> good_input d2 (o_noStokesI o2) freq I2 Q U dI2 dQ dU ->
  good_opts (mpfit_code (S fuel1) rest1) o1 (length freq) -> good_opts (mpfit_code (S fuel2) rest2) o2 (length freq) ->
  o_modStokesI o1 = None -> o_modStokesI o2 = None -> same_setup o1 o2 -> flat_I freq I1 dI1 a -> flat_I freq I2 dI2 b ->
  run_rmsynth (mpfit_code (S fuel1) rest1) fit d1 o1 = POk out1 -> run_rmsynth (mpfit_code (S fuel2) rest2) fit d2 o2 = POk out2 ->
  same_spectrum out1 out2 /\ (o_super o2 = false -> r_freq0 out1 = r_freq0 out2) /\
  (forall p, r_fracPol out2 = Some p -> r_fracPol out1 = Some (p * b / a)).
Proof. exact @flat_same. Qed.
Print Assumptions C80_flat_same.
Example C80_same_nonvacuous : forall fuel fit, good_input (Data5 e_freq f_Q f_U f_err f_err) (o_noStokesI f_opts) e_freq (repeat (Some 1) 3) f_Q f_U (repeat (Some 0) 3) f_err f_err /\
  flat_I e_freq (repeat (Some 1) 3) (repeat (Some 0) 3) 1 /\ same_setup f_opts f_opts /\
  exists out, run_rmsynth (mpfit_code (S fuel) f_rest) fit (Data5 e_freq f_Q f_U f_err f_err) f_opts = POk out.
Proof. intros fuel fit. split; [apply f_input5|]. split; [apply (fractional_flat e_freq); discriminate|]. split; [repeat split|apply f_run5]. Qed.


(** C80. Data without Stokes I count as flat. *)
Theorem C80_fractional : forall freq, freq <> [] -> flat_I freq (repeat (Some 1) (length freq)) (repeat (Some 0) (length freq)) 1.
Proof. exact @fractional_flat. Qed.
Print Assumptions C80_fractional.


(** C80. A table of Stokes I values in other units gives the same spectrum. *)
Theorem C80_table : forall mpfit1 mpfit2 fit d1 d2 o1 o2 freq I1 I2 Q U dI1 dI2 dQ dU out1 out2 k m,
  good_input d1 (o_noStokesI o1) freq I1 Q U dI1 dQ dU -> good_input d2 (o_noStokesI o2) freq I2 Q U dI2 dQ dU ->
  good_opts mpfit1 o1 (length freq) -> good_opts mpfit2 o2 (length freq) ->
  k <> 0 -> o_modStokesI o1 = Some (map (Rmult k) m) -> o_modStokesI o2 = Some m -> same_setup o1 o2 -> o_super o2 = false ->
  run_rmsynth mpfit1 fit d1 o1 = POk out1 -> run_rmsynth mpfit2 fit d2 o2 = POk out2 ->
  same_spectrum out1 out2 /\ (forall p, r_fracPol out2 = Some p -> r_fracPol out1 = Some (p / k)).
Proof. exact @table_same. Qed.
Print Assumptions C80_table.


(** C80. With a flat Stokes I the run ends, given enough channels for the order asked for. *)
Theorem C80_ends : forall fuel rest fit d o freq iA Q U dI dQ dU c,
  good_input d (o_noStokesI o) freq iA Q U dI dQ dU -> good_opts (mpfit_code (S fuel) rest) o (length freq) -> o_modStokesI o = None ->
  flat_I freq iA dI c -> (Z.to_nat (Z.min (o_polyOrd o) 5) < length (finite_chans freq iA dI))%nat ->
  run_ready o freq Q U dQ dU (fun _ => c) ->
  exists out, run_rmsynth (mpfit_code (S fuel) rest) fit d o = POk out.
Proof. exact @flat_ends. Qed.
Print Assumptions C80_ends.
Example C80_ends_nonvacuous : run_ready f_opts e_freq f_Q f_U f_err f_err (fun _ => 4) /\ (Z.to_nat (Z.min (o_polyOrd f_opts) 5) < length (finite_chans e_freq [Some 4%R; Some 4%R; Some 4%R] f_err))%nat.
Proof. split; [apply f_ready; lra|cbn; lia]. Qed.

