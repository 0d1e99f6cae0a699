(** rmtools qufit: claim C79. *)
From Coq Require Import Reals List Arith ZArith Lia Lra Bool Permutation.
Set Warnings "-ambiguous-paths".
From Coquelicot Require Import Coquelicot.
From Verif Require Import CBase PyRes PyList PyStr Synth_Model StokesI_Model StokesI_Spec MpI_Model MpI_Spec Measure_Model Measure_Spec Setup_Spec Run1D_Model Run1D_Spec QU_Model QU_Spec Qrun_Model Qrun_Spec Qrun_Flat Qrun_Fit Qrun_Example.
From Coq Require Import String Ascii.
Local Notation length := List.length.
Import ListNotations.
Local Open Scope R_scope.

(** C79. What is reported comes from the samples drawn for the fractional spectra. *)
Theorem C79_report : forall mpfit sampler cwd inst d num po noI ff r m, run_qufit mpfit sampler cwd inst d num po noI ff = QuDone r ->
  model_found cwd inst num m -> sampler_ok sampler -> proper_priors (f_priors m) -> angles_first (f_priors m) ->
  exists freq iA Q U dI dQ dU IMod q u dq du fr x, input_columns d noI freq iA Q U dI dQ dU /\
    create_frac_spectra mpfit freq iA Q U dI dQ dU po ff None = Some (IMod, q, u, dq, du, fr) /\ u_I r = fr /\
    sampler (fun d => log_likelihood (f_model m) d (map lsq freq) q dq u du) (f_priors m) = Some x /\
    reports (f_priors m) x r /\ goodness m (map lsq freq) q u dq du x r.
Proof. exact @run_reports. Qed.
Print Assumptions C79_report.


(** C79. Data without Stokes I, or with it ignored, are fitted as they are; the run completes. *)
Theorem C79_fractional : forall fuel rest sampler cwd inst d num po noI ff m freq Q U dQ dU x,
  fractional_input d noI freq Q U dQ dU -> ff <> OtherFun ->
  model_found cwd inst num m -> sampler_ok sampler -> proper_priors (f_priors m) -> angles_first (f_priors m) -> computable m (map lsq freq) ->
  sampler (fun d => log_likelihood (f_model m) d (map lsq freq) Q dQ U dU) (f_priors m) = Some x ->
  exists r, run_qufit (mpfit_code (S fuel) rest) sampler cwd inst d num po noI ff = QuDone r /\ reports (f_priors m) x r /\ goodness m (map lsq freq) Q U dQ dU x r /\
    params (u_I r) = [0; 0; 0; 0; 0; 1].
Proof. exact @fractional_fit. Qed.
Print Assumptions C79_fractional.
Example C79_fractional_nonvacuous : model_found (fun _ => Missing) (fun _ => Found thin_free) 1 thin_free /\ sampler_ok (const_sampler [1 / 2; 10; 5] 6) /\
  proper_priors (f_priors thin_free) /\ angles_first (f_priors thin_free) /\ computable thin_free (map lsq x_freq) /\ fractional_input (x_data [Some 1; None] [Some 1; None]) false x_freq [Some 1; None] [Some 1; None] [Some 1; Some 1] [Some 1; Some 1].
Proof.
  split; [right; split; reflexivity|]. split; [apply const_ok|]. split; [apply keys_differ|]. split; [apply angles_first_free|].
  split; [apply thin_computable; cbn; auto|]. split; [now left|]. repeat split. discriminate.
Qed.


(** C79. A flat Stokes I divides the data by its level, whatever the order of the fit. *)
Theorem C79_flat : forall fuel rest sampler cwd inst d num po noI ff m freq c Q U dQ dU x,
  flat_input d noI freq c Q U dQ dU -> ff <> OtherFun ->
  model_found cwd inst num m -> sampler_ok sampler -> proper_priors (f_priors m) -> angles_first (f_priors m) -> computable m (map lsq freq) ->
  sampler (fun d => log_likelihood (f_model m) d (map lsq freq) (over c Q) (over c dQ) (over c U) (over c dU)) (f_priors m) = Some x ->
  exists r, run_qufit (mpfit_code (S fuel) rest) sampler cwd inst d num po noI ff = QuDone r /\ reports (f_priors m) x r /\
    goodness m (map lsq freq) (over c Q) (over c U) (over c dQ) (over c dU) x r /\ params (u_I r) = [0; 0; 0; 0; 0; c].
Proof. exact @flat_fit_run. Qed.
Print Assumptions C79_flat.
Example C79_flat_nonvacuous : model_found (fun _ => Missing) (fun _ => Found thin_free) 1 thin_free /\ sampler_ok (const_sampler [1 / 2; 10; 5] 6) /\
  proper_priors (f_priors thin_free) /\ angles_first (f_priors thin_free) /\ computable thin_free (map lsq x_freq) /\ flat_input (Data7 x_freq [Some 4; Some 4] [Some 1; Some 1] [Some 1; Some 1] [Some 1; Some 1] [Some 1; Some 1] [Some 1; Some 1]) false x_freq 4 [Some 1; Some 1] [Some 1; Some 1] [Some 1; Some 1] [Some 1; Some 1].
Proof.
  split; [right; split; reflexivity|]. split; [apply const_ok|]. split; [apply keys_differ|]. split; [apply angles_first_free|].
  split; [apply thin_computable; cbn; auto|]. exists [Some 4; Some 4], [Some 1; Some 1]. do 2 (split; [reflexivity|]). split; [lra|]. do 6 (split; [reflexivity|]). split; [discriminate|]. split.
  - intros t Ht. unfold with_errors, finite_chans, x_freq in Ht. cbn [List.length seq flat_map nth app forallb snd] in Ht. destruct (Req_EM_T 1 0); [lra|]. cbn [andb] in Ht. destruct Ht as [<-|[<-|[]]]; cbn [snd]; lra.
  - intros t [<-|[<-|[]]]; reflexivity.
Qed.


(** C79. Data that the model explains exactly have their largest likelihood at its parameters. *)
Theorem C79_exact : forall model d0 sp l2 q u dq du, model d0 l2 = POk sp -> generated sp q u -> errors_ok dq -> errors_ok du ->
  best (fun d => log_likelihood model d l2 q dq u du) d0.
Proof. exact @exact_best. Qed.
Print Assumptions C79_exact.
Example C79_exact_nonvacuous : generated [Some (1, 2)] [Some 1] [None].
Proof. split; intros [|[|j]] v H; try discriminate. injection H as <-. exists (1, 2). split; reflexivity. Qed.


(** C79. So does the likelihood that the sampler is given, with a flat Stokes I. *)
Theorem C79_exact_run : forall fuel rest sampler cwd inst d num po noI ff m freq c Q U dQ dU r d0 sp,
  flat_input d noI freq c Q U dQ dU -> ff <> OtherFun -> model_found cwd inst num m -> sampler_ok sampler -> proper_priors (f_priors m) -> angles_first (f_priors m) ->
  run_qufit (mpfit_code (S fuel) rest) sampler cwd inst d num po noI ff = QuDone r ->
  f_model m d0 (map lsq freq) = POk sp -> generated sp (over c Q) (over c U) -> 0 < c -> errors_ok dQ -> errors_ok dU ->
  exists L x, best L d0 /\ sampler L (f_priors m) = Some x /\ reports (f_priors m) x r.
Proof. exact @exact_run. Qed.
Print Assumptions C79_exact_run.


(** C79. A flat Stokes I spectrum is fitted exactly, for every order and both kinds of model. *)
Theorem C79_flat_stokes : forall fuel rest freq I Q U dI dQ dU po ff c,
  length I = length freq -> length dI = length freq -> length Q = length freq -> length U = length freq -> length dQ = length freq -> length dU = length freq ->
  ff <> OtherFun -> let g := finite_chans freq I dI in
  g <> [] -> (forall t, In t (with_errors g) -> snd t <> 0) -> (forall t, In t g -> snd (fst t) = c) -> c <> 0 ->
  exists fr, create_frac_spectra (mpfit_code (S fuel) rest) freq I Q U dI dQ dU po ff None =
    Some (repeat c (length freq), map (option_map (fun x => x / c)) Q, map (option_map (fun x => x / c)) U,
          map (option_map (fun x => x / c)) dQ, map (option_map (fun x => x / c)) dU, fr) /\ params fr = [0; 0; 0; 0; 0; c] /\ fit_function fr = ff.
Proof. exact @flat_fractions. Qed.
Print Assumptions C79_flat_stokes.


(** C79. The ways to end without a result; the working directory comes first. *)
Theorem C79_endings : forall mpfit sampler cwd inst d num po noI ff, let e := run_qufit mpfit sampler cwd inst d num po noI ff in
  (e = QuReturn <-> d = DataOther) /\
  (e = QuExit -> cwd num = Missing /\ forall m, inst num <> Found m) /\
  (forall m inst', cwd num = Found m -> run_qufit mpfit sampler cwd inst' d num po noI ff = e).
Proof. exact @endings. Qed.
Print Assumptions C79_endings.


(** C79. No model file ends the program; one that cannot be read raises. *)
Theorem C79_no_model : forall fuel rest sampler cwd inst d num po noI ff freq Q U dQ dU, fractional_input d noI freq Q U dQ dU -> ff <> OtherFun ->
  let e := run_qufit (mpfit_code (S fuel) rest) sampler cwd inst d num po noI ff in
  (cwd num = Missing -> (forall m, inst num <> Found m) -> e = QuExit) /\ (cwd num = Broken -> e = QuRaise).
Proof. exact @no_model. Qed.
Print Assumptions C79_no_model.


(** C79. Finding: with a fixed parameter before an angle the wrong samples are rotated: the angle is off by 90 degrees, and another parameter by 90. *)
Theorem C79_fixed_refuted : forall fuel rest n, exists m sampler inst d r,
  proper_priors (f_priors m) /\ sampler_ok sampler /\ map k_key (varied (f_priors m)) = [s "psi0_deg"; s "RM_radm2"] /\
  (forall L x, sampler L (f_priors m) = Some x -> s_cols x = [repeat 10 (S n); repeat 5 (S n)]) /\
  run_qufit (mpfit_code (S fuel) rest) sampler (fun _ => Missing) inst d 1 2 false Log = QuDone r /\ inst 1%nat = Found m /\
  u_names r = [s "fracPol"; s "psi0_deg"; s "RM_radm2"] /\ q_values (u_fit r) = [1 / 2; 100; 95].
Proof. exact @fixed_refuted. Qed.
Print Assumptions C79_fixed_refuted.


(** C79. Finding: with enough fixed parameters before the angle the run fails after the sampling. *)
Theorem C79_fixed_raises_refuted : forall fuel rest, exists m sampler inst d,
  proper_priors (f_priors m) /\ sampler_ok sampler /\ computable m (map lsq x_freq) /\ (forall L, exists x, sampler L (f_priors m) = Some x) /\
  inst 1%nat = Found m /\ run_qufit (mpfit_code (S fuel) rest) sampler (fun _ => Missing) inst d 1 2 false Log = QuRaise.
Proof. exact @fixed_raises_refuted. Qed.
Print Assumptions C79_fixed_raises_refuted.


(** C79. Finding: blank channels are counted as data: two values, three parameters, yet no negative number of degrees of freedom. *)
Theorem C79_blank_counted_refuted : forall fuel rest, exists m sampler inst d r,
  d = x_data [Some 1; None] [Some 1; None] /\ sampler_ok sampler /\ length (varied (f_priors m)) = 3%nat /\ inst 1%nat = Found m /\
  run_qufit (mpfit_code (S fuel) rest) sampler (fun _ => Missing) inst d 1 2 false Log = QuDone r /\ q_dof (u_fit r) = 4 - 3 - 1.
Proof. exact @blank_counted_refuted. Qed.
Print Assumptions C79_blank_counted_refuted.

