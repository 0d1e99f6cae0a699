(** Stokes I models and fractional spectra: the theorems that count. *)
From Coq Require Import Reals List Arith ZArith Lia Lra Bool Permutation.
Set Warnings "-ambiguous-paths".
From Coquelicot Require Import Coquelicot.
From Verif Require Import PyRes CBase PyList StokesI_Model StokesI_Spec StokesI_Proofs StokesI_Fit.
Import ListNotations.
Local Open Scope R_scope.

(** C27. Changing the reference frequency leaves the Stokes I spectrum unchanged, for linear and log models. *)
Theorem C27_renormalize_same_model : forall fr new freq, good_fit fr -> 0 < new -> (forall f, In f freq -> 0 < f) ->
  exists fr', renormalize_StokesI_model fr new = POk fr' /\ ref_freq fr' = new /\
    calculate_StokesI_model fr' freq = calculate_StokesI_model fr freq /\
    calculate_StokesI_model fr freq = POk (map (model_at fr) freq).
Proof. exact renormalize_same_model. Qed.
Print Assumptions C27_renormalize_same_model.
Example C27_nonvacuous : good_fit (unit_fit 1 Log) /\ good_fit (unit_fit 4 Linear) /\ 0 < 10.
Proof. split; [|split; [|lra]]; apply unit_fit_good; discriminate. Qed.


(** C27. Twice is the same as once with the final frequency. *)
Theorem C27_renormalize_twice : forall fr new1 new2, good_fit fr -> 0 < new1 -> 0 < new2 ->
  exists fr1 fr2 fr', renormalize_StokesI_model fr new1 = POk fr1 /\
    renormalize_StokesI_model fr1 new2 = POk fr2 /\
    renormalize_StokesI_model fr new2 = POk fr' /\
    params fr2 = params fr' /\ ref_freq fr2 = ref_freq fr'.
Proof. exact renormalize_twice. Qed.
Print Assumptions C27_renormalize_twice.


(** C27. The same reference frequency changes nothing. *)
Theorem C27_renormalize_same_ref : forall fr, good_fit fr ->
  exists fr', renormalize_StokesI_model fr (ref_freq fr) = POk fr' /\ params fr' = params fr /\ ref_freq fr' = ref_freq fr.
Proof. exact renormalize_same_ref. Qed.
Print Assumptions C27_renormalize_same_ref.


(** C27. Linear models: every quoted error is the propagated one. *)
Theorem C27_linear_errors_propagated : forall fr new i, good_fit fr -> fit_function fr = Linear ->
  (forall cov, pcov fr = Some cov -> psd cov) -> (i < 6)%nat ->
  error_propagated (fun r => renormalize_StokesI_model r new) fr i.
Proof. exact linear_errors_propagated. Qed.
Print Assumptions C27_linear_errors_propagated.
Example C27_errors_nonvacuous : good_fit (unit_fit 4 Linear) /\ (forall cov, pcov (unit_fit 4 Linear) = Some cov -> psd cov).
Proof. split; [apply unit_fit_good; discriminate|]. intros cov [= <-]. apply unit_cov_psd. lia. Qed.


(** C27. Log models: the first four errors are the propagated ones. Missing: the fifth and the sixth, which are wrong (next theorems). *)
Theorem C27_log_errors_propagated_partial : forall fr new i, good_fit fr -> fit_function fr = Log ->
  (forall cov, pcov fr = Some cov -> psd cov) -> (i < 4)%nat ->
  error_propagated (fun r => renormalize_StokesI_model r new) fr i.
Proof. exact log_errors_propagated_partial. Qed.
Print Assumptions C27_log_errors_propagated_partial.
Example C27_log_errors_nonvacuous : good_fit (unit_fit 1 Log) /\ (forall cov, pcov (unit_fit 1 Log) = Some cov -> psd cov).
Proof. split; [apply unit_fit_good; discriminate|]. intros cov [= <-]. apply unit_cov_psd. lia. Qed.


(** C27. Log models: the sixth error is right when only the amplitude is uncertain. *)
Theorem C27_log_error_6_amplitude_partial : forall fr new s2, good_fit fr -> fit_function fr = Log ->
  0 <= s2 -> pcov fr = Some (fun i j => s2 * unit_cov 5 i j) -> nth 5 (params fr) 0 <> 0 ->
  error_propagated (fun r => renormalize_StokesI_model r new) fr 5.
Proof. exact log_error_6_amplitude_partial. Qed.
Print Assumptions C27_log_error_6_amplitude_partial.
Example C27_amplitude_nonvacuous : exists fr, good_fit fr /\ fit_function fr = Log /\ pcov fr = Some (fun i j => 1 * unit_cov 5 i j) /\ nth 5 (params fr) 0 <> 0.
Proof.
  exists (mk_fit [0; 0; 0; 0; 1; 2] 0 0 None 0 1 1 1 (Some (fun i j => 1 * unit_cov 5 i j)) [] Log).
  split; [split; [reflexivity|split; [eexists; reflexivity|split; [discriminate|cbn; lra]]]|]. cbn. repeat split. lra.
Qed.


(** C27. Finding: the fifth error of a log model uses the covariance entry (0,5) in place of (1,1). *)
Theorem C27_log_error_5_refuted : good_fit (unit_fit 1 Log) /\ psd (unit_cov 1) /\
  ~ error_propagated (fun r => renormalize_StokesI_model r 10) (unit_fit 1 Log) 4.
Proof. exact log_error_5_refuted. Qed.
Print Assumptions C27_log_error_5_refuted.


(** C27. Finding: the sixth error of a log model lacks ln(10)^2 on the terms that do not involve the amplitude. *)
Theorem C27_log_error_6_refuted : good_fit (unit_fit 4 Log) /\ psd (unit_cov 4) /\
  ~ error_propagated (fun r => renormalize_StokesI_model r 10) (unit_fit 4 Log) 5.
Proof. exact log_error_6_refuted. Qed.
Print Assumptions C27_log_error_6_refuted.


(** C27. Finding: the covariance is not updated, so a second renormalisation quotes wrong errors. *)
Theorem C27_twice_errors_refuted : good_fit (unit_fit 4 Linear) /\
  exists fr1 fr2 fr', renormalize_StokesI_model (unit_fit 4 Linear) 2 = POk fr1 /\
    renormalize_StokesI_model fr1 4 = POk fr2 /\
    renormalize_StokesI_model (unit_fit 4 Linear) 4 = POk fr' /\
    nth 4 (perror fr') None = Some 4 /\ nth 4 (perror fr2) None = Some 2.
Proof. exact renormalize_twice_errors_refuted. Qed.
Print Assumptions C27_twice_errors_refuted.


(** C28. Order selection. The fitter is any function; the result is the fit of the reported order, and that order is the first one at which the AIC stops improving. *)
Theorem C28_fit_order_selection : forall mpfit freq I dI polyOrd0 ff r,
  length I = length freq -> length dI = length freq -> ff <> OtherFun ->
  fit_StokesI_model mpfit freq I dI polyOrd0 ff = POk r ->
  let g := finite_chans freq I dI in
  let fits := fun o => mpfit (fit_question g o ff) in
  exists mp, fits (polyOrd r) = POk mp /\
    params r = mp_params mp /\ chiSq r = mp_fnorm mp /\ aic r = aic_of mp (polyOrd r) /\
    fitStatus r = Z.abs (mp_status mp) /\ pcov r = mp_covar mp /\ ref_freq r = fit_ref g /\ fit_function r = ff /\
    ((0 <= polyOrd0)%Z -> polyOrd r = polyOrd0) /\
    ((polyOrd0 < 0)%Z -> first_stop fits (- polyOrd0) (polyOrd r)).
Proof. exact fit_order_selection. Qed.
Print Assumptions C28_fit_order_selection.
Example C28_nonvacuous : exists r,
  fit_StokesI_model (fun q => POk (mk_mp [0; 0; 0; 0; 0; 1] 1
      (match length (filter negb (in_fixed q)) with 1%nat => 10 | 2%nat => 5 | _ => 4 end) None None))
    [1; 2; 3] [Some 1; None; Some 1] [Some 1; Some 1; Some 1] (-3) Log = POk r /\ polyOrd r = 1%Z.
Proof.
  set (mpf := fun q : mpin => _).
  destruct (fit_total mpf [1; 2; 3] [Some 1; None; Some 1] [Some 1; Some 1; Some 1] (-3) Log) as (r & E);
    [reflexivity|reflexivity|discriminate|intros; eexists; reflexivity|discriminate|].
  exists r. split; [exact E|].
  destruct (fit_order_selection mpf [1; 2; 3] [Some 1; None; Some 1] [Some 1; Some 1; Some 1] (-3) Log r eq_refl eq_refl ltac:(discriminate) E) as (mp & _ & _ & _ & _ & _ & _ & _ & _ & _ & S).
  destruct (S ltac:(lia)) as (B & D & S'). clear S E mp.
  destruct (Z.le_gt_cases 2 (polyOrd r)) as [H|H].
  - exfalso. destruct (D 2%Z ltac:(lia)) as (r1 & r2 & E1 & E2 & L). injection E1 as <-. injection E2 as <-. unfold aic_of in L. cbn in L. lra.
  - destruct (Z.eq_dec (polyOrd r) 0) as [H0|]; [|lia]. exfalso.
    rewrite H0 in S'. destruct (S' ltac:(lia)) as (r1 & r2 & E1 & E2 & L). injection E1 as <-. injection E2 as <-. unfold aic_of in L. cbn in L. lra.
Qed.


(** C28. The AIC of the chosen order is the smallest among all orders evaluated. *)
Theorem C28_first_stop_best : forall fits n best rb, first_stop fits n best -> fits best = POk rb ->
  forall o, (0 <= o <= Z.min n (best + 1))%Z -> exists r, fits o = POk r /\ aic_of rb best <= aic_of r o.
Proof. exact first_stop_best. Qed.
Print Assumptions C28_first_stop_best.
Example C28_best_nonvacuous : exists fits, first_stop fits 3 1 /\ exists rb, fits 1%Z = POk rb.
Proof.
  exists (fun o => POk (mk_mp [] 1 (if (o =? 0)%Z then 10 else if (o =? 1)%Z then 5 else 4) None None)).
  split; [|eexists; reflexivity]. split; [lia|]. split.
  - intros o Ho. replace o with 1%Z by lia. eexists; eexists. split; [reflexivity|]. split; [reflexivity|]. unfold aic_of. cbn -[IZR]. lra.
  - intros _. eexists; eexists. split; [reflexivity|]. split; [reflexivity|]. unfold aic_of. cbn -[IZR]. lra.
Qed.


(** C28. A fit comes out whenever the fitter never raises and one channel is good. *)
Theorem C28_fit_total : forall mpfit freq I dI polyOrd0 ff,
  length I = length freq -> length dI = length freq -> ff <> OtherFun ->
  (forall q, exists r, mpfit q = POk r) -> finite_chans freq I dI <> [] ->
  exists r, fit_StokesI_model mpfit freq I dI polyOrd0 ff = POk r.
Proof. exact fit_total. Qed.
Print Assumptions C28_fit_total.


(** C28. Finding: degrees of freedom, hence the reduced chi-squared, count flagged channels (two good channels, one parameter, dof 2). *)
Theorem C28_fit_dof_refuted : exists mpfit freq I dI r,
  length I = length freq /\ length dI = length freq /\
  fit_StokesI_model mpfit freq I dI 0 Linear = POk r /\
  dof r = 2%Z /\ Z.of_nat (length (finite_chans freq I dI)) = 2%Z /\ polyOrd r = 0%Z /\
  chiSq r = 1 /\ chiSqRed r = Some (1 / 2).
Proof. exact fit_dof_refuted. Qed.
Print Assumptions C28_fit_dof_refuted.


(** C29. Fractions, model, status flags and fallback. *)
Theorem C29_frac_spectra_spec : forall mpfit freq I Q U dI dQ dU polyOrd0 ff modI IMod q u dq du fr n,
  (0 < n)%nat -> length freq = n -> length I = n -> length Q = n -> length U = n -> length dI = n -> length dQ = n -> length dU = n ->
  (forall m, modI = Some m -> length m = n) -> ff <> OtherFun ->
  (forall qn r, mpfit qn = POk r -> length (mp_params r) = 6%nat) ->
  create_frac_spectra mpfit freq I Q U dI dQ dU polyOrd0 ff modI = Some (IMod, q, u, dq, du, fr) ->
  (* fractions: value * model = data, exactly where both exist *)
  (length q = n /\ length u = n /\ length IMod = n /\ forall j, (j < n)%nat ->
     fraction (nth j Q None) (nth j IMod 0) (nth j q None) /\ fraction (nth j U None) (nth j IMod 0) (nth j u None)) /\
  (* the model and the status *)
  match modI with
  | Some m => IMod = m /\ fitStatus fr = 0%Z
  | None =>
    match fit_StokesI_model mpfit freq I dI polyOrd0 ff with
    | PErr => IMod = repeat 1 n /\ fitStatus fr = 9%Z /\ params fr = [0; 0; 0; 0; 0; 1]
    | POk fr0 => IMod = map (model_at fr0) freq /\ params fr = params fr0 /\ ref_freq fr = ref_freq fr0 /\ fit_function fr = ff /\
        exists b1 b2, fitStatus fr = (fitStatus fr0 + b1 + b2)%Z /\
          bit (negative_somewhere IMod) 128 b1 /\ bit (below_error_somewhere IMod dI) 64 b2
    end
  end.
Proof. exact frac_spectra_spec. Qed.
Print Assumptions C29_frac_spectra_spec.
Example C29_nonvacuous : exists IMod q u dq du fr,
  create_frac_spectra (fun _ => PErr) [1; 2] [Some 1; Some 1] [Some 1; None] [Some 1; Some 1]
    [Some 1; Some 1] [Some 1; Some 1] [Some 1; Some 1] 1 Log None = Some (IMod, q, u, dq, du, fr) /\ IMod = [1; 1].
Proof. do 6 eexists. split; reflexivity. Qed.


(** C29. Finding: a Stokes I spectrum with no usable channel is not a failed fit. The model is NaN, not one, and so is every fraction. Exactly then, unless the channels are one more than the order. *)
Theorem C29_no_channel_refuted : forall mpfit freq I Q U dI dQ dU polyOrd0 ff,
  (0 < length freq)%nat -> length I = length freq -> length dI = length freq -> ff <> OtherFun ->
  (create_frac_spectra mpfit freq I Q U dI dQ dU polyOrd0 ff None = None <->
   (forall j, (j < length freq)%nat -> nth j I None = None \/ nth j dI None = None) /\
   Z.of_nat (length freq) <> (Z.max polyOrd0 0 + 1)%Z).
Proof. exact frac_spectra_nan. Qed.
Print Assumptions C29_no_channel_refuted.
Example C29_no_channel_nonvacuous : create_frac_spectra (fun _ => PErr) [1; 2] [None; Some 1] [Some 1; None] [Some 1; Some 1]
    [Some 1; None] [Some 1; Some 1] [Some 1; Some 1] 2 Log None = None.
Proof. reflexivity. Qed.


(** C29. Errors are |dQ/model| for a positive model. *)
Theorem C29_frac_errors_positive_model_partial : forall mpfit freq I Q U dI dQ dU polyOrd0 ff modI IMod q u dq du fr,
  length dQ = length IMod -> length dU = length IMod ->
  create_frac_spectra mpfit freq I Q U dI dQ dU polyOrd0 ff modI = Some (IMod, q, u, dq, du, fr) ->
  forall j e, (j < length IMod)%nat -> 0 < nth j IMod 0 -> 0 <= e ->
    (nth j dQ None = Some e -> nth j dq None = Some (Rabs (e / nth j IMod 0))) /\
    (nth j dU None = Some e -> nth j du None = Some (Rabs (e / nth j IMod 0))).
Proof. exact frac_errors_positive_model. Qed.
Print Assumptions C29_frac_errors_positive_model_partial.
Example C29_errors_nonvacuous : exists IMod q u dq du fr,
  create_frac_spectra (fun _ => PErr) [1; 2] [Some 1; Some 1] [Some 1; None] [Some 1; Some 1]
    [Some 1; Some 1] [Some 1; Some 1] [Some 1; Some 1] 1 Log None = Some (IMod, q, u, dq, du, fr) /\ 0 < nth 1 IMod 0.
Proof. do 6 eexists. split; [reflexivity|]. cbn. lra. Qed.


(** C29. Finding: a negative model gives negative errors, and a NaN value can keep a finite error. *)
Theorem C29_frac_errors_refuted : exists IMod q u dq du fr,
  create_frac_spectra (fun _ => PErr) [1; 2] [Some 1; Some 1] [Some 1; None] [Some 1; Some 1]
    [Some 1; Some 1] [Some 1; Some 1] [Some 1; Some 1] 1 Log (Some [-2; 2]) = Some (IMod, q, u, dq, du, fr) /\
  (exists e, nth 0 dq None = Some e /\ e < 0) /\
  nth 1 q None = None /\ nth 1 dq None <> None.
Proof. exact frac_errors_refuted. Qed.
Print Assumptions C29_frac_errors_refuted.

