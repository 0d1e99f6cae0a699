(** The least-squares fitter and the Stokes I fit made with it: claims C68, C69 and C70. *)
From Coq Require Import Reals List Arith ZArith Lia Lra Bool Permutation.
Set Warnings "-ambiguous-paths".
From Coquelicot Require Import Coquelicot.
From Verif Require Import CBase PyRes PyList StokesI_Model StokesI_Spec StokesI_Proofs Mp_Model Mp_Spec Mp_Fit Mp_Linear Mp_Exact Mp_Algebra MpI_Model MpI_Spec MpI_Proofs Mp_Examples.
Import ListNotations.
Local Open Scope R_scope.

(** C68. A fit that ends is no worse than its start, keeps the fixed parameters and names its reason. *)
Theorem C68_result : forall fuel fcn npar m free xall o, reads npar m fcn -> NoDup free -> free <> [] -> (length free <= m)%nat ->
  mpfit fuel fcn npar m free xall = Some (POk o) ->
  chi2 m fcn (o_params o) <= chi2 m fcn xall /\
  (forall i, ~ In i free -> o_params o i = xall i) /\
  (1 <= o_status o <= 8)%Z /\ (1 <= o_niter o <= 200)%nat.
Proof. exact @fit_result. Qed.
Print Assumptions C68_result.
Example C68_result_nonvacuous : reads 1 2 e_fcn /\ NoDup [0%nat] /\ exists o, mpfit 2 e_fcn 1 2 [0%nat] (fun _ => 3) = Some (POk o).
Proof. split; [exact e_reads|]. split; [exact e_nodup|]. destruct e_run as (o & E & _). now exists o. Qed.


(** C68. The chi squared reported is never below that of the parameters. *)
Theorem C68_reported : forall fuel fcn npar m free xall o, reads npar m fcn -> NoDup free -> free <> [] -> (length free <= m)%nat ->
  mpfit fuel fcn npar m free xall = Some (POk o) ->
  chi2 m fcn (o_params o) <= o_fnorm o /\
  (o_fnorm o = chi2 m fcn (o_params o) \/ exists p, (forall i, ~ In i free -> p i = xall i) /\ o_fnorm o = chi2 m fcn p) /\
  (o_status o = 4%Z -> o_fnorm o = chi2 m fcn (o_params o)).
Proof. exact @fit_reported. Qed.
Print Assumptions C68_reported.
Example C68_reported_nonvacuous : reads 1 2 e_fcn /\ NoDup [0%nat] /\ exists o, mpfit 2 e_fcn 1 2 [0%nat] (fun _ => 3) = Some (POk o).
Proof. split; [exact e_reads|]. split; [exact e_nodup|]. destruct e_run as (o & E & _). now exists o. Qed.


(** C68. Status 4: every slope is orthogonal to the residuals, to one part in 10^10. *)
Theorem C68_gradient : forall fuel fcn npar m free xall o, reads npar m fcn -> NoDup free -> free <> [] -> (length free <= m)%nat ->
  mpfit fuel fcn npar m free xall = Some (POk o) -> o_status o = 4%Z ->
  forall k, In k free ->
    Rabs (dot m (slope fcn (o_params o) k) (fcn (o_params o))) <=
    / 10 ^ 10 * sqrt (sqlen m (fcn (o_params o))) * sqrt (sqlen m (slope fcn (o_params o) k)).
Proof. exact @fit_gradient. Qed.
Print Assumptions C68_gradient.
Example C68_gradient_nonvacuous : reads 1 2 e_fcn /\ exists o, mpfit 1 e_fcn 1 2 [0%nat] (fun _ => 1 / 2) = Some (POk o) /\ o_status o = 4%Z.
Proof. split; [exact e_reads|exact e_stationary]. Qed.


(** C68. The fit ends, if setting the free parameters to zero is no better than the start. *)
Theorem C68_ends : forall fcn npar m free xall, reads npar m fcn -> NoDup free ->
  (forall p, (forall i, In i free -> p i = 0) -> (forall i, ~ In i free -> p i = xall i) -> chi2 m fcn xall <= chi2 m fcn p) ->
  (exists i, In i free /\ xall i <> 0) ->
  exists N res, forall fuel, (N <= fuel)%nat -> mpfit fuel fcn npar m free xall = Some res.
Proof. exact @fit_ends. Qed.
Print Assumptions C68_ends.
Example C68_ends_nonvacuous : forall p, (forall i, In i [0%nat] -> p i = 0) -> chi2 2 e_fcn (fun _ => 1) <= chi2 2 e_fcn p.
Proof.
  intros p H. unfold chi2, sqlen, dot, total, e_fcn. rewrite (H 0%nat) by (cbn; auto). unfold CBase.rsum. cbn [seq map fold_right INR]. lra.
Qed.


(** C68. A start that is already optimal is returned as it is. *)
Theorem C68_optimal_start : forall fuel fcn npar m free xall, reads npar m fcn -> NoDup free -> free <> [] -> (length free <= m)%nat ->
  (forall k, In k free -> dot m (slope fcn xall k) (fcn xall) = 0) ->
  exists o, mpfit (S fuel) fcn npar m free xall = Some (POk o) /\ o_status o = 4%Z /\ (forall i, o_params o i = xall i) /\
    o_fnorm o = chi2 m fcn xall /\ o_niter o = 1%nat.
Proof. exact @stationary_start. Qed.
Print Assumptions C68_optimal_start.


(** C68. Finding: the chi squared reported can be that of a step that was tried and rejected. *)
Theorem C68_reported_refuted : exists fcn o, reads 1 1 fcn /\ mpfit 2 fcn 1 1 [0%nat] (fun _ => 1) = Some (POk o) /\
  o_status o = 2%Z /\ chi2 1 fcn (o_params o) = 1 /\ o_fnorm o = 25.
Proof. exact @reported_wrong. Qed.
Print Assumptions C68_reported_refuted.


(** C68. The Stokes I fit: no worse than the mean, no coefficient above the order, errors from the covariance. *)
Theorem C68_stokes : forall fuel freq I dI po ff r,
  length I = length freq -> length dI = length freq -> ff <> OtherFun ->
  let g := finite_chans freq I dI in let h := with_errors g in
  (forall t, In t h -> snd t <> 0) ->
  (forall rest, fit_StokesI_model (mpfit_code fuel rest) freq I dI po ff = POk r) ->
  (Z.min (polyOrd r) 5 < Z.of_nat (length g))%Z ->
  misfit h (model_at r) <= misfit h (fun _ => mean_I g) /\
  misfit h (model_at r) <= chiSq r /\
  (fitStatus r = 4%Z -> misfit h (model_at r) = chiSq r) /\
  (forall k, (k < 5)%nat -> (polyOrd r < Z.of_nat (5 - k))%Z -> nth k (params r) 0 = 0) /\
  length (params r) = 6%nat /\ (1 <= fitStatus r <= 8)%Z /\
  exists cov err, pcov r = Some cov /\ perror r = map Some err /\ length err = 6%nat /\
    (forall k, (k < 6)%nat -> 0 <= cov k k -> nth k err 0 * nth k err 0 = cov k k).
Proof. exact @stokes_fit. Qed.
Print Assumptions C68_stokes.
Example C68_stokes_nonvacuous : finite_chans e_freq e_I e_dI = e_g /\ with_errors e_g = e_g /\ (forall t, In t e_g -> snd t <> 0) /\
  exists fuel r, forall rest, fit_StokesI_model (mpfit_code fuel rest) e_freq e_I e_dI 1 Log = POk r.
Proof.
  split; [exact e_chans|]. split; [exact e_errors|]. split; [exact e_nonzero|]. destruct (e_exists Log ltac:(discriminate)) as (N & r & H).
  exists N, r. intros rest. now apply H.
Qed.


(** C68. The Stokes I fit ends, for the order asked for and for the search of the order. *)
Theorem C68_stokes_ends : forall freq I dI po ff,
  length I = length freq -> length dI = length freq -> ff <> OtherFun ->
  let g := finite_chans freq I dI in let h := with_errors g in
  g <> [] -> (forall t, In t h -> snd t <> 0) ->
  mean_I g <> 0 -> 1 / 2 <= weighted_mean h / mean_I g ->
  exists N r, forall fuel rest, (N <= fuel)%nat -> fit_StokesI_model (mpfit_code fuel rest) freq I dI po ff = POk r.
Proof. exact @stokes_fit_ends. Qed.
Print Assumptions C68_stokes_ends.
Example C68_stokes_ends_nonvacuous : e_g <> [] /\ mean_I e_g <> 0 /\ 1 / 2 <= weighted_mean e_g / mean_I e_g.
Proof. split; [discriminate|]. rewrite e_weighted, e_mean. lra. Qed.


(** C68. Finding: with fewer channels than coefficients the model is the mean, chi squared is -1 and the later change of reference fails. *)
Theorem C68_few_channels : forall fuel rest freq I dI po ff,
  length I = length freq -> length dI = length freq -> ff <> OtherFun ->
  let g := finite_chans freq I dI in
  g <> [] -> (forall t, In t (with_errors g) -> snd t <> 0) -> (0 <= po)%Z ->
  (Z.of_nat (length g) <= Z.min po 5)%Z ->
  exists r, fit_StokesI_model (mpfit_code fuel rest) freq I dI po ff = POk r /\
    params r = [0; 0; 0; 0; 0; mean_I g] /\ chiSq r = -1 /\ fitStatus r = 0%Z /\ pcov r = None /\
    forall new, renormalize_StokesI_model r new = PErr.
Proof. exact @stokes_fit_few. Qed.
Print Assumptions C68_few_channels.
Example C68_few_nonvacuous : (Z.of_nat (List.length (finite_chans e_freq e_I e_dI)) <= Z.min 2 5)%Z.
Proof. rewrite e_chans. cbn. lia. Qed.


(** C69. The factorisation with pivoting, for matrices of every size. *)
Theorem C69_factor : forall m n J f, (n <= m)%nat ->
  let q := qrfac m n J in let '(r, qtf) := r_qtf m n q f in factor_of m n J f (q_ipvt q) r qtf.
Proof. exact @qr_factor. Qed.
Print Assumptions C69_factor.


(** C69. The damped step: exact for one and two unknowns, and for every number of unknowns when the full step is short enough; an undamped step is never longer than allowed. The damped step with more unknowns is missing: see the finding below. *)
Theorem C69_step_partial : forall m n J f diag delta par, (n <= m)%nat -> independent machep m n J ->
  (forall c, (c < n)%nat -> 0 < diag c) -> 0 < delta -> 0 <= par ->
  let q := qrfac m n J in let '(r, qtf) := r_qtf m n q f in
  let '(r', par', x) := lmpar n r (q_ipvt q) diag qtf delta par in
  0 <= par' /\ factor_of m n J f (q_ipvt q) r' qtf /\
  ((n <= 2)%nat -> lm_equations m n J f diag par' x) /\
  ((forall x, lm_equations m n J f diag 0 x -> sqrt (sqlen n (fun i => diag i * x i)) <= 11 / 10 * delta) ->
     par' = 0 /\ least_squares m n J f (fun k => - x k)) /\
  (par' = 0 -> least_squares m n J f (fun k => - x k) /\ sqrt (sqlen n (fun i => diag i * x i)) <= 11 / 10 * delta).
Proof. exact @lm_step. Qed.
Print Assumptions C69_step_partial.
Example C69_step_nonvacuous : independent machep 2 1 (fun _ _ => 1) /\ independent machep 2 2 (design e_g (fit_ref e_g) 1).
Proof.
  split; [apply e_independent, e_machep|]. apply independent_mono with (2 := e_design_indep). split; [apply e_machep|].
  unfold machep. apply Rinv_le_contravar; [apply pow_lt; lra|]. replace (2 ^ 52) with 4503599627370496 by ring. replace (10 ^ 9) with 1000000000 by ring. lra.
Qed.


(** C69. Finding: with three unknowns the damped system is left unsolved although it has a solution. *)
Theorem C69_damped_refuted : exists r f, factor_of 3 3 r f (fun k => k) r f /\ (exists x, lm_equations 3 3 r f (fun _ => 1) 1 x) /\
  forall sd, let '(_, x, _) := qrsolv 3 r (fun k => k) (fun _ => 1) f sd in ~ lm_equations 3 3 r f (fun _ => 1) 1 x.
Proof. exact @damped_wrong. Qed.
Print Assumptions C69_damped_refuted.


(** C69. The covariance of the factor is the inverse of the normal matrix. *)
Theorem C69_inverse : forall m n J f, (n <= m)%nat -> independent (/ 10 ^ 14) m n J ->
  let q := qrfac m n J in let '(r, qtf) := r_qtf m n q f in inverse_of n (gram m J) (calc_covar n r (q_ipvt q)).
Proof. exact @lm_covariance. Qed.
Print Assumptions C69_inverse.
Example C69_inverse_nonvacuous : independent (/ 10 ^ 14) 2 1 (fun _ _ => 1).
Proof.
  apply e_independent. split; [left; apply small_pow|]. rewrite <- Rinv_1. apply Rinv_lt_contravar; [rewrite Rmult_1_l; apply pow_lt; lra|]. apply Rlt_pow_R1; [lra|lia].
Qed.


(** C69. The covariance of a fit, at the point where its last slopes were taken. *)
Theorem C69_covariance : forall fuel fcn npar m free xall o, reads npar m fcn -> NoDup free -> free <> [] -> (length free <= m)%nat ->
  mpfit fuel fcn npar m free xall = Some (POk o) ->
  exists cov err, o_covar o = Some cov /\ o_perror o = Some err /\
    (forall a b, ~ In a free \/ ~ In b free -> cov a b = 0) /\
    (forall a, 0 <= cov a a -> err a * err a = cov a a) /\
    exists p, (forall i, ~ In i free -> p i = xall i) /\ chi2 m fcn p <= chi2 m fcn xall /\
      (o_status o = 4%Z -> forall i, p i = o_params o i) /\
      let J := fun i j => slope fcn p (nth j free 0%nat) i in
      (independent (/ 10 ^ 14) m (length free) J ->
       inverse_of (length free) (gram m J) (fun a b => cov (nth a free 0%nat) (nth b free 0%nat))).
Proof. exact @fit_covariance. Qed.
Print Assumptions C69_covariance.
Example C69_covariance_nonvacuous : reads 1 2 e_fcn /\ NoDup [0%nat] /\ exists o, mpfit 2 e_fcn 1 2 [0%nat] (fun _ => 3) = Some (POk o).
Proof. split; [exact e_reads|]. split; [exact e_nodup|]. destruct e_run as (o & E & _). now exists o. Qed.


(** C70. Residuals that are linear in the parameters: the result of the fit and its errors. *)
Theorem C70_linear : forall fuel npar m fcn A y free xall, linear_in npar m free xall fcn A y -> NoDup free ->
  (forall k, In k free -> (k < npar)%nat) -> free <> [] -> (length free <= m)%nat ->
  let n := length free in let B := fun i j => A i (nth j free 0%nat) in
  independent machep m n B ->
  (forall p, least_squares m n B (fcn xall) p -> within_reach m n B (fun j => xall (nth j free 0%nat)) p) ->
  exists o, mpfit (S (S fuel)) fcn npar m free xall = Some (POk o) /\
    (forall k, ~ In k free -> o_params o k = xall k) /\ (1 <= o_status o <= 8)%Z /\
    o_fnorm o = chi2 m fcn (o_params o) /\
    (forall l, (l < n)%nat -> Rabs (dot m (column B l) (fcn (o_params o))) <=
                              / 10 ^ 10 * sqrt (chi2 m fcn (o_params o)) * sqrt (gram m B l l)) /\
    ((forall q, (forall i, ~ In i free -> q i = xall i) -> chi2 m fcn (o_params o) <= chi2 m fcn q) \/
     (o_status o = 4%Z /\ forall i, o_params o i = xall i)) /\
    exists cov err, o_covar o = Some cov /\ o_perror o = Some err /\
      (forall a b, ~ In a free \/ ~ In b free -> cov a b = 0) /\
      (forall a, 0 <= cov a a -> err a * err a = cov a a /\ 0 <= err a) /\
      (independent (/ 10 ^ 14) m n B -> inverse_of n (gram m B) (fun a b => cov (nth a free 0%nat) (nth b free 0%nat))).
Proof. exact @linear_best. Qed.
Print Assumptions C70_linear.
Example C70_linear_nonvacuous : linear_in 1 2 [0%nat] (fun _ => 3) e_fcn (fun _ _ => 1) (fun i => - INR i) /\ independent machep 2 1 (fun _ _ => 1) /\
  forall p, least_squares 2 1 (fun _ _ => 1) (e_fcn (fun _ => 3)) p -> within_reach 2 1 (fun _ _ => 1) (fun j => (fun _ => 3) (nth j [0%nat] 0%nat)) p.
Proof. split; [apply e_linear|]. split; [apply e_independent, e_machep|exact e_within]. Qed.


(** C70. Parameters that leave no residual are found exactly. *)
Theorem C70_exact : forall fuel npar m fcn A y free xall t pstar, linear_in npar m free xall fcn A y -> NoDup free ->
  (forall k, In k free -> (k < npar)%nat) -> free <> [] -> (length free <= m)%nat ->
  let n := length free in let B := fun i j => A i (nth j free 0%nat) in
  independent t m n B -> INR n * / 10 ^ 10 < t ->
  (forall k, ~ In k free -> pstar k = xall k) -> (forall i, (i < m)%nat -> fcn pstar i = 0) ->
  within_reach m n B (fun j => xall (nth j free 0%nat)) (fun j => pstar (nth j free 0%nat) - xall (nth j free 0%nat)) ->
  exists o, mpfit (S (S fuel)) fcn npar m free xall = Some (POk o) /\ (1 <= o_status o <= 8)%Z /\ o_fnorm o = 0 /\
    (forall k, o_params o k = pstar k) /\
    exists cov err, o_covar o = Some cov /\ o_perror o = Some err /\
      (forall a b, ~ In a free \/ ~ In b free -> cov a b = 0) /\
      (forall a, 0 <= cov a a -> err a * err a = cov a a /\ 0 <= err a) /\
      inverse_of n (gram m B) (fun a b => cov (nth a free 0%nat) (nth b free 0%nat)).
Proof. exact @exact_best. Qed.
Print Assumptions C70_exact.


(** C70. The Stokes I fit of order zero is the weighted mean with its textbook error. *)
Theorem C70_constant : forall fuel rest freq I dI ff,
  length I = length freq -> length dI = length freq -> ff <> OtherFun ->
  let g := finite_chans freq I dI in let h := with_errors g in
  g <> [] -> (forall t, In t h -> snd t <> 0) ->
  mean_I g <> 0 -> Rabs (weighted_mean h - mean_I g) <= 110 * Rabs (mean_I g) ->
  exists r c cov err, fit_StokesI_model (mpfit_code (S (S fuel)) rest) freq I dI 0 ff = POk r /\
    params r = [0; 0; 0; 0; 0; c] /\
    chiSq r = misfit h (fun _ => c) /\
    Rabs (c - weighted_mean h) <= / 10 ^ 10 * err * sqrt (chiSq r) /\
    pcov r = Some cov /\ cov 5%nat 5%nat = 1 / weight_sum h /\
    nth 5 (perror r) None = Some err /\ err = 1 / sqrt (weight_sum h) /\ (1 <= fitStatus r <= 8)%Z.
Proof. exact @stokes_constant. Qed.
Print Assumptions C70_constant.
Example C70_constant_nonvacuous : mean_I e_g <> 0 /\ Rabs (weighted_mean e_g - mean_I e_g) <= 110 * Rabs (mean_I e_g).
Proof. rewrite e_weighted, e_mean. split; [lra|]. rewrite Rminus_diag_eq, Rabs_R0, Rabs_pos_eq by lra. lra. Qed.


(** C70. A polynomial spectrum without noise is found exactly. *)
Theorem C70_polynomial : forall fuel rest freq I dI d c tol,
  length I = length freq -> length dI = length freq -> (forall f, In f freq -> 0 < f) -> (d <= 5)%nat ->
  let g := finite_chans freq I dI in let h := with_errors g in let ref := fit_ref g in
  (forall t, In t h -> snd t <> 0) -> (d < length g)%nat ->
  (forall f i e, In (f, i, e) g -> i = polynomial c d (f / ref)) ->
  let J := design h ref d in
  independent tol (length g) (S d) J -> INR (S d) / 10 ^ 10 < tol ->
  within_reach (length g) (S d) J (last_only d (mean_I g)) (fun j => c (d - j)%nat - last_only d (mean_I g) j) ->
  exists r cov, fit_StokesI_model (mpfit_code (S (S fuel)) rest) freq I dI (Z.of_nat d) Linear = POk r /\
    (forall f, model_at r f = polynomial c d (f / ref)) /\
    (forall k, (k <= d)%nat -> nth (5 - k) (params r) 0 = c k) /\
    chiSq r = 0 /\ (1 <= fitStatus r <= 8)%Z /\ ref_freq r = ref /\ good_fit r /\
    pcov r = Some cov /\ inverse_of (S d) (gram (length g) J) (fun a b => cov (5 - d + a)%nat (5 - d + b)%nat).
Proof. exact @stokes_polynomial. Qed.
Print Assumptions C70_polynomial.
Example C70_polynomial_nonvacuous : (forall f, In f e_freq -> 0 < f) /\ finite_chans e_freq e_I e_dI = e_g /\ with_errors e_g = e_g /\
  (forall f i e, In (f, i, e) e_g -> i = polynomial e_coef 1 (f / fit_ref e_g)) /\ independent (/ 10 ^ 9) 2 2 (design e_g (fit_ref e_g) 1) /\ INR 2 / 10 ^ 10 < / 10 ^ 9 /\
  within_reach 2 2 (design e_g (fit_ref e_g) 1) (last_only 1 (mean_I e_g)) (fun j => e_coef (1 - j) - last_only 1 (mean_I e_g) j).
Proof.
  split; [exact e_positive|]. split; [exact e_chans|]. split; [exact e_errors|]. split; [exact e_line|]. split; [exact e_design_indep|]. split; [exact e_tol|exact e_design_reach].
Qed.


(** C70. ... and the fractional spectra made with it are Q/I and U/I. *)
Theorem C70_fractions : forall fuel rest freq I Q U dI dQ dU d c tol,
  length I = length freq -> length dI = length freq -> length Q = length freq -> length U = length freq ->
  (forall f, In f freq -> 0 < f) -> (d <= 5)%nat ->
  let g := finite_chans freq I dI in let h := with_errors g in let ref := fit_ref g in
  (forall t, In t h -> snd t <> 0) -> (d < length g)%nat ->
  (forall f i e, In (f, i, e) g -> i = polynomial c d (f / ref)) ->
  let J := design h ref d in
  independent tol (length g) (S d) J -> INR (S d) / 10 ^ 10 < tol ->
  within_reach (length g) (S d) J (last_only d (mean_I g)) (fun j => c (d - j)%nat - last_only d (mean_I g) j) ->
  exists IMod q u dq du fr,
    create_frac_spectra (mpfit_code (S (S fuel)) rest) freq I Q U dI dQ dU (Z.of_nat d) Linear None = Some (IMod, q, u, dq, du, fr) /\
    IMod = map (fun f => polynomial c d (f / ref)) freq /\
    forall j v, (j < length freq)%nat -> nth j I None = Some v -> nth j dI None <> None -> v <> 0 ->
      nth j q None = option_map (fun x => x / v) (nth j Q None) /\ nth j u None = option_map (fun x => x / v) (nth j U None).
Proof. exact @stokes_polynomial_fractions. Qed.
Print Assumptions C70_fractions.

