(** The 1-D CLEAN tool, after the synthesis tool and before the prediction of Q and U: claims C71, C72 and C73. *)
From Coq Require Import Reals List Arith ZArith Lia Lra Bool Permutation.
Set Warnings "-ambiguous-paths".
From Coquelicot Require Import Coquelicot.
From Verif Require Import CBase NdArray PyRes PyStr PyList Synth_Spec Setup_Spec StokesI_Model StokesI_Spec Clean_Model Clean_Spec CleanTop_Model Measure_Model Measure_Spec Run1D_Model Run1D_Spec Run1D_Refute Cl1_Model Cl1_Spec Cl1_Proofs Cl1_Thin Cl1_Pred Cl1_Example.
Import ListNotations.
Local Open Scope R_scope.

(** C71. The tool ends, with a spectrum, a spread function and a noise that is not zero. *)
Theorem C71_ends : forall i d rm fw imax, clean_input i d rm fw imax -> ci_dFDFth i <> Some 0 ->
  forall cutoff maxIter gain window,
  (exists t, threshold (ci_dFDFth i) cutoff t /\ 0 < t) \/ (ci_dFDFth i = None /\ cutoff < 0) ->
  exists out, run_rmclean i cutoff maxIter gain window = POk out.
Proof. exact @clean_tool_ends. Qed.
Print Assumptions C71_ends.
Example C71_ends_nonvacuous : exists out d rm fw n, run_rmsynth g_mpfit e_fit g_data g_opts = POk out /\ clean_input (saved out) d rm fw 3 /\ 0 < fw /\ increasing (ci_phi (saved out)) /\
  ci_dFDFth (saved out) = Some n /\ 0 < n /\ threshold (ci_dFDFth (saved out)) (1 / 2) (1 / 2).
Proof. exact g_input_ok. Qed.


(** C71. Finding: with zero noise it never does. *)
Theorem C71_zero_noise_refuted : forall i cutoff maxIter gain window, ci_dFDFth i = Some 0 -> run_rmclean i cutoff maxIter gain window = PErr.
Proof. exact @clean_tool_zero_noise. Qed.
Print Assumptions C71_zero_noise_refuted.


(** C71. The spectra: the residual and the response to the components make up the dirty spectrum, the restored components and the residual the clean one; and the threshold is met. *)
Theorem C71_spectra : forall i d rm fw imax, clean_input i d rm fw imax ->
  forall cutoff t, threshold (ci_dFDFth i) cutoff t -> 0 < t ->
  forall maxIter gain window out, run_rmclean i cutoff maxIter gain window = POk out ->
  k_cutoff out = Some t /\ (k_nIter out <= maxIter)%nat /\
  exists res comp clean,
    length res = length (ci_phi i) /\ length comp = length (ci_phi i) /\ length clean = length (ci_phi i) /\
    k_resid out = map Some res /\ k_cc out = map Some comp /\ k_clean out = map Some clean /\
    (forall j, (j < length (ci_phi i))%nat ->
      nth j d czero = (nth j res czero + response rm imax comp j)%C /\
      nth j clean czero = (restored fw (ci_phi i) comp j + nth j res czero)%C) /\
    match window with
    | None => k_nIter out = maxIter \/ all_below t res
    | Some w => forall tw, threshold (ci_dFDFth i) w tw -> 0 < tw ->
        k_nIter out = maxIter \/ forall j, (j < length (ci_phi i))%nat -> nth j comp czero <> czero -> Cmod (nth j res czero) < tw
    end.
Proof. exact @clean_tool_spectra. Qed.
Print Assumptions C71_spectra.


(** C71. Finding: without a noise a threshold in units of it cleans nothing, and no message says so. *)
Theorem C71_no_noise_refuted : forall i d rm fw imax, clean_input i d rm fw imax -> ci_dFDFth i = None ->
  forall cutoff maxIter gain window out, cutoff < 0 -> run_rmclean i cutoff maxIter gain window = POk out ->
  k_cutoff out = None /\ k_nIter out = 0%nat /\ k_resid out = map Some d /\ k_clean out = map Some d /\ k_cc out = map (fun _ => Some (RtoC 0)) d /\ k_mom2 out = None /\
  k_dPhi out = None /\ k_dAngle out = None /\ k_dAngle0 out = None.
Proof. exact @clean_tool_no_noise. Qed.
Print Assumptions C71_no_noise_refuted.
Example C71_no_noise_nonvacuous : exists i d rm fw out, clean_input i d rm fw 3 /\ ci_dFDFth i = None /\ run_rmclean i (-3) 10 1 None = POk out.
Proof. exact g_no_noise. Qed.


(** C71. The numbers are those of the clean spectrum; the errors are rescaled to the noise seen in it. *)
Theorem C71_measures : forall i d rm fw imax, clean_input i d rm fw imax -> 0 < fw -> increasing (ci_phi i) ->
  forall cutoff maxIter gain window out, run_rmclean i cutoff maxIter gain window = POk out ->
  let m := k_parms out in
  (exists p z, peak_channel (k_clean out) (length (ci_phi i)) p z /\
     (phiPeakPIfit m = None <-> ampPeakPIfit m = None) /\
     forall ph a, phiPeakPIfit m = Some ph -> ampPeakPIfit m = Some a ->
      exists z1 z3 qa qb qc, nth (p - 1) (k_clean out) None = Some z1 /\ nth (p + 1) (k_clean out) None = Some z3 /\ qa <> 0 /\
        through qa qb qc (nth (p - 1) (ci_phi i) 0) (Cmod z1) (nth p (ci_phi i) 0) (Cmod z) (nth (p + 1) (ci_phi i) 0) (Cmod z3) /\
        ph = - qb / (2 * qa) /\ a = quad qa qb qc ph) /\
  dAmpPeakPIfit m = ci_dFDFth i /\
  (forall a n s, ampPeakPIfit m = Some a -> 0 < a -> ci_dFDFth i = Some n -> 0 <= n -> k_dAmp out = Some s ->
     0 < n /\ dPhiPeakPIfit m = Some (fw * (n / (2 * a))) /\ k_dPhi out = Some (fw * (s / (2 * a))) /\
     dPolAngleFit_deg m = Some (180 / PI * (n / (2 * a))) /\ k_dAngle out = Some (180 / PI * (s / (2 * a))) /\
     let l2 := map lsq (ci_freq i) in let c := INR (length l2) in
     ((2 < length l2)%nat -> 0 < sample_variance l2 ->
      let spread := sqrt (c / (c - 2) * ((c - 1) / c + ci_lam0 i ^ 2 / sample_variance l2)) in
      dPolAngle0Fit_deg m = Some (180 / PI * (n / (2 * a)) * spread) /\ k_dAngle0 out = Some (180 / PI * (s / (2 * a)) * spread))) /\
  (forall comp, k_cc out = map Some comp -> (k_mom2 out = None <-> forall z, In z comp -> z = RtoC 0) /\
     forall v, k_mom2 out = Some v -> 0 <= v /\ (v = 0 <-> exists f, forall k, (k < length comp)%nat -> nth k comp (RtoC 0) <> RtoC 0 -> nth k (ci_phi i) 0 = f)).
Proof. exact @clean_tool_measures. Qed.
Print Assumptions C71_measures.


(** C72. What the synthesis tool saves is what the CLEAN tool needs. *)
Theorem C72_saved : forall (mpfit : mpin -> pyres mpres) (fit : bool -> list R -> list (option C) -> option (Z * R)) (d : synth_data) (o : run_opts) (freq : list R) (iA Q U dI dQ dU : list (option R)) (out : synth_out),
  good_input d (o_noStokesI o) freq iA Q U dI dQ dU -> good_opts mpfit o (length freq) -> run_rmsynth mpfit fit d o = POk out ->
  let mdl := stokes_model o (r_fit out) freq in
  let chs := used_chans freq Q U mdl (r_weight out) in
  let qch := q_chans freq Q mdl (r_weight out) in
  let n := length (r_phi out) in
  forall (h : nat) (step : R) (j1 j2 : nat), odd_centred (r_phi out) h step -> 0 < step ->
    (j1 < length freq)%nat -> (j2 < length freq)%nat -> nth j1 Q None <> None -> nth j2 Q None <> None -> mdl j1 <> 0 -> mdl j2 <> 0 ->
    0 < nth j1 (r_weight out) 0 -> 0 < nth j2 (r_weight out) 0 -> lsq (nth j1 freq 0) <> lsq (nth j2 freq 0) ->
    INR n * step * Rabs (lsq (nth j1 freq 0) - lsq (nth j2 freq 0)) < PI ->
    forall fw, r_fwhm out = Some fw -> fw <> 0 ->
    exists D, clean_input (saved out) D (map (RMSF_spec qch (r_lam0 out)) (r_phi2 out)) fw n /\ forall I0, r_Ifreq0 out = Some I0 ->
      forall k, (k < n)%nat -> nth k D czero = (FDF_spec chs (r_lam0 out) (nth k (r_phi out) 0) * RtoC I0)%C.
Proof. exact @saved_cleanable. Qed.
Print Assumptions C72_saved.


(** C72. A thin source through both tools: how often the loop goes round, the components, the residual, and the numbers reported. *)
Theorem C72_thin_source : forall (mpfit : mpin -> pyres mpres) (fit : bool -> list R -> list (option C) -> option (Z * R)) (d : synth_data) (o : run_opts) (freq : list R) (iA Q U dI dQ dU : list (option R)) (out : synth_out),
  good_input d (o_noStokesI o) freq iA Q U dI dQ dU -> good_opts mpfit o (length freq) -> run_rmsynth mpfit fit d o = POk out ->
  let mdl := stokes_model o (r_fit out) freq in
  let chs := used_chans freq Q U mdl (r_weight out) in
  let qch := q_chans freq Q mdl (r_weight out) in
  let n := length (r_phi out) in
  forall (h : nat) (step : R) (j1 j2 : nat), odd_centred (r_phi out) h step -> 0 < step ->
    (j1 < length freq)%nat -> (j2 < length freq)%nat -> nth j1 Q None <> None -> nth j2 Q None <> None -> mdl j1 <> 0 -> mdl j2 <> 0 ->
    0 < nth j1 (r_weight out) 0 -> 0 < nth j2 (r_weight out) 0 -> lsq (nth j1 freq 0) <> lsq (nth j2 freq 0) ->
    INR n * step * Rabs (lsq (nth j1 freq 0) - lsq (nth j2 freq 0)) < PI ->
    forall p psi RM i, thin_columns freq Q U mdl p psi RM -> 0 < p -> flagged_alike Q U ->
    (0 < i < n - 1)%nat -> nth i (r_phi out) 0 = RM ->
    forall I0 fw, r_Ifreq0 out = Some I0 -> 0 < I0 -> r_fwhm out = Some fw -> fw <> 0 ->
    forall cutoff t maxIter gain res, threshold (r_dFDFth out) cutoff t -> 0 < t -> 0 < gain <= 1 ->
    run_rmclean (saved out) cutoff maxIter gain None = POk res ->
    let k := k_nIter res in let left := (1 - gain) ^ k in let m := k_parms res in
    let A := (RtoC (I0 * p) * cis (2 * (psi + RM * r_lam0 out)))%C in
    (k <= maxIter)%nat /\ (k = maxIter \/ left * (I0 * p) < t) /\ (forall k', (k' < k)%nat -> t <= (1 - gain) ^ k' * (I0 * p)) /\
    (forall j, (j < n)%nat -> nth j (k_cc res) None = Some (if Nat.eqb j i then (A * RtoC (1 - left))%C else RtoC 0)) /\
    (forall j z, nth j (r_FDF out) None = Some z -> nth j (k_resid res) None = Some (RtoC left * z)%C) /\
    nth i (k_clean res) None = Some A /\
    phiPeakPIfit m = Some RM /\ ampPeakPIfit m = Some (I0 * p) /\ indxPeakPIfit m = Some (INR i) /\
    (exists a, polAngleFit_deg m = Some a /\ 0 <= a < 180 /\ same_angle a ((psi + RM * r_lam0 out) * 180 / PI)) /\
    (exists a0, polAngle0Fit_deg m = Some a0 /\ 0 <= a0 < 180 /\ same_angle a0 (psi * 180 / PI)) /\
    k_mom2 res = (if Nat.eqb k 0 then None else Some 0).
Proof. exact @clean_thin. Qed.
Print Assumptions C72_thin_source.
Example C72_thin_source_nonvacuous : exists out fw n res comp,
  run_rmsynth g_mpfit e_fit g_data g_opts = POk out /\ odd_centred (r_phi out) 1 (1 / 4) /\
  thin_columns e_freq g_Q g_U (stokes_model g_opts (r_fit out) e_freq) (1 / 2) 0 0 /\ flagged_alike g_Q g_U /\
  (forall j, (j < 3)%nat -> stokes_model g_opts (r_fit out) e_freq j = 2 /\ 0 < nth j (r_weight out) 0) /\
  lsq (nth 0 e_freq 0) <> lsq (nth 1 e_freq 0) /\
  INR (length (r_phi out)) * (1 / 4) * Rabs (lsq (nth 0 e_freq 0) - lsq (nth 1 e_freq 0)) < PI /\
  length (r_phi out) = 3%nat /\ nth 1 (r_phi out) 0 = 0 /\ r_Ifreq0 out = Some 2 /\ r_fwhm out = Some fw /\ 0 < fw /\ r_dFDFth out = Some n /\ 0 < n /\
  threshold (r_dFDFth out) (1 / 2) (1 / 2) /\ run_rmclean (saved out) (1 / 2) 10 1 None = POk res /\ k_cc res = map Some comp.
Proof. exact g_all. Qed.


(** C73. Finding: the command line of the prediction tool never works. *)
Theorem C73_command_refuted : forall fs table json spectra freqfile rmSynthfile CCfile outfile,
  clean_model_main fs table json spectra freqfile rmSynthfile CCfile outfile = PErr.
Proof. exact @clean_model_fails. Qed.
Print Assumptions C73_command_refuted.


(** C73. The prediction from any components: the saved Stokes I model times their sum. *)
Theorem C73_prediction : forall fr freq phi CC l0, fit_function fr = Log -> length (params fr) = 6%nat -> ref_freq fr = 299792458 / sqrt l0 ->
  length CC = length phi ->
  calculate_QU_model freq phi CC l0 (Some (params fr)) =
  POk (map (fun f => RtoC (model_at fr f) * csum (map (fun k => nth k CC czero * cis (2 * (nth k phi 0 * (lsq f - l0)))) (seq 0 (length phi))))%C freq,
       map (model_at fr) freq).
Proof. exact @qu_model_predicts. Qed.
Print Assumptions C73_prediction.
Example C73_prediction_nonvacuous : let fr := mk_fit [0; 0; 0; 0; 0; 2] 0 0 None 0 0 (299792458 / sqrt 4) 0 None [] Log in
  fit_function fr = Log /\ length (params fr) = 6%nat /\ ref_freq fr = 299792458 / sqrt 4.
Proof. repeat split. Qed.


(** C73. A thin source through the three tools: the source times the cleaned share, times its own flux. *)
Theorem C73_thin_source_partial : forall (mpfit : mpin -> pyres mpres) (fit : bool -> list R -> list (option C) -> option (Z * R)) (d : synth_data) (o : run_opts) (freq : list R) (iA Q U dI dQ dU : list (option R)) (out : synth_out),
  good_input d (o_noStokesI o) freq iA Q U dI dQ dU -> good_opts mpfit o (length freq) -> run_rmsynth mpfit fit d o = POk out ->
  let mdl := stokes_model o (r_fit out) freq in
  let chs := used_chans freq Q U mdl (r_weight out) in
  let qch := q_chans freq Q mdl (r_weight out) in
  let n := length (r_phi out) in
  forall (h : nat) (step : R) (j1 j2 : nat), odd_centred (r_phi out) h step -> 0 < step ->
    (j1 < length freq)%nat -> (j2 < length freq)%nat -> nth j1 Q None <> None -> nth j2 Q None <> None -> mdl j1 <> 0 -> mdl j2 <> 0 ->
    0 < nth j1 (r_weight out) 0 -> 0 < nth j2 (r_weight out) 0 -> lsq (nth j1 freq 0) <> lsq (nth j2 freq 0) ->
    INR n * step * Rabs (lsq (nth j1 freq 0) - lsq (nth j2 freq 0)) < PI ->
    forall p psi RM i, thin_columns freq Q U mdl p psi RM -> 0 < p -> flagged_alike Q U ->
    (0 < i < n - 1)%nat -> nth i (r_phi out) 0 = RM ->
    o_modStokesI o = None -> o_fitfun o = Log -> o_super o = false ->
    forall I0 fw, r_Ifreq0 out = Some I0 -> 0 < I0 -> r_fwhm out = Some fw -> fw <> 0 ->
    forall cutoff t maxIter gain res comp, threshold (r_dFDFth out) cutoff t -> 0 < t -> 0 < gain <= 1 ->
    run_rmclean (saved out) cutoff maxIter gain None = POk res -> k_cc res = map Some comp ->
    exists QU Im, calculate_QU_model freq (r_phi out) comp (r_lam0 out) (Some (params (r_fit out))) = POk (QU, Im) /\
      length QU = length freq /\ length Im = length freq /\
      forall j, (j < length freq)%nat -> nth j Im 0 = mdl j /\
        forall q u, nth j Q None = Some q -> nth j U None = Some u ->
          nth j QU czero = (RtoC (I0 * (1 - (1 - gain) ^ k_nIter res)) * (q, u))%C.
Proof. exact @clean_model_thin. Qed.
Print Assumptions C73_thin_source_partial.
Example C73_thin_source_nonvacuous : exists out fw n res comp,
  run_rmsynth g_mpfit e_fit g_data g_opts = POk out /\ odd_centred (r_phi out) 1 (1 / 4) /\
  thin_columns e_freq g_Q g_U (stokes_model g_opts (r_fit out) e_freq) (1 / 2) 0 0 /\ flagged_alike g_Q g_U /\
  (forall j, (j < 3)%nat -> stokes_model g_opts (r_fit out) e_freq j = 2 /\ 0 < nth j (r_weight out) 0) /\
  lsq (nth 0 e_freq 0) <> lsq (nth 1 e_freq 0) /\
  INR (length (r_phi out)) * (1 / 4) * Rabs (lsq (nth 0 e_freq 0) - lsq (nth 1 e_freq 0)) < PI /\
  length (r_phi out) = 3%nat /\ nth 1 (r_phi out) 0 = 0 /\ r_Ifreq0 out = Some 2 /\ r_fwhm out = Some fw /\ 0 < fw /\ r_dFDFth out = Some n /\ 0 < n /\
  threshold (r_dFDFth out) (1 / 2) (1 / 2) /\ run_rmclean (saved out) (1 / 2) 10 1 None = POk res /\ k_cc res = map Some comp.
Proof. exact g_all. Qed.


(** C73. Finding: all is cleaned and the prediction is twice the data. *)
Theorem C73_thin_source_refuted : exists mpfit fit d o freq iA Q U dI dQ dU out res comp p,
  good_input d (o_noStokesI o) freq iA Q U dI dQ dU /\ good_opts mpfit o (length freq) /\ run_rmsynth mpfit fit d o = POk out /\
  o_modStokesI o = None /\ o_fitfun o = Log /\ o_super o = false /\
  thin_columns freq Q U (stokes_model o (r_fit out) freq) p 0 0 /\
  run_rmclean (saved out) (1 / 2) 10 1 None = POk res /\ k_cc res = map Some comp /\
  (forall j, (j < length (r_phi out))%nat -> nth j (k_resid res) None = Some (RtoC 0)) /\
  exists QU Im, calculate_QU_model freq (r_phi out) comp (r_lam0 out) (Some (params (r_fit out))) = POk (QU, Im) /\
    forall j, (j < length freq)%nat -> nth j Q None = Some 1 /\ nth j U None = Some 0 /\ nth j QU czero = RtoC 2.
Proof. exact @clean_model_thin_refuted. Qed.
Print Assumptions C73_thin_source_refuted.

