(** Bandwidth depolarisation: claims C37-C39 and C52-C55. *)
From Coq Require Import Reals List Arith ZArith Lia Lra Bool Permutation.
Set Warnings "-ambiguous-paths".
From Coquelicot Require Import Coquelicot.
From Verif Require Import CBase NdArray PyRes PyList Synth_Model Synth_Spec Setup_Model Setup_Spec StokesI_Model StokesI_Spec Measure_Model Measure_Spec Bw_Model Bw_Spec Bw_Rot Bw_Proofs Bw_Laws Bw_Run Bw_More.
Import ListNotations.
Local Open Scope R_scope.

(** C37. The operator is the mean rotation over the channel. *)
Theorem C37_mean : forall width center phi, channel_ok width center ->
  is_mean (rotation phi) (center - width / 2) (center + width / 2) (rotation_operator width center phi).
Proof. exact @rotation_operator_mean. Qed.
Print Assumptions C37_mean.
Example C37_nonvacuous : channel_ok 1000000 1400000000.
Proof. unfold channel_ok. lra. Qed.


(** C37. Modulus at most one. *)
Theorem C37_bound : forall width center phi, channel_ok width center -> Cmod (rotation_operator width center phi) <= 1.
Proof. exact @rotation_operator_bound. Qed.
Print Assumptions C37_bound.


(** C37. One at zero depth. *)
Theorem C37_zero : forall width center, width <> 0 -> rotation_operator width center 0 = RtoC 1.
Proof. exact @rotation_operator_zero. Qed.
Print Assumptions C37_zero.


(** C37. Conjugated with the sign of the depth. *)
Theorem C37_conj : forall width center phi, channel_ok width center ->
  rotation_operator width center (- phi) = Cconj (rotation_operator width center phi).
Proof. exact @rotation_operator_conj. Qed.
Print Assumptions C37_conj.


(** C37. A negative width (descending frequencies) makes no difference. *)
Theorem C37_width_sign : forall width center phi, channel_ok width center -> rotation_operator (- width) center phi = rotation_operator width center phi.
Proof. exact @rotation_operator_even. Qed.
Print Assumptions C37_width_sign.


(** C38. Every output of adjoint synthesis, any number of pixels: reference, spectrum, sensitivity and noise. *)
Theorem C38_refinement : forall freq dQ dU phi w wA lam0in b,
  valid_synth dQ dU freq wA -> width_used w freq b -> (forall f, In f freq -> channel_ok b f) ->
  exists r, do_adjoint_rmsynth_planes freq dQ dU phi w wA lam0in = POk (Some r) /\
    forall d, length d = length freq ->
    let n := length freq in
    let m := npix dQ in
    let wt := weights_of n wA in
    let live := live_bchans n m (flat dQ) (flat dU) freq wt d in
    (adj_lam0 r = match lam0in with Some l => Some l | None => if Req_EM_T (bwsum live) 0 then None else Some (mean_lam2 live) end) /\
    (forall k p, (k < length phi)%nat -> (p < m)%nat ->
      let chs := pixel_bchans n m (flat dQ) (flat dU) freq wt d p in
      at2 m None (flat (adj_FDF r)) k p =
      option_map (fun l0 => if Req_EM_T (bwsum chs) 0 then RtoC 0 else adj_spec b chs l0 (nth k phi 0)) (adj_lam0 r)) /\
    (bwsum live <> 0 ->
      adjoint_theory (adj_vars r) (map Some d) = (map (fun f => Some (sens_spec b live f)) phi, map (fun f => Some (noise_spec b live f)) phi)).
Proof. exact @adjoint_refines. Qed.
Print Assumptions C38_refinement.


(** C38. A source at a sampled depth: spectrum / sensitivity = amplitude. *)
Theorem C38_thin_source : forall freq Q U phi w wA lam0in b d amp psi RM,
  length Q = length freq -> length U = length freq -> match wA with None => True | Some w => length w = length freq end ->
  width_used w freq b -> (forall f, In f freq -> channel_ok b f) -> length d = length freq ->
  bwsum (spectrum_chans freq Q U wA d) <> 0 -> bw_source b Q U freq amp psi RM ->
  exists r l0 sens noise, do_adjoint_rmsynth_planes freq (spec1 Q) (spec1 U) phi w wA lam0in = POk (Some r) /\
    adj_lam0 r = Some l0 /\ adjoint_theory (adj_vars r) (map Some d) = (sens, noise) /\
    forall k, (k < length phi)%nat -> nth k phi 0 = RM ->
    exists s z, nth k sens None = Some s /\ nth k (flat (adj_FDF r)) None = Some z /\
      z = (RtoC amp * cis (2 * (psi + RM * l0)) * RtoC s)%C /\
      (s <> 0 -> 0 <= amp -> 0 <= s -> Cmod z / s = amp).
Proof. exact @bw_thin_source. Qed.
Print Assumptions C38_thin_source.
Example C38_nonvacuous : let freq := [1400000000; 1401000000] in
  let ch f := thin_chan 1000000 (1/2) 1 100 f in
  bw_source 1000000 (map (fun f => Some (fst (ch f))) freq) (map (fun f => Some (snd (ch f))) freq) freq (1/2) 1 100 /\
  width_used WNone freq 1000000 /\ (forall f, In f freq -> channel_ok 1000000 f) /\
  bwsum (spectrum_chans freq (map (fun f => Some (fst (ch f))) freq) (map (fun f => Some (snd (ch f))) freq) None [1; 1]) <> 0.
Proof.
  cbv zeta. split; [|split; [|split]].
  - intros j q u Hj E1 E2. cbn in Hj. destruct j as [|[|j]]; try lia; cbn [map nth] in *; injection E1 as <-; injection E2 as <-; symmetry; apply surjective_pairing.
  - cbn. split; [lia|lra].
  - intros f [<- | [<- | []]]; unfold channel_ok; lra.
  - unfold bwsum, spectrum_chans, pixel_bchans. cbn -[thin_chan rsum]. rewrite !rsum_cons, rsum_nil. lra.
Qed.


(** C38. Sensitivity in [0,1] and 1 at zero depth; noise largest there. *)
Theorem C38_sensitivity : forall freq Q U phi w wA lam0in b d,
  length Q = length freq -> length U = length freq -> match wA with None => True | Some w => length w = length freq end ->
  width_used w freq b -> (forall f, In f freq -> channel_ok b f) -> length d = length freq -> nonneg_w wA ->
  bwsum (spectrum_chans freq Q U wA d) <> 0 ->
  exists r sens noise n0, do_adjoint_rmsynth_planes freq (spec1 Q) (spec1 U) phi w wA lam0in = POk (Some r) /\
    adjoint_theory (adj_vars r) (map Some d) = (sens, noise) /\ length sens = length phi /\ length noise = length phi /\
    forall k, (k < length phi)%nat -> exists s n, nth k sens None = Some s /\ nth k noise None = Some n /\
      0 <= s <= 1 /\ 0 <= n <= n0 /\ (nth k phi 0 = 0 -> s = 1 /\ n = n0).
Proof. exact @bw_theory_bounds. Qed.
Print Assumptions C38_sensitivity.
Example C38_weights_nonvacuous : nonneg_w (Some [Some 1; None; Some 2]).
Proof. intros x [H | [H | [H | []]]]; try discriminate; injection H as <-; lra. Qed.


(** C38. Through the whole tool: the saved spectrum at the depth of the source is its amplitude and angle times Stokes I. *)
Theorem C38_tool : forall mpfit fit complexity d noI freq iA Q U dI eq eu po phiMax dPhi ns var fitR h p b IM q u dq du fr amp psi RM,
  (forall qn r, mpfit qn = POk r -> length (mp_params r) = 6%nat) -> (forall a1 a2 a3 a4 a5 a6 a7, complexity a1 a2 a3 a4 a5 a6 a7 = POk tt) ->
  bw_columns d noI freq iA Q U dI (map Some eq) (map Some eu) ->
  (2 <= length freq)%nat -> length iA = length freq -> length Q = length freq -> length U = length freq -> length dI = length freq ->
  length eq = length freq -> length eu = length freq -> (forall x, In x (sigmas eq eu) -> x <> 0) ->
  b = nth 1 freq 0 - nth 0 freq 0 -> (forall f, In f freq -> channel_ok b f) ->
  bw_step dPhi ns freq h -> bw_range phiMax freq p -> 0 < h <= p ->
  create_frac_spectra mpfit (map (fun f => f / 1000000000) freq) iA Q U dI (map Some eq) (map Some eu) po Log None = Some (IM, q, u, dq, du, fr) ->
  (exists j qj uj, (j < length freq)%nat /\ nth j q None = Some qj /\ nth j u None = Some uj) ->
  bw_source b q u freq amp psi RM ->
  exists o l0 I0, run_adjoint_rmsynth mpfit fit complexity d po phiMax dPhi ns var fitR noI false = POk o /\
    o_lam0 o = Some l0 /\ o_Ifreq0 o = Some I0 /\
    forall k, (k < length (o_phi o))%nat -> nth k (o_phi o) 0 = RM ->
      sens_spec b (spectrum_chans freq q u (Some (run_weights var (sigmas eq eu))) (sigmas eq eu)) RM <> 0 ->
      nth k (o_FDF o) None = Some (RtoC (I0 * amp) * cis (2 * (psi + RM * l0)))%C.
Proof. exact @bw_run_thin. Qed.
Print Assumptions C38_tool.


(** C39. Seven and five columns are processed: what is saved. *)
Theorem C39_run_partial : forall mpfit fit complexity, forall d noI freq iA Q U dI eq eu po phiMax dPhi ns var fitR h p b IM q u dq du fr,
    (forall qn r, mpfit qn = POk r -> length (mp_params r) = 6%nat) -> (forall a1 a2 a3 a4 a5 a6 a7, complexity a1 a2 a3 a4 a5 a6 a7 = POk tt) ->
    bw_columns d noI freq iA Q U dI (map Some eq) (map Some eu) ->
    (2 <= length freq)%nat -> length iA = length freq -> length Q = length freq -> length U = length freq -> length dI = length freq ->
    length eq = length freq -> length eu = length freq -> (forall x, In x (sigmas eq eu) -> x <> 0) ->
    b = nth 1 freq 0 - nth 0 freq 0 -> (forall f, In f freq -> channel_ok b f) ->
    bw_step dPhi ns freq h -> bw_range phiMax freq p -> 0 < h <= p ->
    create_frac_spectra mpfit (map (fun f => f / 1000000000) freq) iA Q U dI (map Some eq) (map Some eu) po Log None = Some (IM, q, u, dq, du, fr) ->
    (exists j qj uj, (j < length freq)%nat /\ nth j q None = Some qj /\ nth j u None = Some uj) ->
    let sg := sigmas eq eu in
    let chs := spectrum_chans freq q u (Some (run_weights var sg)) sg in
    let l0 := mean_lam2 chs in
    let I0 := lin_model (params fr) 1 (299792458 / sqrt l0 / 1000000000) in
    exists o, run_adjoint_rmsynth mpfit fit complexity d po phiMax dPhi ns var fitR noI false = POk o /\
      (exists N, odd_centred (o_phi o) N h /\ Rabs (INR N * h - p) <= h / 2) /\ (3 <= length (o_phi o))%nat /\
      0 < l0 /\ o_lam0 o = Some l0 /\ o_Ifreq0 o = Some I0 /\ o_freq o = freq /\ o_weight o = map opt0 (run_weights var sg) /\
      length (o_FDF o) = length (o_phi o) /\
      (forall k, (k < length (o_phi o))%nat -> let f := nth k (o_phi o) 0 in
         sens_spec b chs f <> 0 -> nth k (o_FDF o) None = Some (RtoC I0 * adj_spec b chs l0 f / RtoC (sens_spec b chs f))%C) /\
      (exists i, (0 < i < length (o_phi o) - 1)%nat /\ o_peak_rm o = nth i (o_phi o) 0 /\ noise_spec b chs (o_peak_rm o) <> 0 /\
         forall k, (0 < k < length (o_phi o) - 1)%nat -> let f := nth k (o_phi o) 0 in noise_spec b chs f <> 0 ->
           Cmod (adj_spec b chs l0 f) / noise_spec b chs f <= Cmod (adj_spec b chs l0 (o_peak_rm o)) / noise_spec b chs (o_peak_rm o)) /\
      (let e := Nat.div2 (length (o_phi o) + 1) in
       let rchs := unit_chans b freq (weights_of (length freq) (Some (run_weights var sg))) (map is_none q) (o_peak_rm o) in
       length (o_RMSF o) = length (o_phi o) /\
       forall k, (k < length (o_phi o))%nat ->
         nth k (saved_RMSF o) (0, None) = (nth k (o_phi o) 0 - INR e * h, Some (adj_spec b rchs l0 (nth k (o_phi o) 0)))).
Proof. exact @bw_run. Qed.
Print Assumptions C39_run_partial.
(* [bw_Ifreq0_refuted] runs the theorem on a concrete input. *)
Example C39_nonvacuous : bw_columns ex_data false ex_freq ones2 ones2 ones2 ones2 (map Some [1; 1]) (map Some [1; 1]) /\
  (forall x, In x (sigmas [1; 1] [1; 1]) -> x <> 0) /\ (forall f, In f ex_freq -> channel_ok 1000000000 f).
Proof.
  split; [left; exists ones2, ones2; split; [reflexivity|split; reflexivity]|]. split; [intros x [<- | [<- | []]]; cbn; lra|exact ex_ok].
Qed.


(** C39. Finding: six columns never work. *)
Theorem C39_six_columns_refuted : forall mpfit fit complexity, forall f wd Q U dQ dU po pm dp ns var fr noI vb, run_adjoint_rmsynth mpfit fit complexity (Cols6 f wd Q U dQ dU) po pm dp ns var fr noI vb = PErr.
Proof. exact @bw_six_columns_raise. Qed.
Print Assumptions C39_six_columns_refuted.


(** C39. Finding: eight columns never work with two or more channels. *)
Theorem C39_eight_columns_refuted : forall mpfit fit complexity, forall f wd iA Q U dI dQ dU po pm dp ns var fr noI vb, (2 <= length wd)%nat ->
    run_adjoint_rmsynth mpfit fit complexity (Cols8 f wd iA Q U dI dQ dU) po pm dp ns var fr noI vb = PErr.
Proof. exact @bw_eight_columns_raise. Qed.
Print Assumptions C39_eight_columns_refuted.


(** C39. Finding: the verbose flag never works. *)
Theorem C39_verbose_refuted : forall mpfit fit complexity, forall d po pm dp ns var fr noI, run_adjoint_rmsynth mpfit fit complexity d po pm dp ns var fr noI true = PErr.
Proof. exact @bw_verbose_raises. Qed.
Print Assumptions C39_verbose_refuted.


(** C39. Finding: a channel with an undefined error stops every run. *)
Theorem C39_nan_error_refuted : forall mpfit fit complexity, forall d v po pm dp ns var fr noI vb, bw_parse d noI = POk v ->
    length (v_Q v) = length (v_freq v) -> length (v_dQ v) = length (v_freq v) -> length (v_dU v) = length (v_freq v) ->
    In None (v_dQ v) \/ In None (v_dU v) -> run_adjoint_rmsynth mpfit fit complexity d po pm dp ns var fr noI vb = PErr.
Proof. exact @bw_nan_error_raises. Qed.
Print Assumptions C39_nan_error_refuted.
Example C39_nan_nonvacuous : exists v, bw_parse (Cols5 [1; 2] [Some 1; Some 1] [Some 1; Some 1] [Some 1; None] [Some 1; Some 1]) false = POk v /\ In None (v_dQ v).
Proof. eexists. split; [reflexivity|]. cbn. auto. Qed.


(** C39. The spread function is the response to a unit source, on the depths of the spectrum. *)
Theorem C39_rmsf_response : forall fit freq w phi RM wA msk lam0in fitRMSF b,
  match wA with None => True | Some w => length w = length freq end -> length msk = length freq ->
  width_used w freq b -> (forall f, In f freq -> channel_ok b f) -> (2 <= length phi)%nat ->
  let chs := unit_chans b freq (weights_of (length freq) wA) msk RM in bwsum chs <> 0 ->
  let l0 := match lam0in with Some l => l | None => mean_lam2 chs end in
  exists s, bwdepol_get_rmsf_planes fit freq w phi RM wA (Some msk) lam0in true fitRMSF = POk (Some s) /\
    length (bw_RMSF s) = length phi /\ length (bw_phi2 s) = (length phi + 2 * Nat.div2 (length phi + 1))%nat /\
    (forall k, (k < length phi)%nat -> nth k (bw_RMSF s) None = Some (adj_spec b chs l0 (nth k phi 0))) /\
    (forall k, (k < length (bw_phi2 s))%nat -> nth k (bw_phi2 s) 0 = ext_index phi (Z.of_nat k - Z.of_nat (Nat.div2 (length phi + 1)))) /\
    (forall k, (k < length phi)%nat -> nth k phi 0 = RM -> nth k (bw_RMSF s) None = Some (cis (2 * RM * l0) * RtoC (sens_spec b chs RM))%C) /\
    (fitRMSF = false -> bw_stat s = (-1)%Z).
Proof. exact @bw_rmsf_response. Qed.
Print Assumptions C39_rmsf_response.


(** C39. Finding: the depths returned with it are other ones, for every sample. *)
Theorem C39_rmsf_depths_refuted : forall fit freq w phi RM wA msk lam0in fitRMSF b s h,
  match wA with None => True | Some w => length w = length freq end -> length msk = length freq ->
  width_used w freq b -> (forall f, In f freq -> channel_ok b f) -> (2 <= length phi)%nat ->
  bwsum (unit_chans b freq (weights_of (length freq) wA) msk RM) <> 0 -> even_grid phi h -> h <> 0 ->
  bwdepol_get_rmsf_planes fit freq w phi RM wA (Some msk) lam0in true fitRMSF = POk (Some s) ->
  forall k, (k < length phi)%nat -> nth k (bw_phi2 s) 0 = nth k phi 0 - INR (Nat.div2 (length phi + 1)) * h /\ nth k (bw_phi2 s) 0 <> nth k phi 0.
Proof. exact @bw_rmsf_depths_shifted. Qed.
Print Assumptions C39_rmsf_depths_refuted.
Example C39_even_grid_nonvacuous : even_grid [-1; 0; 1] 1.
Proof. intros k Hk. cbn in Hk. destruct k as [|[|k]]; try lia; cbn; lra. Qed.


(** C52. With inverse-variance weights the depth of a thin source has the largest signal-to-noise ratio, and the peak channel attains it. *)
Theorem C52_peak : forall freq Q U phi w lam0in b d amp psi RM k,
  length Q = length freq -> length U = length freq -> width_used w freq b -> (forall f, In f freq -> channel_ok b f) ->
  length d = length freq -> (forall x, In x d -> x <> 0) -> 0 <= amp -> bw_source b Q U freq amp psi RM ->
  (k < length phi)%nat -> nth k phi 0 = RM ->
  exists r, do_adjoint_rmsynth_planes freq (spec1 Q) (spec1 U) phi w (Some (inverse_variance d)) lam0in = POk (Some r) /\
    (bwsum (spectrum_chans freq Q U (Some (inverse_variance d)) d) <> 0 ->
    forall sens noise s, adjoint_theory (adj_vars r) (map Some d) = (sens, noise) -> nth k sens None = Some s -> 0 < s ->
    exists v, nth k (sn_spectrum (flat (adj_FDF r)) noise) None = Some v /\
      (forall j x, nth j (sn_spectrum (flat (adj_FDF r)) noise) None = Some x -> x <= v) /\
      ((0 < k < length phi - 1)%nat -> exists i, peak_channel (flat (adj_FDF r)) noise = POk i /\ (0 < i < length phi - 1)%nat /\
          nth i (sn_spectrum (flat (adj_FDF r)) noise) None = Some v)).
Proof. exact @bw_sn_peak. Qed.
Print Assumptions C52_peak.
Example C52_nonvacuous : forall x, In x [1; 2] -> x <> 0.
Proof. intros x [<- | [<- | []]]; lra. Qed.


(** C53. Stokes I at the reference frequency is right for a constant model. *)
Theorem C53_constant : forall fr c f, fit_function fr = Log -> params fr = [0; 0; 0; 0; 0; c] ->
  lin_model (params fr) 1 f = model_at fr f.
Proof. exact @bw_Ifreq0_constant. Qed.
Print Assumptions C53_constant.
Example C53_nonvacuous : fit_function (unity_fit 0 2 0 Log) = Log /\ params (unity_fit 0 2 0 Log) = [0; 0; 0; 0; 0; 1].
Proof. split; reflexivity. Qed.


(** C53. Finding: else the coefficients of a power law are read as those of a polynomial in GHz; a positive model gives a negative Stokes I. *)
Theorem C53_refuted : forall fit, exists fr o f0 x,
  fit_StokesI_model ex_mpfit (map (fun f => f / 1000000000) ex_freq) ones2 ones2 1 Log = POk fr /\
  run_adjoint_rmsynth ex_mpfit fit (fun _ _ _ _ _ _ _ => POk tt) ex_data 1 (Some 10) (Some 1) 10 false false false false = POk o /\
  o_lam0 o = Some ((299792458 / f0) ^ 2) /\ 2000000000 <= f0 /\ o_Ifreq0 o = Some x /\ x <= -1 /\ 0 < model_at fr (f0 / 1000000000).
Proof. exact @bw_Ifreq0_refuted. Qed.
Print Assumptions C53_refuted.


(** C54. Predicted sensitivity and noise. *)
Theorem C54_predictions : forall freq w phiMax dPhi ws p d,
  (2 <= length freq)%nat -> widths_used w freq ws -> (forall j, (j < length freq)%nat -> channel_ok (nth j ws 0) (nth j freq 0)) ->
  range_used phiMax freq p -> step_used dPhi freq d -> 0 <= p -> 0 < d ->
  exists phi sens noise, bwdepol_compute_predictions freq w phiMax dPhi = POk (phi, sens, noise) /\
    (forall k, (k < length phi)%nat -> nth k phi 0 = INR k * d) /\ (forall k, INR k * d <= p -> (k < length phi)%nat) /\
    (forall k, (k < length phi)%nat -> INR k * d < p + 1 / 1000000) /\
    length sens = length phi /\ length noise = length phi /\
    (forall k, (k < length phi)%nat -> exists s, s = sens_uniform ws freq (INR k * d) /\ nth k sens None = Some s /\ nth k noise None = Some (sqrt s) /\ 0 <= s <= 1) /\
    nth 0 sens None = Some 1 /\ nth 0 noise None = Some 1.
Proof. exact @bw_predictions. Qed.
Print Assumptions C54_predictions.
Example C54_nonvacuous : let freq := [1400000000; 1401000000; 1402000000] in
  widths_used (WArr [1000000; 1000000; 500000]) freq [1000000; 1000000; 500000] /\
  (forall j, (j < 3)%nat -> channel_ok (nth j [1000000; 1000000; 500000] 0) (nth j freq 0)) /\ range_used (Some 1000) freq 1000 /\ step_used (Some 10) freq 10.
Proof.
  cbv zeta. split; [split; reflexivity|]. split; [|split; reflexivity]. intros j Hj. destruct j as [|[|[|j]]]; try lia; cbn [nth]; unfold channel_ok; lra.
Qed.


(** C55. The fitted peak is within half a step of the peak channel when the normalised amplitude peaks there too. *)
Theorem C55_peak_fit_partial : forall FDF phi fw sens noise l2 lam0 sb h i a1 a2 a3 m ph am,
  length FDF = length phi -> length sens = length phi -> length noise = length phi -> even_grid phi h -> 0 < h ->
  peak_channel FDF noise = POk i -> (0 < i < length phi - 1)%nat ->
  norm_amp FDF sens (i - 1) a1 -> norm_amp FDF sens i a2 -> norm_amp FDF sens (i + 1) a3 -> a1 <= a2 -> a3 <= a2 ->
  bwdepol_measure_FDF_parms FDF phi fw sens noise l2 lam0 sb = POk m -> phiPeakPIfit m = Some ph -> ampPeakPIfit m = Some am ->
  Rabs (ph - nth i phi 0) <= h / 2 /\ a2 <= am.
Proof. exact @bw_peak_fit. Qed.
Print Assumptions C55_peak_fit_partial.


(** C55. Finding: it need not, and the reported depth can be outside the grid and the amplitude negative. *)
Theorem C55_refuted : exists FDF phi fw sens noise l2 lam0 m ph am h,
  length FDF = length phi /\ even_grid phi h /\ 0 < h /\
  (forall k, (k < length phi)%nat -> exists s, nth k sens None = Some s /\ 0 < s <= 1 /\ nth k noise None = Some (sqrt s)) /\
  bwdepol_measure_FDF_parms FDF phi fw sens noise l2 lam0 5 = POk m /\ phiPeakPIfit m = Some ph /\ ampPeakPIfit m = Some am /\
  (forall x, In x phi -> ph < x - 2) /\ am < -1.
Proof. exact @bw_peak_fit_refuted. Qed.
Print Assumptions C55_refuted.

