(** Properties of the measurements made on Faraday spectra: parabola, peak parameters, noise, additional scatter, second moment (C30, C31, C32, C48, C51). *)
From Coq Require Import Reals List Arith ZArith Lia Lra Bool Permutation.
Set Warnings "-ambiguous-paths".
From Coquelicot Require Import Coquelicot.
From Verif Require Import CBase NdArray PyRes PyList Interp_Model Synth_Model Synth_Spec Setup_Model Setup_Spec Setup_Proofs Measure_Model Measure_Spec Median_Proofs Measure_Proofs Measure_Laws Sigma_Proofs Measure_Refute.
Import ListNotations.
Local Open Scope R_scope.

(** C30. Through three points with distinct abscissae there is exactly one parabola. *)
Theorem C30_parabola_unique : forall x1 y1 x2 y2 x3 y3, x1 <> x2 -> x2 <> x3 -> x1 <> x3 ->
  exists a b c, through a b c x1 y1 x2 y2 x3 y3 /\
    forall a' b' c', through a' b' c' x1 y1 x2 y2 x3 y3 -> a' = a /\ b' = b /\ c' = c.
Proof. exact @parabola_exists. Qed.
Print Assumptions C30_parabola_unique.
Example C30_unique_nonvacuous : (1 <> 2 /\ 2 <> 4 /\ 1 <> 4)%R.
Proof. repeat split; lra. Qed.


(** C30. The function returns the vertex of that parabola (middle ordinate not zero), and nothing finite when the points are on a line. *)
Theorem C30_vertex : forall a b c x1 y1 x2 y2 x3 y3, x1 <> x2 -> x2 <> x3 -> x1 <> x3 -> y2 <> 0 ->
  through a b c x1 y1 x2 y2 x3 y3 ->
  (a <> 0 -> calc_parabola_vertex x1 y1 x2 y2 x3 y3 = Some (- b / (2 * a), quad a b c (- b / (2 * a)))) /\
  (a = 0 -> calc_parabola_vertex x1 y1 x2 y2 x3 y3 = None).
Proof. exact @vertex_spec. Qed.
Print Assumptions C30_vertex.
Example C30_nonvacuous : through 2 (-8) 11 1 5 3 5 0 11 /\ - (-8) / (2 * 2) = 2 /\ quad 2 (-8) 11 2 = 3.
Proof. unfold through, quad. repeat split; lra. Qed.


(** C30. Conversely, whatever is returned is the vertex of the parabola through the points. *)
Theorem C30_vertex_sound : forall x1 y1 x2 y2 x3 y3 xv yv, x1 <> x2 -> x2 <> x3 -> x1 <> x3 ->
  calc_parabola_vertex x1 y1 x2 y2 x3 y3 = Some (xv, yv) ->
  exists a b c, a <> 0 /\ through a b c x1 y1 x2 y2 x3 y3 /\ xv = - b / (2 * a) /\ yv = quad a b c xv.
Proof. exact @vertex_inv. Qed.
Print Assumptions C30_vertex_sound.


(** C30. A symmetric peak gives its centre. *)
Theorem C30_symmetric : forall x d y0 y, 0 < d -> y0 <> 0 -> y <> y0 ->
  calc_parabola_vertex (x - d) y x y0 (x + d) y = Some (x, y0).
Proof. exact @vertex_symmetric. Qed.
Print Assumptions C30_symmetric.
Example C30_symmetric_nonvacuous : 0 < 5 /\ 7 <> 0 /\ 3 <> 7.
Proof. repeat split; lra. Qed.


(** C30. A middle sample at least as high as its neighbours: the vertex is at most half a step away and at least as high. *)
Theorem C30_vertex_of_peak : forall x d y1 y2 y3 xv yv, 0 < d -> y1 <= y2 -> y3 <= y2 ->
  calc_parabola_vertex (x - d) y1 x y2 (x + d) y3 = Some (xv, yv) ->
  Rabs (xv - x) <= d / 2 /\ y2 <= yv.
Proof. exact @vertex_of_peak. Qed.
Print Assumptions C30_vertex_of_peak.
Example C30_peak_nonvacuous : calc_parabola_vertex (2 - 1) 5 2 7 (2 + 1) 5 = Some (2, 7).
Proof. apply vertex_symmetric; lra. Qed.


(** C30. Finding: a zero middle ordinate gives NaN, although the parabola exists, because the ordinates are divided by it. *)
Theorem C30_zero_middle_refuted : forall x1 y1 x2 x3 y3, calc_parabola_vertex x1 y1 x2 0 x3 y3 = None.
Proof. exact @vertex_zero_middle. Qed.
Print Assumptions C30_zero_middle_refuted.
Example C30_zero_middle_parabola : through 1 0 0 (-1) 1 0 0 1 1.
Proof. unfold through, quad. repeat split; lra. Qed.


(** C31. Every spectrum with a finite non-edge channel can be measured. *)
Theorem C31_defined : forall (FDF : list (option C)) (phi : list R) (fw : option R) (dFDF : option (option R)) (l2 : list R) (lam0 snrBias : R), length FDF = length phi -> (exists k z, (0 < k < length phi - 1)%nat /\ nth k FDF None = Some z) ->
    exists p, measure_FDF_parms FDF phi fw dFDF l2 lam0 snrBias = POk p.
Proof. exact @measure_defined. Qed.
Print Assumptions C31_defined.
Example C31_nonvacuous : length (r_spec 1 2 5 2 1) = length r_phi /\ (exists k z, (0 < k < length r_phi - 1)%nat /\ nth k (r_spec 1 2 5 2 1) None = Some z) /\
  increasing r_phi /\ uniform r_phi (-2) 1.
Proof. split; [reflexivity|]. split; [exists 2%nat, (RtoC 5); split; [simpl; lia|reflexivity]|]. split; [exact r_increasing|exact r_uniform]. Qed.


(** C31. Any other spectrum raises (ValueError of nanargmax). *)
Theorem C31_undefined : forall (FDF : list (option C)) (phi : list R) (fw : option R) (dFDF : option (option R)) (l2 : list R) (lam0 snrBias : R), length FDF = length phi -> (forall k, (0 < k < length phi - 1)%nat -> nth k FDF None = None) ->
    measure_FDF_parms FDF phi fw dFDF l2 lam0 snrBias = PErr.
Proof. exact @measure_undefined. Qed.
Print Assumptions C31_undefined.
Example C31_undefined_nonvacuous : forall k, (0 < k < length [1; 2; 3] - 1)%nat -> nth k [Some (RtoC 1); None; Some (RtoC 2)] None = None.
Proof. intros k Hk. simpl in Hk. assert (k = 1%nat) as -> by lia. reflexivity. Qed.


(** C31. The peak is fitted at the first non-edge channel of maximal amplitude: depth and amplitude are the vertex of the parabola through its three samples, and never outside the range of depths. *)
Theorem C31_peak : forall (FDF : list (option C)) (phi : list R) (fw : option R) (dFDF : option (option R)) (l2 : list R) (lam0 snrBias : R), length FDF = length phi -> increasing phi -> forall p, measure_FDF_parms FDF phi fw dFDF l2 lam0 snrBias = POk p ->
    exists i z, peak_channel FDF (length phi) i z /\
    (phiPeakPIfit p = None <-> ampPeakPIfit p = None) /\
    forall ph a, phiPeakPIfit p = Some ph -> ampPeakPIfit p = Some a ->
      exists z1 z3 qa qb qc, nth (i - 1) FDF None = Some z1 /\ nth (i + 1) FDF None = Some z3 /\ qa <> 0 /\
        through qa qb qc (nth (i - 1) phi 0) (Cmod z1) (nth i phi 0) (Cmod z) (nth (i + 1) phi 0) (Cmod z3) /\
        ph = - qb / (2 * qa) /\ a = quad qa qb qc ph /\ exists q, In q phi /\ Rabs ph <= Rabs q.
Proof. exact @measure_peak. Qed.
Print Assumptions C31_peak.


(** C31. Uniform grid, peak whose neighbours are not edges: the fitted depth is within half a channel and the fitted amplitude is not below the channel. *)
Theorem C31_interior : forall (FDF : list (option C)) (phi : list R) (fw : option R) (dFDF : option (option R)) (l2 : list R) (lam0 snrBias : R), length FDF = length phi -> forall phi0 d, 0 < d -> uniform phi phi0 d ->
    forall p, measure_FDF_parms FDF phi fw dFDF l2 lam0 snrBias = POk p ->
    exists i z, peak_channel FDF (length phi) i z /\
    forall ph a, (1 < i < length phi - 2)%nat -> phiPeakPIfit p = Some ph -> ampPeakPIfit p = Some a ->
      Rabs (ph - nth i phi 0) <= d / 2 /\ Cmod z <= a.
Proof. exact @measure_interior. Qed.
Print Assumptions C31_interior.


(** C31. Angles are in [0,180); the angle is the orientation of the interpolated complex value; the derotated angle is angle - RM lambda0^2 modulo 180. *)
Theorem C31_angles : forall (FDF : list (option C)) (phi : list R) (fw : option R) (dFDF : option (option R)) (l2 : list R) (lam0 snrBias : R), length FDF = length phi -> forall p, measure_FDF_parms FDF phi fw dFDF l2 lam0 snrBias = POk p ->
    (forall a, polAngleFit_deg p = Some a -> 0 <= a < 180 /\
       exists re im, peakFDFrealFit p = Some re /\ peakFDFimagFit p = Some im /\ orientation (re, im) a) /\
    (forall a0, polAngle0Fit_deg p = Some a0 -> 0 <= a0 < 180 /\
       exists a ph, polAngleFit_deg p = Some a /\ phiPeakPIfit p = Some ph /\ same_angle a0 (a - ph * lam0 * 180 / PI)).
Proof. exact @measure_angles. Qed.
Print Assumptions C31_angles.


(** C31. The complex value and the index are interpolated linearly between the two channels around the fitted depth. *)
Theorem C31_interpolated : forall (FDF : list (option C)) (phi : list R) (fw : option R) (dFDF : option (option R)) (l2 : list R) (lam0 snrBias : R), length FDF = length phi -> increasing phi -> forall p ph k, measure_FDF_parms FDF phi fw dFDF l2 lam0 snrBias = POk p ->
    phiPeakPIfit p = Some ph -> (S k < length phi)%nat -> nth k phi 0 <= ph < nth (S k) phi 0 ->
    let t := (ph - nth k phi 0) / (nth (S k) phi 0 - nth k phi 0) in
    indxPeakPIfit p = Some (INR k + t) /\
    forall za zb, nth k FDF None = Some za -> nth (S k) FDF None = Some zb ->
      exists re im, peakFDFrealFit p = Some re /\ peakFDFimagFit p = Some im /\
        (re, im) = (RtoC (1 - t) * za + RtoC t * zb)%C.
Proof. exact @measure_interpolated. Qed.
Print Assumptions C31_interpolated.


(** C31. Noise: the given value, else the MAD of the real and imaginary parts of the samples outside twice the RMSF width around the peak (of all samples if fewer than 30 percent remain). *)
Theorem C31_noise : forall (FDF : list (option C)) (phi : list R) (fw : option R) (dFDF : option (option R)) (l2 : list R) (lam0 snrBias : R), length FDF = length phi -> forall p, measure_FDF_parms FDF phi fw dFDF l2 lam0 snrBias = POk p ->
    (forall x, dFDF = Some x -> dAmpPeakPIfit p = x) /\ (dFDF = None -> dAmpPeakPIfit p = dFDFcorMAD p) /\
    forall f, fw = Some f -> 0 <= f -> increasing phi ->
      exists i z d w, peak_channel FDF (length phi) i z /\ is_min (np_diff phi) d /\ IZR w - 1 < f / d <= IZR w /\
        let kept := off_peak FDF (Z.of_nat i) w in
        (3 / 10 <= INR (length kept) / INR (length phi) -> dFDFcorMAD p = MAD (both_parts kept)) /\
        (INR (length kept) / INR (length phi) < 3 / 10 ->
           dFDFcorMAD p = MAD (map (option_map fst) FDF ++ map (option_map snd) FDF)).
Proof. exact @measure_noise. Qed.
Print Assumptions C31_noise.
Example C31_noise_nonvacuous : off_peak (r_spec 1 2 5 2 1) 2 1 = [RtoC 1].
Proof. reflexivity. Qed.


(** C31. Bias correction: real, never above the fitted amplitude, exactly sqrt(a^2 - 2.3 s^2) from the threshold on and none below it. *)
Theorem C31_bias : forall (FDF : list (option C)) (phi : list R) (fw : option R) (dFDF : option (option R)) (l2 : list R) (lam0 snrBias : R), length FDF = length phi -> forall p a dF, measure_FDF_parms FDF phi fw dFDF l2 lam0 snrBias = POk p ->
    ampPeakPIfit p = Some a -> dAmpPeakPIfit p = Some dF -> 0 < dF -> sqrt (23 / 10) <= snrBias ->
    exists e, ampPeakPIfitEff p = Some e /\ e <= a /\
      (snrBias * dF <= a -> 0 <= e /\ e ^ 2 + 23 / 10 * dF ^ 2 = a ^ 2) /\ (a < snrBias * dF -> e = a).
Proof. exact @measure_bias. Qed.
Print Assumptions C31_bias.
Example C31_bias_nonvacuous : sqrt (23 / 10) <= 5.
Proof. rewrite <- (sqrt_square 5) by lra. apply sqrt_le_1_alt. lra. Qed.


(** C31. Errors: signal to noise, depth error, angle error; the derotated angle is never better known than the angle. *)
Theorem C31_errors : forall (FDF : list (option C)) (phi : list R) (fw : option R) (dFDF : option (option R)) (l2 : list R) (lam0 snrBias : R), length FDF = length phi -> forall p a dF f, measure_FDF_parms FDF phi fw dFDF l2 lam0 snrBias = POk p ->
    ampPeakPIfit p = Some a -> dAmpPeakPIfit p = Some dF -> fw = Some f -> 0 < a -> 0 <= dF ->
    snrPIfit p = (if Req_EM_T dF 0 then None else Some (a / dF)) /\
    dPhiPeakPIfit p = Some (f * (dF / (2 * a))) /\ dPolAngleFit_deg p = Some (180 / PI * (dF / (2 * a))) /\
    ((2 < length l2)%nat ->
     0 < sample_variance l2 ->
     let n := INR (length l2) in
     let e := 180 / PI * (dF / (2 * a)) * sqrt (n / (n - 2) * ((n - 1) / n + lam0 ^ 2 / sample_variance l2)) in
     dPolAngle0Fit_deg p = Some e /\ 180 / PI * (dF / (2 * a)) <= e).
Proof. exact @measure_errors. Qed.
Print Assumptions C31_errors.
Example C31_errors_nonvacuous : let l2 := [1; 2; 3] in (2 < length l2)%nat /\ 0 < sample_variance l2.
Proof. split; [simpl; lia|]. unfold sample_variance. cbn [map length]. rewrite !rsum_cons, !rsum_nil. simpl INR. lra. Qed.


(** C31. A single peak, symmetric between its neighbours, is measured exactly. *)
Theorem C31_exact : forall (FDF : list (option C)) (phi : list R) (fw : option R) (dFDF : option (option R)) (l2 : list R) (lam0 snrBias : R), length FDF = length phi -> forall phi0 d, 0 < d -> uniform phi phi0 d ->
    forall i z z1 z3, (0 < i < length phi - 1)%nat -> nth i FDF None = Some z -> z <> RtoC 0 ->
    nth (i - 1) FDF None = Some z1 -> nth (i + 1) FDF None = Some z3 -> Cmod z1 = Cmod z3 -> Cmod z1 < Cmod z ->
    (forall j w, (0 < j < length phi - 1)%nat -> j <> i -> nth j FDF None = Some w -> Cmod w < Cmod z) ->
    exists p a, measure_FDF_parms FDF phi fw dFDF l2 lam0 snrBias = POk p /\
      phiPeakPIfit p = Some (nth i phi 0) /\ ampPeakPIfit p = Some (Cmod z) /\ indxPeakPIfit p = Some (INR i) /\
      peakFDFrealFit p = Some (fst z) /\ peakFDFimagFit p = Some (snd z) /\
      polAngleFit_deg p = Some a /\ 0 <= a < 180 /\ orientation z a /\
      exists a0, polAngle0Fit_deg p = Some a0 /\ 0 <= a0 < 180 /\ same_angle a0 (a - nth i phi 0 * lam0 * 180 / PI).
Proof. exact @measure_exact. Qed.
Print Assumptions C31_exact.


(** C31. End to end with RM-synthesis: a noise-free Faraday-thin source at a non-edge depth of the grid gives exactly its RM, amplitude, angle at lambda0^2 and intrinsic angle, for any flags and weights that leave two unaliased channels. *)
Theorem C31_thin_source : forall dataQ dataU l2 phi wA lam0in p amp psi RM phi0 d i c1 c2 fw dF sb,
  valid_synth dataQ dataU l2 wA -> antisym phi -> nonneg_w wA -> 0 < amp ->
  (p < npix dataQ)%nat -> thin_pixel dataQ dataU l2 p amp psi RM ->
  0 < d -> uniform phi phi0 d -> (0 < i < length phi - 1)%nat -> nth i phi 0 = RM ->
  let chs := pixel_chans (length l2) (npix dataQ) (flat dataQ) (flat dataU) l2 (weights_of (length l2) wA) p in
  In c1 chs -> In c2 chs -> 0 < c_w c1 -> 0 < c_w c2 -> c_l2 c1 <> c_l2 c2 ->
  (forall k, (k < length phi)%nat -> Rabs (nth k phi 0 - RM) * Rabs (c_l2 c1 - c_l2 c2) < PI) ->
  exists r s a a0, do_rmsynth_planes dataQ dataU l2 phi wA lam0in = Some r /\
    measure_FDF_parms (map (fun k => at2 (npix dataQ) None (flat (FDFcube r)) k p) (seq 0 (length phi))) phi fw dF l2 (synth_lam0 r) sb = POk s /\
    phiPeakPIfit s = Some RM /\ ampPeakPIfit s = Some amp /\
    polAngleFit_deg s = Some a /\ 0 <= a < 180 /\ same_angle a ((psi + RM * synth_lam0 r) * 180 / PI) /\
    polAngle0Fit_deg s = Some a0 /\ 0 <= a0 < 180 /\ same_angle a0 (psi * 180 / PI).
Proof. exact @thin_measured. Qed.
Print Assumptions C31_thin_source.
Definition ex_l2 : list R := [1 / 10; 2 / 10; 3 / 10].
Definition ex_dQ : nd (option R) := mk_nd [3%nat] (map (fun l => Some (fst (thin 2 0 1 l))) ex_l2).
Definition ex_dU : nd (option R) := mk_nd [3%nat] (map (fun l => Some (snd (thin 2 0 1 l))) ex_l2).
Example C31_thin_nonvacuous :
  let chs := pixel_chans 3 (npix ex_dQ) (flat ex_dQ) (flat ex_dU) ex_l2 (weights_of 3 None) 0 in
  valid_synth ex_dQ ex_dU ex_l2 None /\ antisym r_phi /\ nonneg_w None /\ thin_pixel ex_dQ ex_dU ex_l2 0 2 0 1 /\ nth 3 r_phi 0 = 1 /\
  exists c1 c2, In c1 chs /\ In c2 chs /\ 0 < c_w c1 /\ 0 < c_w c2 /\ c_l2 c1 <> c_l2 c2 /\
    forall k, (k < length r_phi)%nat -> Rabs (nth k r_phi 0 - 1) * Rabs (c_l2 c1 - c_l2 c2) < PI.
Proof.
  split; [repeat split; simpl; lia|]. split.
  { intros k Hk. simpl in *. destruct k as [|[|[|[|[|k]]]]]; simpl; try lra; lia. }
  split; [exact I|]. split.
  { intros j q u Hj Hq Hu. simpl in Hj. destruct j as [|[|[|j]]]; try lia; cbn in Hq, Hu; injection Hq as <-; injection Hu as <-; symmetry; apply surjective_pairing. }
  split; [reflexivity|]. eexists _, _. split; [left; reflexivity|]. split; [right; left; reflexivity|]. cbn [c_w c_l2 weights_of repeat nth ex_l2].
  split; [lra|]. split; [lra|]. split; [lra|]. intros k Hk.
  assert (3 < PI) by (pose proof PI2_3_2; unfold PI2 in *; lra).
  assert (Rabs (nth k r_phi 0 - 1) <= 3).
  { rewrite r_uniform by auto. apply Rabs_le. simpl in Hk. assert (INR k <= 4) by (replace 4 with (INR 4) by (simpl; lra); apply le_INR; lia).
    pose proof (pos_INR k). lra. }
  rewrite (Rabs_left (1 / 10 - 2 / 10)) by lra. lra.
Qed.


(** C31. Finding: next to a brighter edge channel the parabola can be convex; the reported peak is then its minimum ... *)
Theorem C31_convex_minimum : forall FDF phi fw dFDF l2 lam0 sb, length FDF = length phi -> forall phi0 d, 0 < d -> uniform phi phi0 d ->
  forall p, measure_FDF_parms FDF phi fw dFDF l2 lam0 sb = POk p ->
  exists i z, peak_channel FDF (length phi) i z /\
  forall z1 z3 a, nth (i - 1) FDF None = Some z1 -> nth (i + 1) FDF None = Some z3 -> 2 * Cmod z < Cmod z1 + Cmod z3 ->
    ampPeakPIfit p = Some a -> a <= Cmod z /\ a <= Cmod z1 /\ a <= Cmod z3.
Proof. exact @measure_convex. Qed.
Print Assumptions C31_convex_minimum.


(** C31. ... for example a reported amplitude below that of the peak channel. *)
Theorem C31_edge_peak_refuted : exists FDF phi fw dFDF l2 lam0 sb p i z a, length FDF = length phi /\ uniform phi (-2) 1 /\
  measure_FDF_parms FDF phi fw dFDF l2 lam0 sb = POk p /\ peak_channel FDF (length phi) i z /\
  ampPeakPIfit p = Some a /\ a < Cmod z.
Proof. exact @edge_peak_refuted. Qed.
Print Assumptions C31_edge_peak_refuted.


(** C31. Finding: when the vertex is outside the grid, depth and amplitude are blanked but the signal to noise ratio is not. *)
Theorem C31_outside_snr_refuted : exists FDF phi fw dFDF l2 lam0 sb p s, length FDF = length phi /\ uniform phi (-2) 1 /\
  measure_FDF_parms FDF phi fw dFDF l2 lam0 sb = POk p /\
  phiPeakPIfit p = None /\ ampPeakPIfit p = None /\ snrPIfit p = Some s /\ 10 < s.
Proof. exact @outside_snr_refuted. Qed.
Print Assumptions C31_outside_snr_refuted.


(** C32. The cumulative distribution is increasing and ends at 1, the probability is normalised, both errors are non-negative and the bounds stay on the sampled range. *)
Theorem C32_sigma_add : forall (nData : nat) (y dy : list (option R)) (yMed : R) (nSamp : nat), forall rng, (2 <= nSamp)%nat -> is_range (pairs y dy) rng -> 0 < rng ->
    exists r s m p, calc_sigma_add nData y dy yMed nSamp = POk r /\
      length (CPDF r) = nSamp /\ increasing (CPDF r) /\ nth (nSamp - 1) (CPDF r) 0 = 1 /\ 0 < nth 0 (CPDF r) 0 /\
      (forall k, (k < nSamp)%nat -> 0 < nth k (probArr r) 0) /\ rsum (map (fun q => q * (rng / INR nSamp)) (probArr r)) = 1 /\
      sigmaAdd r = Some s /\ dSigmaAddMinus r = Some m /\ dSigmaAddPlus r = Some p /\
      0 <= m /\ 0 <= p /\ rng / INR nSamp <= s - m /\ s + p <= rng.
Proof. exact @sigma_add_laws. Qed.
Print Assumptions C32_sigma_add.
Example C32_nonvacuous : is_range (pairs [Some 1; None; Some 3] [Some 1; Some 1; Some 2]) 5.
Proof.
  exists 5, 0. split; [lra|]. split; (split; [simpl|intros x Hx; simpl in Hx]).
  - right. left. lra.
  - destruct Hx as [<- | [<- | []]]; lra.
  - left. lra.
  - destruct Hx as [<- | [<- | []]]; lra.
Qed.


(** C32. The probability curve is the Gaussian likelihood of the data with the additional scatter, times 1/s, up to one factor. *)
Theorem C32_likelihood : forall nData ys ds yMed nSamp rng, length ys = length ds ->
  (2 <= nSamp)%nat -> is_range (combine ys ds) rng -> 0 < rng ->
  exists r c, calc_sigma_add nData (map Some ys) (map Some ds) yMed nSamp = POk r /\ 0 < c /\
    length (probArr r) = nSamp /\
    forall k, (k < nSamp)%nat ->
      nth k (sigmaAddArr r) 0 = INR (S k) * (rng / INR nSamp) /\
      nth k (probArr r) 0 = c * likelihood (combine ys ds) yMed (nth k (sigmaAddArr r) 0).
Proof. exact @sigma_add_likelihood. Qed.
Print Assumptions C32_likelihood.


(** C32. A percentile is the place where the piecewise linear distribution reaches q (the first sample if it starts above q). *)
Theorem C32_percentile : forall x p q, length x = length p -> increasing x -> increasing p ->
  (exists j, (j < length p)%nat /\ q < nth j p 0) ->
  exists k v, cdf_percentile x p q = Some v /\ (k < length p)%nat /\ q < nth k p 0 /\ (forall j, (j < k)%nat -> nth j p 0 <= q) /\
    match k with
    | O => v = nth 0 x 0
    | S i => nth i x 0 <= v < nth k x 0 /\
             (v - nth i x 0) * (nth k p 0 - nth i p 0) = (q - nth i p 0) * (nth k x 0 - nth i x 0)
    end.
Proof. exact @percentile_spec. Qed.
Print Assumptions C32_percentile.
Example C32_percentile_nonvacuous : increasing [1 / 4; 1 / 2; 1] /\ 3 / 4 < nth 2 [1 / 4; 1 / 2; 1] 0.
Proof. split; [|simpl; lra]. intros i j Hij. simpl in Hij. destruct i as [|[|i]], j as [|[|[|j]]]; simpl; try lia; try lra. Qed.


(** C32. Percentiles are ordered and stay within the samples. *)
Theorem C32_percentile_monotone : forall x p q1 q2 v1 v2, length x = length p -> increasing x -> increasing p ->
  (exists j, (j < length p)%nat /\ q2 < nth j p 0) -> q1 <= q2 ->
  cdf_percentile x p q1 = Some v1 -> cdf_percentile x p q2 = Some v2 -> nth 0 x 0 <= v1 <= v2 /\ v2 <= nth (length x - 1) x 0.
Proof. exact @percentile_monotone. Qed.
Print Assumptions C32_percentile_monotone.


(** C48. MAD(a x + b) = |a| MAD(x). *)
Theorem C48_affine : forall a b l, MAD (map (option_map (fun x => a * x + b)) l) = option_map (Rmult (Rabs a)) (MAD l).
Proof. exact @MAD_affine. Qed.
Print Assumptions C48_affine.
Example C48_nonvacuous : MAD [Some 1; None; Some 3; Some 8] = Some (2 / (6745 / 10000)).
Proof.
  unfold MAD. simpl somes. rewrite (median_of_sorted [1; 3; 8] [1; 3; 8]); [|discriminate|reflexivity|repeat constructor; lra].
  replace (mid [1; 3; 8]) with 3 by reflexivity. cbn [map]. rewrite (Rabs_left (1 - 3)), (Rabs_pos_eq (3 - 3)), (Rabs_pos_eq (8 - 3)) by lra.
  rewrite (median_of_sorted _ [(3 - 3) / (6745 / 10000); - (1 - 3) / (6745 / 10000); (8 - 3) / (6745 / 10000)]); [|discriminate|constructor|repeat constructor; lra].
  unfold mid. simpl. f_equal. lra.
Qed.


(** C48. The order of the samples does not matter. *)
Theorem C48_permutation : forall l m, Permutation l m -> MAD l = MAD m.
Proof. exact @MAD_perm. Qed.
Print Assumptions C48_permutation.


(** C48. NaN samples are ignored. *)
Theorem C48_nan : forall l, MAD l = MAD (map Some (somes l)).
Proof. exact @MAD_ignores_nan. Qed.
Print Assumptions C48_nan.


(** C48. It is non-negative, and NaN only if there is no sample. *)
Theorem C48_nonneg : forall l, (somes l <> [] -> exists m, MAD l = Some m /\ 0 <= m) /\ (somes l = [] -> MAD l = None).
Proof. exact @MAD_nonneg. Qed.
Print Assumptions C48_nonneg.


(** C48. It is the median of the deviations from the median, divided by 0.6745. *)
Theorem C48_definition : forall l s, MAD l = Some s ->
  exists d, median (somes l) = Some d /\ median (map (fun x => Rabs (x - d)) (somes l)) = Some (6745 / 10000 * s).
Proof. exact @MAD_is_median_deviation. Qed.
Print Assumptions C48_definition.


(** C48. And the median has at least half of the samples on each side. *)
Theorem C48_median_halves : forall l m, median l = Some m ->
  (length l <= 2 * count (fun x => Rleb x m) l)%nat /\ (length l <= 2 * count (fun x => Rleb m x) l)%nat.
Proof. exact @median_halves. Qed.
Print Assumptions C48_median_halves.


(** C51. Shifting the depths leaves the second moment alone, scaling them scales it. *)
Theorem C51_affine : forall FDF phi a b, length FDF = length phi ->
  calc_mom2_FDF FDF (map (fun x => a * x + b) phi) = option_map (Rmult (Rabs a)) (calc_mom2_FDF FDF phi).
Proof. exact @mom2_affine. Qed.
Print Assumptions C51_affine.
Example C51_nonvacuous : length [RtoC 1; RtoC 1] = length [0; 2].
Proof. reflexivity. Qed.


(** C51. Scaling and rotating the spectrum changes nothing. *)
Theorem C51_scale : forall FDF phi z, length FDF = length phi -> z <> RtoC 0 ->
  calc_mom2_FDF (map (Cmult z) FDF) phi = calc_mom2_FDF FDF phi.
Proof. exact @mom2_scale. Qed.
Print Assumptions C51_scale.


(** C51. It is undefined only for an empty spectrum, never negative, and zero exactly when all components are at one depth. *)
Theorem C51_zero : forall FDF phi, length FDF = length phi ->
  (calc_mom2_FDF FDF phi = None <-> forall z, In z FDF -> z = RtoC 0) /\
  forall m, calc_mom2_FDF FDF phi = Some m ->
    0 <= m /\ (m = 0 <-> exists f, forall k, (k < length FDF)%nat -> nth k FDF (RtoC 0) <> RtoC 0 -> nth k phi 0 = f).
Proof. exact @mom2_zero. Qed.
Print Assumptions C51_zero.

