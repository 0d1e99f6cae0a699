(** RM-synthesis with rounding: claim C81. *)
From Coq Require Import Reals List Arith ZArith Lia Lra Bool Permutation.
Set Warnings "-ambiguous-paths".
From Coquelicot Require Import Coquelicot.
From Verif Require Import CBase NdArray Synth_Model Synth_Spec Synth_Proofs Synth_Refute Fl_Model Fl_Spec Fl_Float Fl_Proofs Fl_Synth Fl_Laws Fl_Single Fl_Refute.
From Coq Require Import Permutation.
Import ListNotations.
Local Open Scope R_scope.

(** C81. Every value of the spectrum is within a relative error of the exact one. *)
Theorem C81_close : forall rnd rndw sumf nufft u v g eps dataQ dataU l2 phi wA lam0in,
  rounds rnd u -> rounds rndw v -> sums sumf (length l2) g -> transforms nufft eps ->
  0 <= u -> 0 <= v -> 0 <= g < 1 -> 0 <= eps ->
  valid_synth dataQ dataU l2 wA -> antisym phi -> nonneg_w wA ->
  exists r r0, do_rmsynth_planes_fl rnd rndw sumf nufft dataQ dataU l2 phi wA lam0in = Some r /\
    do_rmsynth_planes dataQ dataU l2 phi wA lam0in = Some r0 /\ shape (FDFcube r) = shape (FDFcube r0) /\
    forall k p D, (k < length phi)%nat -> (p < npix dataQ)%nat ->
      let chs := pixel_chans (length l2) (npix dataQ) (flat dataQ) (flat dataU) l2 (weights_of (length l2) wA) p in
      0 < wsum chs -> (forall c, In c chs -> Rabs (c_l2 c - synth_lam0 r) <= D) ->
      Cmod (blank0 (at2 (npix dataQ) None (flat (FDFcube r)) k p) - FDF_spec chs (synth_lam0 r) (nth k phi 0))%C
      <= synth_err u v g eps (2 * Rabs (nth k phi 0) * D) * mean_P chs.
Proof. exact @synth_fl_close. Qed.
Print Assumptions C81_close.
Example C81_close_nonvacuous : rounds f32 (/ 16777216) /\ rounds f64 (/ 9007199254740992) /\ sums rsum (length g_l2) 0 /\ transforms nufft1d3 0 /\
  valid_synth g_Q g_U g_l2 None /\ antisym g_phi /\ 0 < wsum g_chs.
Proof.
  repeat split; try apply f32_rounds; try apply f64_rounds; try apply sum_exact; try apply nufft_exact; try apply g_antisym; try (rewrite g_wsum; lra); try (cbn; lia).
  all: destruct (nufft_exact x c s H) as [L B]; [exact L || (intros; apply B; assumption)].
Qed.


(** C81. The reference wavelength is within a relative error of the weighted mean. *)
Theorem C81_lam0 : forall rnd rndw sumf nufft u v g dataQ dataU l2 phi wA,
  rounds rnd u -> rounds rndw v -> sums sumf (length l2) g -> 0 <= u -> 0 <= g < 1 ->
  valid_synth dataQ dataU l2 wA -> nonneg_w wA ->
  let live := live_chans (length l2) (npix dataQ) (flat dataQ) (flat dataU) l2 (weights_of (length l2) wA) in
  0 < wsum live ->
  exists r, do_rmsynth_planes_fl rnd rndw sumf nufft dataQ dataU l2 phi wA None = Some r /\
    Rabs (synth_lam0 r - mean_l2 live) <=
    ((1 + u) ^ 3 * (1 + g) / (1 - g) - 1) * (rsum (map (fun c => c_w c * Rabs (c_l2 c)) live) / wsum live).
Proof. exact @lam0_fl_close. Qed.
Print Assumptions C81_lam0.


(** C81. A reference wavelength that is handed in is used as it is. *)
Theorem C81_lam0_given : forall rnd rndw sumf nufft dataQ dataU l2 phi wA l, valid_synth dataQ dataU l2 wA ->
  exists r, do_rmsynth_planes_fl rnd rndw sumf nufft dataQ dataU l2 phi wA (Some l) = Some r /\ synth_lam0 r = l.
Proof. exact @lam0_fl_given. Qed.
Print Assumptions C81_lam0_given.


(** C81. Without rounding the result is that of the exact model. *)
Theorem C81_exact : forall dataQ dataU l2 phi wA lam0in,
  do_rmsynth_planes_fl (fun x => x) (fun x => x) rsum nufft1d3 dataQ dataU l2 phi wA lam0in =
  do_rmsynth_planes dataQ dataU l2 phi wA lam0in.
Proof. exact @fl_exact. Qed.
Print Assumptions C81_exact.


(** C81. A Faraday-thin source keeps its amplitude and angle up to the error. *)
Theorem C81_thin : forall rnd rndw sumf nufft u v g eps dataQ dataU l2 phi wA lam0in p amp psi RM,
  rounds rnd u -> rounds rndw v -> sums sumf (length l2) g -> transforms nufft eps ->
  0 <= u -> 0 <= v -> 0 <= g < 1 -> 0 <= eps ->
  valid_synth dataQ dataU l2 wA -> antisym phi -> nonneg_w wA -> 0 <= amp ->
  (p < npix dataQ)%nat -> thin_pixel dataQ dataU l2 p amp psi RM ->
  let chs := pixel_chans (length l2) (npix dataQ) (flat dataQ) (flat dataU) l2 (weights_of (length l2) wA) p in
  0 < wsum chs ->
  exists r, do_rmsynth_planes_fl rnd rndw sumf nufft dataQ dataU l2 phi wA lam0in = Some r /\
    forall D, (forall c, In c chs -> Rabs (c_l2 c - synth_lam0 r) <= D) ->
    let F k := blank0 (at2 (npix dataQ) None (flat (FDFcube r)) k p) in
    let E k := synth_err u v g eps (2 * Rabs (nth k phi 0) * D) in
    (forall k, (k < length phi)%nat -> Cmod (F k) <= amp * (1 + E k)) /\
    (forall k, (k < length phi)%nat -> nth k phi 0 = RM ->
       Rabs (Cmod (F k) - amp) <= amp * E k /\
       Cmod (F k - RtoC amp * cis (2 * (psi + RM * synth_lam0 r)))%C <= amp * E k).
Proof. exact @thin_fl. Qed.
Print Assumptions C81_thin.
Example C81_thin_nonvacuous : forall RM, valid_synth (e_Q RM) (e_U RM) e_l2 e_w /\ antisym e_phi /\ nonneg_w e_w /\ thin_pixel (e_Q RM) (e_U RM) e_l2 0 2 0 RM /\
  0 < wsum (pixel_chans 3 1 (flat (e_Q RM)) (flat (e_U RM)) e_l2 (weights_of 3 e_w) 0).
Proof. intros RM. split; [apply e_valid|]. split; [apply e_antisym|]. split; [apply e_nonneg|]. split; [apply e_thin|]. rewrite e_wsum. lra. Qed.


(** C81. A peak that leads by more than the errors stays the peak. *)
Theorem C81_peak : forall rnd rndw sumf nufft u v g eps dataQ dataU l2 phi wA lam0in p,
  rounds rnd u -> rounds rndw v -> sums sumf (length l2) g -> transforms nufft eps ->
  0 <= u -> 0 <= v -> 0 <= g < 1 -> 0 <= eps ->
  valid_synth dataQ dataU l2 wA -> antisym phi -> nonneg_w wA -> (p < npix dataQ)%nat ->
  let chs := pixel_chans (length l2) (npix dataQ) (flat dataQ) (flat dataU) l2 (weights_of (length l2) wA) p in
  0 < wsum chs ->
  exists r, do_rmsynth_planes_fl rnd rndw sumf nufft dataQ dataU l2 phi wA lam0in = Some r /\
    forall D k0, (forall c, In c chs -> Rabs (c_l2 c - synth_lam0 r) <= D) -> (k0 < length phi)%nat ->
    let F k := blank0 (at2 (npix dataQ) None (flat (FDFcube r)) k p) in
    let E k := synth_err u v g eps (2 * Rabs (nth k phi 0) * D) * mean_P chs in
    let X k := FDF_spec chs (synth_lam0 r) (nth k phi 0) in
    (forall k, (k < length phi)%nat -> k <> k0 -> Cmod (X k) + E k + E k0 < Cmod (X k0)) ->
    forall k, (k < length phi)%nat -> k <> k0 -> Cmod (F k) < Cmod (F k0).
Proof. exact @peak_fl. Qed.
Print Assumptions C81_peak.
Example C81_peak_nonvacuous : forall g k, 0 <= g <= 6 / 100000 -> (k < 3)%nat -> k <> 1%nat ->
  let chs := pixel_chans 2 1 (flat g_Q) (flat g_U) g_l2 (weights_of 2 None) 0 in
  let E k := synth_err (/ 16777216) (/ 9007199254740992) g (1 / 1000000) (2 * Rabs (nth k g_phi 0) * 1) * mean_P chs in
  Cmod (FDF_spec chs 0 (nth k g_phi 0)) + E k + E 1%nat < Cmod (FDF_spec chs 0 (nth 1 g_phi 0)).
Proof. exact g_lead. Qed.


(** C81. The spread function is within an error of the exact one. *)
Theorem C81_rmsf : forall rnd rndw sumf expf u v g e w l2 phi2 l0 D k,
  rounds rnd u -> rounds rndw v -> sums sumf (length l2) g -> exps expf e ->
  0 <= u -> 0 <= v -> 0 <= g < 1 -> 0 <= e -> length w = length l2 -> (forall x, In x w -> 0 <= x) ->
  let chs := wl_chans w l2 in
  0 < wsum chs -> (forall l, In l l2 -> Rabs (l - l0) <= D) -> (k < length phi2)%nat ->
  exists z, nth k (rmsf_1d_fl rnd rndw sumf expf w l2 phi2 (Some l0)) None = Some z /\
    Cmod (z - RMSF_spec chs l0 (nth k phi2 0))%C <= rmsf_err u v g e (2 * Rabs (nth k phi2 0) * D).
Proof. exact @rmsf_fl_close. Qed.
Print Assumptions C81_rmsf.


(** C81. Additions in any order have the error used above. *)
Theorem C81_sums : forall r u n d (order : list R -> stree), rounds r u -> 0 <= u ->
  (forall l, length l = n -> Permutation (leaves (order l)) l /\ (depth (order l) <= d)%nat) ->
  sums (fun l => fsum r (order l)) n ((1 + u) ^ d - 1).
Proof. exact @tree_sums. Qed.
Print Assumptions C81_sums.


(** C81. The error in single precision, in figures. *)
Theorem C81_single : forall order nufft dataQ dataU l2 phi wA lam0in,
  (forall l, length l = length l2 -> Permutation (leaves (order l)) l /\ (depth (order l) <= 1000)%nat) ->
  transforms nufft (1 / 1000000) ->
  valid_synth dataQ dataU l2 wA -> antisym phi -> nonneg_w wA ->
  exists r, do_rmsynth_planes_fl f32 f64 (fun l => fsum f32 (order l)) nufft dataQ dataU l2 phi wA lam0in = Some r /\
    forall k p D, (k < length phi)%nat -> (p < npix dataQ)%nat ->
      let chs := pixel_chans (length l2) (npix dataQ) (flat dataQ) (flat dataU) l2 (weights_of (length l2) wA) p in
      0 < wsum chs -> (forall c, In c chs -> Rabs (c_l2 c - synth_lam0 r) <= D) ->
      Cmod (blank0 (at2 (npix dataQ) None (flat (FDFcube r)) k p) - FDF_spec chs (synth_lam0 r) (nth k phi 0))%C
      <= (62 / 1000000 + 12 / 100000000 * (2 * Rabs (nth k phi 0) * D)) * mean_P chs.
Proof. exact @synth_single. Qed.
Print Assumptions C81_single.
Example C81_single_nonvacuous : (forall l, length l = length g_l2 -> Permutation (leaves (left_order l)) l /\ (depth (left_order l) <= 1000)%nat) /\ transforms nufft1d3 (1 / 1000000).
Proof.
  split; [intros l L; apply (left_order_ok 2); [lia|exact L]|]. intros x c s L. destruct (nufft_exact x c s L) as [A B]. split; [exact A|].
  intros k Hk. eapply Rle_trans; [apply B, Hk|]. apply Rmult_le_compat_r; [|lra]. apply rsum_nonneg. intros y Hy. apply in_map_iff in Hy. destruct Hy as (z & <- & _). apply Cmod_ge_0.
Qed.


(** C81. Refuted: the error is not bounded by the tolerance of the transform. *)
Theorem C81_tolerance_refuted : ~ forall dataQ dataU l2 phi wA lam0in r,
  valid_synth dataQ dataU l2 wA -> antisym phi -> nonneg_w wA ->
  do_rmsynth_planes_fl f32 f64 rsum nufft1d3 dataQ dataU l2 phi wA lam0in = Some r ->
  forall k p, (k < length phi)%nat -> (p < npix dataQ)%nat ->
  let chs := pixel_chans (length l2) (npix dataQ) (flat dataQ) (flat dataU) l2 (weights_of (length l2) wA) p in
  0 < wsum chs ->
  Cmod (blank0 (at2 (npix dataQ) None (flat (FDFcube r)) k p) - FDF_spec chs (synth_lam0 r) (nth k phi 0))%C
  <= 50 * (1 / 1000000) * mean_P chs.
Proof. exact @tolerance_refuted. Qed.
Print Assumptions C81_tolerance_refuted.

