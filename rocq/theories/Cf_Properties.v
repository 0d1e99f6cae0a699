(** RM-CLEAN with rounding: claim C83. *)
From Coq Require Import Reals List Arith ZArith Lia Lra Bool Permutation.
Set Warnings "-ambiguous-paths".
From Coquelicot Require Import Coquelicot.
From Verif Require Import PyRes CBase NdArray PyList Synth_Model Clean_Model Clean_Spec Fl_Spec Fl_Float Fl_Proofs Fl_Single Cf_Arith Cf_Model Cf_Spec Cf_Round Cf_Proofs Cf_Single Cf_Float.
Import ListNotations.
Local Open Scope R_scope.

(** C83. The operations of NumPy have these relative errors. *)
Theorem C83_operations : forall r rw absf gaussf fwhm u u2 e h, rounds r u -> rounds rw u2 -> 0 <= u -> 0 <= u2 ->
  (forall z, Rabs (absf z - Cmod z) <= e * Cmod z) ->
  (forall mu x, Rabs (gaussf mu fwhm x - beam fwhm (x - mu)) <= h) ->
  accurate (rounded r rw absf gaussf) fwhm ((1 + u) * (1 + u2) - 1) u2 (mul_err u) e ((1 + u2) * (1 + h) - 1).
Proof. exact @rounded_accurate. Qed.
Print Assumptions C83_operations.
Example C83_operations_nonvacuous : accurate (rounded f32 f64 Cmod (fun m f x => beam f (x - m))) 1 (6 / 100000000) (1 / 1000000000000000) (25 / 100000000) (/ 4194304) ((1 + 1 / 1000000000000000) * (1 + 0) - 1).
Proof. exact k_accurate. Qed.


(** C83. Residual plus response of the components is the dirty spectrum, components are the sums of what was subtracted and the clean spectrum is their beams, up to the rounding. *)
Theorem C83_conserves : forall a ends dirty RMSF phi fwhm gain cutoff window maxIter s imax u v m e h B,
  accurate a fwhm u v m e h -> samples_le RMSF B ->
  length dirty = length phi -> peak_at RMSF imax -> roomy (length phi) (length RMSF) imax ->
  cleanloop_fl a ends dirty RMSF phi fwhm gain cutoff window maxIter = POk s ->
  exists T, length T = iters s /\ (iters s <= maxIter)%nat /\
    (forall j, (j < length phi)%nat ->
      Cmod (nth j (cc s) czero - at_chan T j)%C <= grown u (iters s) * size_at T j /\
      Cmod (nth j dirty czero - (nth j (resid s) czero + response RMSF imax (cc s) j))%C <=
        grown u (iters s) * (Cmod (nth j dirty czero) + (2 + m) * B * total T) + m * B * total T /\
      Cmod (nth j (cln s) czero - restored fwhm phi (cc s) j)%C <= (grown u (iters s) * (2 + h) + h) * total T).
Proof. exact @fl_conserves. Qed.
Print Assumptions C83_conserves.
Example C83_conserves_nonvacuous : samples_le k_rm 1 /\ length k_dirty = length k_phi /\ peak_at k_rm 4 /\ roomy (length k_phi) (length k_rm) 4.
Proof.
  split; [|split; [reflexivity|split; [apply k_peak|apply k_roomy]]].
  intros k. do 9 (destruct k as [|k]; [cbn [nth k_rm map]; rewrite Cmod_R, Rabs_pos_eq; lra|]). rewrite nth_overflow by (cbn; lia). unfold czero. rewrite Cmod_0. lra.
Qed.


(** C83. The loop ends without an error whatever the arithmetic. *)
Theorem C83_total : forall a ends dirty RMSF phi fwhm gain cutoff window maxIter imax,
  length dirty = length phi -> (2 <= length phi)%nat -> peak_at RMSF imax -> roomy (length phi) (length RMSF) imax ->
  exists s, cleanloop_fl a ends dirty RMSF phi fwhm gain cutoff window maxIter = POk s.
Proof. exact @fl_total. Qed.
Print Assumptions C83_total.
Example C83_total_nonvacuous : length k_dirty = length k_phi /\ (2 <= length k_phi)%nat /\ peak_at k_rm 4 /\ roomy (length k_phi) (length k_rm) 4.
Proof. split; [reflexivity|]. split; [cbn; lia|]. split; [apply k_peak|apply k_roomy]. Qed.


(** C83. It stops at the limit of iterations or with every residual below the cutoff. *)
Theorem C83_stops : forall a ends dirty RMSF phi fwhm gain cutoff maxIter s u v m e h imax,
  accurate a fwhm u v m e h -> length dirty = length phi -> peak_at RMSF imax ->
  cleanloop_fl a ends dirty RMSF phi fwhm gain cutoff None maxIter = POk s ->
  (iters s <= maxIter)%nat /\ (iters s = maxIter \/ forall z, In z (resid s) -> (1 - e) * Cmod z < cutoff).
Proof. exact @fl_stops. Qed.
Print Assumptions C83_stops.


(** C83. With a window it stops at the limit of iterations or with the residual below the window limit at every component. *)
Theorem C83_stops_window : forall a ends dirty RMSF phi fwhm gain cutoff w maxIter s u v m e h imax,
  accurate a fwhm u v m e h -> e < 1 -> length dirty = length phi -> peak_at RMSF imax ->
  cleanloop_fl a ends dirty RMSF phi fwhm gain cutoff (Some w) maxIter = POk s ->
  (iters s <= maxIter)%nat /\ (iters s = maxIter \/
    forall j, (j < length phi)%nat -> nth j (cc s) czero <> czero -> (1 - e) * Cmod (nth j (resid s) czero) < w).
Proof. exact @fl_stops_window. Qed.
Print Assumptions C83_stops_window.


(** C83. One source plus noise: components at its channel only, with bounds on component, residual and iterations. *)
Theorem C83_source : forall a ends RMSF phi fwhm g u v m e h rho d t imax i0 maxIter A dirty cutoff window s,
  accurate a fwhm u v m e h -> roomy (length phi) (length RMSF) imax -> peak_at RMSF imax -> sidelobes RMSF imax rho ->
  0 < g <= 1 -> e < 1 -> 0 <= rho < 1 -> 0 <= d -> peak_err g u v m < g ->
  noisy_source RMSF imax (length phi) i0 A d dirty ->
  0 < t <= cutoff -> (forall w, window = Some w -> t <= w) ->
  (1 - e ^ 2) * (1 + rho) * resid_err g u v m (Cmod A) d maxIter < t * ((1 - e) - (1 + e) * rho) ->
  cleanloop_fl a ends dirty RMSF phi fwhm g cutoff window maxIter = POk s ->
  (iters s <= maxIter)%nat /\
  (forall j, (j < length phi)%nat -> j <> i0 -> nth j (cc s) czero = czero) /\
  Cmod (nth i0 (cc s) czero - A * RtoC (1 - (1 - g) ^ iters s))%C <= comp_err g u v m (Cmod A) d (iters s) /\
  (forall j, (j < length phi)%nat ->
     Cmod (nth j (resid s) czero - A * RtoC ((1 - g) ^ iters s) * zsample RMSF (Z.of_nat imax + Z.of_nat j - Z.of_nat i0))%C <= resid_err g u v m (Cmod A) d (iters s)) /\
  (forall N, (1 + e) * ((1 - g + peak_err g u v m) ^ N * (Cmod A + d)) < t -> (iters s <= N)%nat).
Proof. exact @fl_single. Qed.
Print Assumptions C83_source.


(** C83. Without rounding the result is that of the exact model. *)
Theorem C83_exact : forall dirty RMSF phi fwhm gain cutoff window maxIter,
  let fp := fwhm / (nth 1 phi 0 - nth 0 phi 0) in
  cleanloop_fl exact (fun i => (py_int (INR i - fp / 2), py_int (INR i + fp / 2))) dirty RMSF phi fwhm gain cutoff window maxIter =
  cleanloop dirty RMSF phi fwhm gain cutoff window maxIter.
Proof. exact @exact_is_clean. Qed.
Print Assumptions C83_exact.


(** C83. One source in single precision, in figures. *)
Theorem C83_single : forall absf gaussf ends RMSF phi fwhm hg g imax i0 maxIter A dirty cutoff window s,
  (forall z, Rabs (absf z - Cmod z) <= / 4194304 * Cmod z) ->
  (forall mu x, Rabs (gaussf mu fwhm x - beam fwhm (x - mu)) <= hg) ->
  roomy (length phi) (length RMSF) imax -> peak_at RMSF imax -> sidelobes RMSF imax (97 / 100) ->
  9 / 100 <= g <= 11 / 100 -> A <> czero ->
  noisy_source RMSF imax (length phi) i0 A (Cmod A / 1000000) dirty ->
  Cmod A / 2000 <= cutoff -> (forall w, window = Some w -> Cmod A / 2000 <= w) -> (maxIter <= 1000)%nat ->
  cleanloop_fl (rounded f32 f64 absf gaussf) ends dirty RMSF phi fwhm g cutoff window maxIter = POk s ->
  (iters s <= 81)%nat /\
  (forall j, (j < length phi)%nat -> j <> i0 -> nth j (cc s) czero = czero) /\
  Cmod (nth i0 (cc s) czero - A * RtoC (1 - (1 - g) ^ iters s))%C <= 7 / 1000000 * Cmod A /\
  (forall j, (j < length phi)%nat ->
     Cmod (nth j (resid s) czero - A * RtoC ((1 - g) ^ iters s) * zsample RMSF (Z.of_nat imax + Z.of_nat j - Z.of_nat i0))%C <= 4 / 1000000 * Cmod A).
Proof. exact @single_precision. Qed.
Print Assumptions C83_single.
Example C83_single_nonvacuous : (forall z, Rabs (Cmod z - Cmod z) <= / 4194304 * Cmod z) /\ (forall mu x, Rabs (beam 1 (x - mu) - beam 1 (x - mu)) <= 0) /\
  roomy (length k_phi) (length k_rm) 4 /\ peak_at k_rm 4 /\ sidelobes k_rm 4 (97 / 100) /\ RtoC 1 <> czero /\
  noisy_source k_rm 4 (length k_phi) 1 (RtoC 1) (Cmod (RtoC 1) / 1000000) k_dirty /\
  exists s, cleanloop_fl (rounded f32 f64 Cmod (fun m f x => beam f (x - m))) (fun i => (Z.of_nat i - 1, Z.of_nat i + 1)%Z) k_dirty k_rm k_phi 1 (1 / 10) (1 / 1000) (Some (1 / 1000)) 1000 = POk s.
Proof.
  split; [apply k_abs|]. split; [intros; apply k_beam|]. split; [apply k_roomy|]. split; [apply k_peak|]. split; [apply k_lobes|].
  split; [intros H; injection H; lra|]. split; [apply k_source|]. apply (fl_total _ _ _ _ _ _ _ _ _ _ 4); [reflexivity|cbn; lia|apply k_peak|apply k_roomy].
Qed.

