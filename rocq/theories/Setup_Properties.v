(** Depth grid, header axis, noise and Stokes I reference value: the theorems that count. *)
From Coq Require Import Reals List Arith ZArith Lia Lra Bool Permutation.
Set Warnings "-ambiguous-paths".
From Coquelicot Require Import Coquelicot.
From Verif Require Import PyRes CBase NdArray PyList Synth_Spec Clean_Spec Setup_Model Setup_Spec Setup_Proofs.
Import ListNotations.
Local Open Scope R_scope.

(** C09. Odd length, zero in the centre, antisymmetric, constant spacing, reaching |phiMax| within |dPhi|/2. *)
Theorem C09_depth_grid_properties : forall phiMax dPhi phi, depth_grid_1D phiMax dPhi = POk phi ->
  exists h, length phi = (2 * h + 1)%nat /\ nth h phi 0 = 0 /\
    (forall k, (k < length phi)%nat -> nth (length phi - 1 - k) phi 0 = - nth k phi 0) /\
    (forall k, (S k < length phi)%nat -> nth (S k) phi 0 - nth k phi 0 = dPhi) /\
    Rabs (Rabs (nth 0 phi 0) - Rabs phiMax) <= Rabs dPhi / 2.
Proof. exact depth_grid_properties. Qed.
Print Assumptions C09_depth_grid_properties.
Example C09_nonvacuous : exists phi, depth_grid_1D 100 7 = POk phi.
Proof. destruct (depth_grid_1D_spec 100 7) as (phi & h & E & _); [lra|]. eauto. Qed.


(** C09. A grid exists for every non-zero step. *)
Theorem C09_depth_grid_exists : forall phiMax dPhi, dPhi <> 0 ->
  exists phi h, depth_grid_1D phiMax dPhi = POk phi /\ odd_centred phi h dPhi /\
    Rabs (INR h * Rabs dPhi - Rabs phiMax) <= Rabs dPhi / 2.
Proof. exact depth_grid_1D_spec. Qed.
Print Assumptions C09_depth_grid_exists.
Example C09_exists_nonvacuous : -7 <> 0.
Proof. lra. Qed.


(** C09. rmsynth1d and rmsynth3d build the same grid. *)
Theorem C09_depth_grid_same : forall phiMax dPhi, depth_grid_3D phiMax dPhi = depth_grid_1D phiMax dPhi.
Proof. exact depth_grid_same. Qed.
Print Assumptions C09_depth_grid_same.


(** C09. A zero step raises. *)
Theorem C09_depth_grid_zero_step : forall phiMax, depth_grid_1D phiMax 0 = PErr /\ depth_grid_3D phiMax 0 = PErr.
Proof. exact depth_grid_zero_step. Qed.
Print Assumptions C09_depth_grid_zero_step.


(** C09. It is a grid of the kind the synthesis, RMSF and CLEAN theorems ask for. *)
Theorem C09_tool_grid_centred : forall phiMax dPhi phi, depth_grid_1D phiMax dPhi = POk phi -> (2 <= length phi)%nat ->
  exists h, centred_grid phi h dPhi.
Proof. exact tool_grid_centred. Qed.
Print Assumptions C09_tool_grid_centred.
Example C09_centred_nonvacuous : exists phi, depth_grid_1D 100 7 = POk phi /\ (2 <= length phi)%nat.
Proof.
  destruct (depth_grid_1D_spec 100 7) as (phi & h & E & [L _] & C); [lra|]. exists phi. split; [exact E|].
  destruct h; [|lia]. exfalso. cbn [INR] in C. rewrite (Rabs_pos_eq 7), (Rabs_pos_eq 100) in C by lra. rewrite Rabs_left in C; lra.
Qed.


(** C09. Defaults: nSamples samples per RMSF width and at least ten widths on each side. *)
Theorem C09_default_grid : forall l2 nSamples d p phi mx mn,
  is_max l2 mx -> is_min l2 mn -> mn < mx -> 0 < nSamples ->
  grid_params l2 false None None nSamples = POk (d, p) -> depth_grid_1D p d = POk phi ->
  let fwhm := 38 / 10 / (mx - mn) in
  d * nSamples = fwhm /\ 10 * fwhm - d / 2 <= Rabs (nth 0 phi 0) /\ 20 * nSamples <= INR (length phi).
Proof. exact default_grid. Qed.
Print Assumptions C09_default_grid.
Example C09_default_nonvacuous : exists d p phi, is_max [1; 2; 4] 4 /\ is_min [1; 2; 4] 1 /\
  grid_params [1; 2; 4] false None None 10 = POk (d, p) /\ depth_grid_1D p d = POk phi.
Proof.
  assert (M : is_max [1; 2; 4] 4) by (split; [cbn; auto|intros x [<-|[<-|[<-|[]]]]; lra]).
  assert (N : is_min [1; 2; 4] 1) by (split; [cbn; auto|intros x [<-|[<-|[<-|[]]]]; lra]).
  assert (G : grid_params [1; 2; 4] false None None 10 = POk (38 / 10 / (4 - 1) / 10, Rmax (sqrt 3 / 2) (38 / 10 / (4 - 1) * 10))).
  { unfold grid_params. rewrite (rmax_list_unique _ _ M), (rmin_list_unique _ _ N).
    rewrite (rmax_list_unique _ 2).
    - destruct Req_EM_T; [lra|]. destruct Req_EM_T; [lra|]. reflexivity.
    - cbn [np_diff map combine tl fst snd]. rewrite !Rabs_pos_eq by lra. split; [right; left; lra|]. intros x [<-|[<-|[]]]; lra. }
  destruct (depth_grid_1D_spec (Rmax (sqrt 3 / 2) (38 / 10 / (4 - 1) * 10)) (38 / 10 / (4 - 1) / 10)) as (phi & h & E & _); [lra|].
  do 3 eexists. repeat split; try apply M; try apply N; try exact G; exact E.
Qed.


(** C11. Write then read returns the array. *)
Theorem C11_depth_axis_round_trip : forall phi start step, (2 <= length phi)%nat -> 0 < step -> uniform phi start step ->
  exists a, write_depth_axis phi = POk a /\ fits_make_lin_axis a = POk phi /\ NAXISn a = Z.of_nat (length phi).
Proof. exact depth_axis_round_trip. Qed.
Print Assumptions C11_depth_axis_round_trip.
Example C11_nonvacuous : (2 <= length [-2; 1; 4]%R)%nat /\ 0 < 3 /\ uniform [-2; 1; 4] (-2) 3.
Proof. split; [cbn; lia|]. split; [lra|]. intros [|[|[|k]]] H; cbn in *; lra || lia. Qed.


(** C11. In particular for the grids the tools build. *)
Theorem C11_tool_grid_round_trip : forall phiMax dPhi phi, 0 < dPhi -> depth_grid_3D phiMax dPhi = POk phi -> (2 <= length phi)%nat ->
  exists a, write_depth_axis phi = POk a /\ fits_make_lin_axis a = POk phi.
Proof. exact tool_grid_round_trip. Qed.
Print Assumptions C11_tool_grid_round_trip.
Example C11_tool_nonvacuous : exists phi, depth_grid_3D 100 7 = POk phi /\ (2 <= length phi)%nat.
Proof. rewrite depth_grid_same. exact C09_centred_nonvacuous. Qed.


(** C11. Reading: sample k is the world coordinate of pixel k+1. *)
Theorem C11_lin_axis_world : forall n crpix crval cdelt, 0 < cdelt -> (1 <= n)%nat ->
  exists l, fits_make_lin_axis (mk_axis (Z.of_nat n) crpix crval cdelt) = POk l /\ length l = n /\
    forall k, (k < n)%nat -> nth k l 0 = world crval crpix cdelt (S k).
Proof. exact lin_axis_world. Qed.
Print Assumptions C11_lin_axis_world.


(** C11. Finding: a decreasing grid (negative dPhi) is written without complaint but cannot be read back. *)
Theorem C11_depth_axis_decreasing_refuted : forall phi start step, (2 <= length phi)%nat -> step < 0 -> uniform phi start step ->
  exists a, write_depth_axis phi = POk a /\
    fits_make_lin_axis a = (if Nat.eqb (length phi) 2 then POk [] else PErr).
Proof. exact depth_axis_decreasing. Qed.
Print Assumptions C11_depth_axis_decreasing_refuted.
Example C11_decreasing_nonvacuous : uniform [4; 1; -2] 4 (-3).
Proof. intros [|[|[|k]]] H; cbn in *; lra || lia. Qed.


(** C49. Inverse-variance weights. *)
Theorem C49_noise_variance_weights : forall I0 s, s <> [] -> (forall x, In x s -> 0 < x) ->
  exists w, weights_1D true (length s) (map Some s) = POk w /\
    dFDFth I0 w (map Some s) = Some (Rabs I0 / sqrt (rsum (map (fun x => / x ^ 2) s))).
Proof. exact noise_variance_weights. Qed.
Print Assumptions C49_noise_variance_weights.
Example C49_nonvacuous : [1; 2; 3] <> [] /\ forall x, In x [1; 2; 3] -> 0 < x.
Proof. split; [discriminate|]. intros x [<-|[<-|[<-|[]]]]; lra. Qed.


(** C49. Uniform weights. *)
Theorem C49_noise_uniform_weights : forall I0 s, s <> [] ->
  exists w, weights_1D false (length s) (map Some s) = POk w /\
    dFDFth I0 w (map Some s) = Some (Rabs I0 * sqrt (rsum (map (fun x => x ^ 2) s)) / INR (length s)).
Proof. exact noise_uniform_weights. Qed.
Print Assumptions C49_noise_uniform_weights.


(** C49. No weights give less noise than inverse-variance weights. *)
Theorem C49_noise_optimal : forall I0 w s v, length w = length s -> (forall x, In x s -> 0 < x) -> 0 < rsum w ->
  dFDFth I0 (map Some w) (map Some s) = Some v ->
  Rabs I0 / sqrt (rsum (map (fun x => / x ^ 2) s)) <= v.
Proof. exact noise_optimal. Qed.
Print Assumptions C49_noise_optimal.
Example C49_optimal_nonvacuous : exists v, 0 < rsum [1; 2] /\ dFDFth 3 (map Some [1; 2]) (map Some [1; 1]) = Some v.
Proof. assert (0 < rsum [1; 2]) by (rewrite !rsum_cons, rsum_nil; lra). eexists. split; [auto|]. apply dFDFth_finite; auto. Qed.


(** C49. The quoted noise is the one of the real and imaginary parts of the Faraday spectrum when the channel values have independent noise. *)
Theorem C49_FDF_noise_propagates : forall l0 phi ch, 0 < rsum (map n_w ch) -> exists ab cd,
  (forall P, length P = length ch ->
    let F := FDF_spec (map (fun x => mk_chan (n_l2 (fst x)) (n_w (fst x)) (snd x)) (combine ch P)) l0 phi in
    fst F = lin_form ab P /\ snd F = lin_form cd P) /\
  Some (form_noise ab (map n_s ch)) = dFDFth 1 (map (fun c => Some (n_w c)) ch) (map (fun c => Some (n_s c)) ch) /\
  form_noise cd (map n_s ch) = form_noise ab (map n_s ch).
Proof. exact FDF_noise_propagates. Qed.
Print Assumptions C49_FDF_noise_propagates.
Example C49_propagates_nonvacuous : 0 < rsum (map n_w [mk_nchan 1 1 1; mk_nchan 2 3 1]).
Proof. cbn [map n_w]. rewrite !rsum_cons, rsum_nil. lra. Qed.


(** C49. Finding: with uniform weights the flagged channels count in the sum of weights, so that the noise is understated (by two here). *)
Theorem C49_noise_flagged_refuted : let dqu := [Some 1; None; Some 1; None] in
  exists w, weights_1D false 4 dqu = POk w /\
    dFDFth 1 w dqu = Some (propagated_noise [(1, 1); (1, 1)] / 2).
Proof. exact noise_flagged_refuted. Qed.
Print Assumptions C49_noise_flagged_refuted.


(** C50. Ascending axis: the channel itself, or the mean of the two bracketing channels. *)
Theorem C50_Ifreq0_ascending : forall freq I freq0, ascending freq -> length I = length freq ->
  (1 <= length freq)%nat -> nth 0 freq 0 <= freq0 <= nth (length freq - 1) freq 0 ->
  exists v, Ifreq0_3D freq I freq0 = POk v /\
    ((exists k, (k < length freq)%nat /\ nth k freq 0 = freq0 /\ v = nth k I 0) \/
     (exists k, (S k < length freq)%nat /\ nth k freq 0 < freq0 < nth (S k) freq 0 /\ v = (nth k I 0 + nth (S k) I 0) / 2)).
Proof. exact Ifreq0_ascending. Qed.
Print Assumptions C50_Ifreq0_ascending.
Example C50_nonvacuous : ascending [1; 2; 4] /\ nth 0 [1; 2; 4] 0 <= 3 <= nth (length [1; 2; 4] - 1) [1; 2; 4] 0.
Proof. split; [|cbn; lra]. intros i j H. cbn in H. destruct i as [|[|[|i]]], j as [|[|[|j]]]; cbn; lra || lia. Qed.


(** C50. Its error against linear interpolation is at most half the difference of the two channels. *)
Theorem C50_Ifreq0_error_partial : forall freq I freq0 v k, ascending freq -> length I = length freq ->
  (S k < length freq)%nat -> nth k freq 0 <= freq0 <= nth (S k) freq 0 -> Ifreq0_3D freq I freq0 = POk v ->
  Rabs (v - lin_interp freq I k freq0) <= Rabs (nth (S k) I 0 - nth k I 0) / 2.
Proof. exact Ifreq0_error. Qed.
Print Assumptions C50_Ifreq0_error_partial.


(** C50. It is the linear interpolation halfway between two channels. *)
Theorem C50_Ifreq0_midpoint_partial : forall freq I k, ascending freq -> length I = length freq -> (S k < length freq)%nat ->
  Ifreq0_3D freq I ((nth k freq 0 + nth (S k) freq 0) / 2) = POk (lin_interp freq I k ((nth k freq 0 + nth (S k) freq 0) / 2)).
Proof. exact Ifreq0_midpoint. Qed.
Print Assumptions C50_Ifreq0_midpoint_partial.


(** C50. Finding: the interpolation weight is always one half. *)
Theorem C50_Ifreq0_interp_refuted : ascending [1; 2] /\ Ifreq0_3D [1; 2] [0; 10] (11 / 10) = POk 5 /\ lin_interp [1; 2] [0; 10] 0 (11 / 10) = 1.
Proof. exact Ifreq0_interp_refuted. Qed.
Print Assumptions C50_Ifreq0_interp_refuted.


(** C50. Finding: descending axes use the wrong neighbour, wrap to the other end, or raise. *)
Theorem C50_Ifreq0_descending_refuted : Ifreq0_3D [3; 2; 1] [100; 2; 1] (19 / 10) = POk 51 /\
  Ifreq0_3D [3; 2; 1] [2; 3; 100] (29 / 10) = POk 51 /\
  Ifreq0_3D [3; 2; 1] [3; 2; 1] (11 / 10) = PErr.
Proof. exact Ifreq0_descending_refuted. Qed.
Print Assumptions C50_Ifreq0_descending_refuted.

