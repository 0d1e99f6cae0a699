(** The Gaussian fitted to the main lobe of the spread function: claim C77. *)
From Coq Require Import Reals List Arith ZArith Lia Lra Bool Permutation.
Set Warnings "-ambiguous-paths".
From Coquelicot Require Import Coquelicot.
From Verif Require Import CBase PyRes NdArray Synth_Model Synth_Spec Clean_Spec Mp_Model Ref_Spec Lobe_Spec Lobe_Model Lobe_Proofs Lobe_Fit Lobe_Example.
Import ListNotations.
Local Open Scope R_scope.

(** C77. The samples taken for the lobe are those joined to the peak above the threshold, when the lobe is symmetric. *)
Theorem C77_lobe : forall t y k s, first_peak y k -> falls_after t y k s -> mirrored y k s ->
  exists msk, detect_peak (map Some y) t = POk msk /\ length msk = length y /\
    forall i, (i < length y)%nat -> (nth i msk false = true <-> joined t y k i).
Proof. exact @detect_lobe. Qed.
Print Assumptions C77_lobe.
Example C77_lobe_nonvacuous : first_peak [1 / 5; 1 / 2; 1; 1 / 2; 1 / 5] 2 /\ falls_after (4 / 10) [1 / 5; 1 / 2; 1; 1 / 2; 1 / 5] 2 2 /\ mirrored [1 / 5; 1 / 2; 1; 1 / 2; 1 / 5] 2 2.
Proof.
  split; [split; [cbn; lia|split]|split; [split; [cbn; lia|split]|split; [lia|]]].
  - intros i Hi. do 5 (destruct i as [|i]; [cbn; lra|]). cbn in Hi. lia.
  - intros i Hi. do 2 (destruct i as [|i]; [cbn; lra|]). lia.
  - cbn. lra.
  - intros j Hj. do 2 (destruct j as [|j]; [cbn; lra|]). lia.
  - intros j Hj. do 3 (destruct j as [|j]; [reflexivity|]). lia.
Qed.


(** C77. No lobe is found exactly if nothing from the peak on is below the threshold. *)
Theorem C77_no_lobe : forall t y,
  detect_peak (map Some y) t = PErr <-> forall k, first_peak y k -> forall i, (k <= i < length y)%nat -> t <= nth i y 0.
Proof. exact @detect_raises. Qed.
Print Assumptions C77_no_lobe.


(** C77. One sample above the threshold: the fit is not done. *)
Theorem C77_one_sample : forall x y t u k, first_peak y k -> falls_after t y k 1 -> u <= nth k y 0 -> (length y <= length x)%nat ->
  exists o, o_status o = 0%Z /\ forall fuel rest, fit_rmsf fuel rest x (map Some y) t u = Some o.
Proof. exact @fit_one_sample. Qed.
Print Assumptions C77_one_sample.
Example C77_one_sample_nonvacuous : first_peak [0; 1; 0] 1 /\ falls_after (4 / 10) [0; 1; 0] 1 1.
Proof.
  split; [split; [cbn; lia|split]|split; [cbn; lia|split]].
  - intros i Hi. do 3 (destruct i as [|i]; [cbn; lra|]). cbn in Hi. lia.
  - intros i Hi. destruct i; [cbn; lra|lia].
  - cbn. lra.
  - intros j Hj. destruct j; [cbn; lra|lia].
Qed.


(** C77. A fit that ended is no further from the samples than the Gaussian it starts from. *)
Theorem C77_fit : forall fuel x y t u k s o, first_peak y k -> falls_after t y k s -> (2 <= s <= k + 1)%nat -> u <= nth k y 0 ->
  (length y <= length x)%nat ->
  (forall rest, fit_rmsf fuel rest x (map Some y) t u = Some o) ->
  let idx := used u y k s in let xs := take idx x in let ys := take idx y in
  exists e, extent xs e /\ (1 <= o_status o <= 8)%Z /\
    distance xs ys (o_params o 0%nat) (o_params o 1%nat) (o_params o 2%nat) <= distance xs ys 1 (nth k x 0) e /\
    distance xs ys (o_params o 0%nat) (o_params o 1%nat) (o_params o 2%nat) <= o_fnorm o.
Proof. exact @fit_lobe. Qed.
Print Assumptions C77_fit.
Example C77_fit_nonvacuous : first_peak [1 / 5; 1 / 2; 1; 1 / 2; 1 / 5] 2 /\ falls_after (4 / 10) [1 / 5; 1 / 2; 1; 1 / 2; 1 / 5] 2 2 /\ mirrored [1 / 5; 1 / 2; 1; 1 / 2; 1 / 5] 2 2.
Proof.
  split; [split; [cbn; lia|split]|split; [split; [cbn; lia|split]|split; [lia|]]].
  - intros i Hi. do 5 (destruct i as [|i]; [cbn; lra|]). cbn in Hi. lia.
  - intros i Hi. do 2 (destruct i as [|i]; [cbn; lra|]). lia.
  - cbn. lra.
  - intros j Hj. do 2 (destruct j as [|j]; [cbn; lra|]). lia.
  - intros j Hj. do 3 (destruct j as [|j]; [reflexivity|]). lia.
Qed.


(** C77. It ends if that Gaussian describes the samples no worse than zero does. *)
Theorem C77_ends : forall x y t u k s, first_peak y k -> falls_after t y k s -> (2 <= s <= k + 1)%nat -> u <= nth k y 0 ->
  (length y <= length x)%nat ->
  let idx := used u y k s in let xs := take idx x in let ys := take idx y in
  (forall e, extent xs e -> distance xs ys 1 (nth k x 0) e <= rsum (map (fun v => v ^ 2) ys)) ->
  exists N o, forall fuel rest, (N <= fuel)%nat -> fit_rmsf fuel rest x (map Some y) t u = Some o.
Proof. exact @fit_lobe_ends. Qed.
Print Assumptions C77_ends.


(** C77. Width and status of every pixel: the fit if it worked, the analytic width and -1 if not. *)
Theorem C77_pixels : forall fit l2 phi wA msk lam0in double fitRMSF r,
  valid_rmsf l2 wA msk -> get_rmsf_planes fit l2 phi wA (Some msk) lam0in double fitRMSF = RetOk r ->
  exists fw0, range_width (38 / 10) l2 fw0 /\
  forall p, (p < mpix msk)%nat ->
    let curve := map (fun k => nth (k * mpix msk + p) (flat (RMSFcube r)) None) (seq 0 (length (phi2Arr r))) in
    (nth p (flat (statArr r)) 0%Z, nth p (flat (fwhmRMSFArr r)) None) =
    fit_or (if fitRMSF then fit (phi2Arr r) curve else None) fw0.
Proof. exact @rmsf_widths. Qed.
Print Assumptions C77_pixels.
Example C77_pixels_nonvacuous : forall fit ft, valid_rmsf t_l2 None t_msk /\
  exists r, get_rmsf_planes fit t_l2 t_phi None (Some t_msk) (Some (3 / 2)) true ft = RetOk r.
Proof. intros. split; [exact t_valid|]. destruct (t_runs fit ft) as (r & E & _). now exists r. Qed.


(** C77. On a grid symmetric about zero without aliases: the lobe fitted is the one at zero, fitted if it has samples besides the peak and stays above the lines from its peak to 4/10. *)
Theorem C77_width : forall (l2 phi : list R) (h : nat) (step : R) (wA : option (list (option R))) (msk : nd bool) (lam0in : option R) (p j1 j2 : nat),
  valid_rmsf l2 wA msk -> centred_grid phi h step -> 0 < step -> nonneg_w wA -> (p < mpix msk)%nat ->
  (j1 < length l2)%nat -> (j2 < length l2)%nat ->
  at2 (mpix msk) false (flat msk) j1 p = false -> at2 (mpix msk) false (flat msk) j2 p = false ->
  0 < nth j1 (weights_of (length l2) wA) 0 -> 0 < nth j2 (weights_of (length l2) wA) 0 ->
  0 < INR (length phi) * step * Rabs (nth j1 l2 0 - nth j2 l2 0) < PI ->
  forall (fit : list R -> list (option C) -> option (Z * R)) (ft : bool) (r : rmsf_results) (l0 : R) (rm : list C),
  get_rmsf_planes fit l2 phi wA (Some msk) lam0in true ft = RetOk r -> rmsf_lam0 r = Some l0 ->
  length rm = length (phi2Arr r) -> has_spec (mpix msk) p (flat (RMSFcube r)) rm ->
  exists fw0, range_width (38 / 10) l2 fw0 /\
    let answer fuel rest := match get_rmsf_planes (rmsf_fit fuel rest false) l2 phi wA (Some msk) lam0in true true with
                            | RetOk r' => Some (nth p (flat (statArr r')) 0%Z, nth p (flat (fwhmRMSFArr r')) None)
                            | _ => None end in
    ((forall i, (length phi <= i < length rm)%nat -> 4 / 10 <= nth i (map Cmod rm) 0) \/ falls_after (4 / 10) (map Cmod rm) (length phi) 1 ->
       forall fuel rest, answer fuel rest = Some ((-1)%Z, fw0)) /\
    (forall s, (2 <= s)%nat -> falls_after (4 / 10) (map Cmod rm) (length phi) s ->
       (forall j, (j < s)%nat -> 1 - 6 / 10 * (INR j / INR (s - 1)) <= nth (length phi + j) (map Cmod rm) 0) ->
       exists N st a b w, (1 <= st <= 8)%Z /\
         distance (lobe_axis (length phi) s step) (take (around (length phi) s) (map Cmod rm)) a b w <= distance (lobe_axis (length phi) s step) (take (around (length phi) s) (map Cmod rm)) 1 0 (2 * (INR (s - 1) * step)) /\
         forall fuel rest, (N <= fuel)%nat -> answer fuel rest = Some (st, Some w)).
Proof. exact @lobe_width. Qed.
Print Assumptions C77_width.
Example C77_width_nonvacuous : valid_rmsf t_l2 None t_msk /\ centred_grid t_phi 2 t_step /\ 0 < t_step /\
  0 < INR (length t_phi) * t_step * Rabs (nth 0 t_l2 0 - nth 1 t_l2 0) < PI /\
  (forall fit ft, exists r, get_rmsf_planes fit t_l2 t_phi None (Some t_msk) (Some (3 / 2)) true ft = RetOk r /\
     rmsf_lam0 r = Some (3 / 2) /\ length t_rm = length (phi2Arr r) /\ has_spec (mpix t_msk) 0 (flat (RMSFcube r)) t_rm) /\
  falls_after (4 / 10) (map Cmod t_rm) (length t_phi) 3 /\
  forall j, (j < 3)%nat -> 1 - 6 / 10 * (INR j / INR (3 - 1)) <= nth (length t_phi + j) (map Cmod t_rm) 0.
Proof.
  split; [exact t_valid|]. split; [exact t_grid|]. split; [exact t_step_pos|]. split; [exact t_two|]. split; [exact t_runs|exact t_falls].
Qed.


(** C77. The same for the modulus and for the real part, any peak. *)
Theorem C77_parts : forall fuel (real : bool) x rm k s st w,
  let y := map (if real then Re else Cmod) rm in
  first_peak y k -> falls_after (4 / 10) y k s -> (2 <= s <= k + 1)%nat -> (length rm <= length x)%nat -> 4 / 10 <= nth k y 0 ->
  (forall rest, rmsf_fit fuel rest real x (map Some rm) = Some (st, w)) ->
  let idx := used (4 / 10) y k s in
  exists a b e, extent (take idx x) e /\ (1 <= st <= 8)%Z /\
    distance (take idx x) (take idx y) a b w <= distance (take idx x) (take idx y) 1 (nth k x 0) e.
Proof. exact @part_fit. Qed.
Print Assumptions C77_parts.


(** C77. Finding: a peak nearer to the first sample than to its fall is left out of its own lobe. *)
Theorem C77_near_start_refuted : forall t y k s, first_peak y k -> falls_after t y k s -> (k + 1 < s)%nat ->
  exists msk, detect_peak (map Some y) t = POk msk /\ nth k msk false = false /\
    forall i, (i < length y)%nat -> (nth i msk false = true <-> (length y + k + 1 <= i + s /\ i < k + s)%nat).
Proof. exact @detect_near_start. Qed.
Print Assumptions C77_near_start_refuted.
Example C77_near_start_refuted_nonvacuous : first_peak [1; 1 / 2; 0; 0] 0 /\ falls_after (4 / 10) [1; 1 / 2; 0; 0] 0 2.
Proof.
  split; [split; [cbn; lia|split]|split; [cbn; lia|split]].
  - intros i Hi. do 4 (destruct i as [|i]; [cbn; lra|]). cbn in Hi. lia.
  - intros i Hi. lia.
  - cbn. lra.
  - intros j Hj. do 2 (destruct j as [|j]; [cbn; lra|]). lia.
Qed.


(** C77. Finding: and then nothing is fitted, unless the fall is in the second half. *)
Theorem C77_near_start_fails_refuted : forall fuel rest x y t u k s, first_peak y k -> falls_after t y k s -> (k + 1 < s)%nat -> (2 * s <= length y + 1)%nat ->
  fit_rmsf fuel rest x (map Some y) t u = None.
Proof. exact @near_start_fails. Qed.
Print Assumptions C77_near_start_fails_refuted.


(** C77. The fit does not tell the sign of the width. *)
Theorem C77_sign : forall xs ys a b w, distance xs ys a b (- w) = distance xs ys a b w.
Proof. exact @width_sign. Qed.
Print Assumptions C77_sign.

