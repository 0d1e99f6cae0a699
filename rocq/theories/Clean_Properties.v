(** RM-CLEAN: the theorems that count. *)
From Coq Require Import Reals List Arith ZArith Lia Lra Bool Permutation.
Set Warnings "-ambiguous-paths".
From Coquelicot Require Import Coquelicot.
From Verif Require Import PyRes CBase NdArray PyList PyList_Proofs Interp_Model Synth_Model Synth_Spec Synth_Proofs Synth_Laws
  Rmsf_Proofs Clean_Model Clean_Spec Clean_Proofs Clean_Cube Clean_Laws StokesI_Model CleanTop_Model Clean_Grid Clean_More Rmsf_Peak Clean_Total.
Import ListNotations.
Local Open Scope R_scope.

(** C10. The doubled grid of an odd, centred, uniform grid: same spacing, contains the grid, centred on depth zero, and long enough for every shift. *)
Theorem C10_rmsf_grid_fits_clean : forall phi h step,
  centred_grid phi h step ->
  exists phi2, phi2_grid true phi = Some phi2 /\
    centred_grid phi2 (length phi) step /\
    length phi2 = (length phi + 2 * (h + 1))%nat /\
    (forall k, (k < length phi)%nat -> nth (h + 1 + k) phi2 0 = nth k phi 0) /\
    nth (length phi) phi2 0 = 0 /\
    roomy (length phi) (length phi2) (length phi).
Proof. exact rmsf_grid_fits_clean. Qed.
Print Assumptions C10_rmsf_grid_fits_clean.
Example C10_nonvacuous : centred_grid y_phi 1 (1/10).
Proof. apply y_grid. Qed.


(** C12 C13. For every pixel: dirty = residual + components through the shifted RMSF, and clean = components through a Gaussian of the given width + residual, whatever the history, the window and the order of the workers. *)
Theorem C12_C13_rmclean_conserves_restores : forall dirty phi RMSF phi2 fwhm cutoff maxIter gain msk pool window r p d rm fw imax,
  do_rmclean_hogbom dirty phi RMSF phi2 fwhm cutoff maxIter gain msk pool window = CRetOk r ->
  0 < cutoff ->
  let m := prodn (tl (shape dirty)) in
  any_order (n_loud m (length phi) (flat dirty) cutoff) pool ->
  (p < m)%nat -> length d = length phi -> length rm = length phi2 ->
  has_spec m p (flat dirty) d -> has_spec m p (flat RMSF) rm -> nth p fwhm None = Some fw -> fw <> 0 ->
  peak_at rm imax -> roomy (length phi) (length phi2) imax ->
  exists res comp clean,
    length res = length phi /\ length comp = length phi /\ length clean = length phi /\
    has_spec m p (flat (residFDF r)) res /\ has_spec m p (flat (ccArr r)) comp /\
    has_spec m p (flat (cleanFDF r)) clean /\
    forall j, (j < length phi)%nat ->
      nth j d czero = (nth j res czero + response rm imax comp j)%C /\
      nth j clean czero = (restored fw phi comp j + nth j res czero)%C.
Proof. exact rmclean_conserves_restores. Qed.
Print Assumptions C12_C13_rmclean_conserves_restores.
Example C12_C13_nonvacuous : exists r,
  do_rmclean_hogbom (mk_nd [5%nat] (map Some x_d)) x_phi (mk_nd [11%nat] (map Some x_rm)) x_phi2 [Some 4] 5 10 1 None None (Some (1/2)) = CRetOk r /\
  any_order (n_loud 1 5 (map Some x_d) 5) None /\ has_spec 1 0 (map Some x_d) x_d /\ has_spec 1 0 (map Some x_rm) x_rm /\
  peak_at x_rm 5 /\ roomy (length x_phi) (length x_phi2) 5.
Proof.
  destruct (x_hogbom None (Some (1/2)) I (or_intror eq_refl)) as [r E]. exists r. split; [exact E|].
  split; [exact I|]. split; [apply x_spec|]. split; [apply x_spec|]. split; [apply x_peak|apply x_roomy].
Qed.


(** C14. Without a window: at most maxIter iterations, and fewer only if every residual is below the cutoff. *)
Theorem C14_rmclean_stops : forall dirty phi RMSF phi2 fwhm cutoff maxIter gain msk r p d rm fw,
  do_rmclean_hogbom dirty phi RMSF phi2 fwhm cutoff maxIter gain msk None None = CRetOk r ->
  0 < cutoff ->
  let m := prodn (tl (shape dirty)) in
  (p < m)%nat -> length d = length phi -> length rm = length phi2 ->
  has_spec m p (flat dirty) d -> has_spec m p (flat RMSF) rm -> nth p fwhm None = Some fw ->
  exists res, length res = length phi /\ has_spec m p (flat (residFDF r)) res /\
    (nth p (flat (iterCountArr r)) 0 <= maxIter)%nat /\
    (nth p (flat (iterCountArr r)) 0%nat = maxIter \/ all_below cutoff res).
Proof. exact rmclean_stops. Qed.
Print Assumptions C14_rmclean_stops.
Example C14_nonvacuous : exists r,
  do_rmclean_hogbom (mk_nd [5%nat] (map Some x_d)) x_phi (mk_nd [11%nat] (map Some x_rm)) x_phi2 [Some 4] 5 10 1 None None None = CRetOk r.
Proof. apply (x_hogbom None None I). auto. Qed.


(** C14. With a window: at most maxIter iterations in both phases, and fewer only if the residual is below the window threshold wherever there is a component. *)
Theorem C14_rmclean_stops_window : forall dirty phi RMSF phi2 fwhm cutoff maxIter gain msk w r p d rm fw,
  do_rmclean_hogbom dirty phi RMSF phi2 fwhm cutoff maxIter gain msk None (Some w) = CRetOk r ->
  0 < cutoff -> 0 < w ->
  let m := prodn (tl (shape dirty)) in
  (p < m)%nat -> length d = length phi -> length rm = length phi2 ->
  has_spec m p (flat dirty) d -> has_spec m p (flat RMSF) rm -> nth p fwhm None = Some fw ->
  exists res comp, length res = length phi /\ has_spec m p (flat (residFDF r)) res /\
    length comp = length phi /\ has_spec m p (flat (ccArr r)) comp /\
    (nth p (flat (iterCountArr r)) 0 <= maxIter)%nat /\
    (nth p (flat (iterCountArr r)) 0%nat = maxIter \/
     forall j, (j < length phi)%nat -> nth j comp czero <> czero -> Cmod (nth j res czero) < w).
Proof. exact rmclean_stops_window. Qed.
Print Assumptions C14_rmclean_stops_window.
Example C14_window_nonvacuous : exists r,
  do_rmclean_hogbom (mk_nd [5%nat] (map Some x_d)) x_phi (mk_nd [11%nat] (map Some x_rm)) x_phi2 [Some 4] 5 10 1 None None (Some (1/2)) = CRetOk r /\
  any_order (n_loud 1 5 (map Some x_d) 5) None /\ has_spec 1 0 (map Some x_d) x_d /\ has_spec 1 0 (map Some x_rm) x_rm /\
  peak_at x_rm 5 /\ roomy (length x_phi) (length x_phi2) 5.
Proof.
  destruct (x_hogbom None (Some (1/2)) I (or_intror eq_refl)) as [r E]. exists r. split; [exact E|].
  split; [exact I|]. split; [apply x_spec|]. split; [apply x_spec|]. split; [apply x_peak|apply x_roomy].
Qed.


(** C14. CLEAN of one spectrum always returns. *)
Theorem C14_rmclean_1d_total : forall d phi rm phi2 fw cutoff maxIter gain window imax,
  length d = length phi -> length rm = length phi2 -> (2 <= length phi)%nat -> (2 * length phi <= length phi2)%nat ->
  peak_at rm imax -> roomy (length phi) (length phi2) imax ->
  exists r, do_rmclean_hogbom (mk_nd [length phi] (map Some d)) phi (mk_nd [length rm] (map Some rm)) phi2 [Some fw]
     cutoff maxIter gain None None window = CRetOk r.
Proof. exact rmclean_1d_total. Qed.
Print Assumptions C14_rmclean_1d_total.
Example C14_total_nonvacuous : peak_at x_rm 5 /\ roomy (length x_phi) (length x_phi2) 5.
Proof. split; [apply x_peak|apply x_roomy]. Qed.


(** C15. For a component at channel i, the values subtracted are the RMSF at the depth differences phi_j - phi_i: no wrap-around. *)
Theorem C15_clean_shift_is_depth_difference : forall fit l2 phi h step wA msk lam0in fitRMSF r p l0 rm,
  valid_rmsf l2 wA msk -> centred_grid phi h step -> (p < mpix msk)%nat ->
  get_rmsf_planes fit l2 phi wA (Some msk) lam0in true fitRMSF = RetOk r ->
  rmsf_lam0 r = Some l0 ->
  let chs := mask_chans (length l2) (mpix msk) (flat msk) l2 (weights_of (length l2) wA) p in
  wsum chs <> 0 ->
  length rm = length (phi2Arr r) -> has_spec (mpix msk) p (flat (RMSFcube r)) rm ->
  let pad := Nat.div2 (length rm - length phi) in
  forall i j, (i < length phi)%nat -> (j < length phi)%nat ->
    length (shifted rm (length phi) pad i) = length phi /\
    nth j (shifted rm (length phi) pad i) czero = RMSF_spec chs l0 (nth j phi 0 - nth i phi 0) /\
    zsample rm (Z.of_nat (length phi) + Z.of_nat j - Z.of_nat i) = RMSF_spec chs l0 (nth j phi 0 - nth i phi 0).
Proof. exact clean_shift_is_depth_difference. Qed.
Print Assumptions C15_clean_shift_is_depth_difference.
Example C15_nonvacuous : forall fit, exists r rm,
  valid_rmsf y_l2 None (mk_nd [2%nat] [false; false]) /\ centred_grid y_phi 1 (1/10) /\
  get_rmsf_planes fit y_l2 y_phi None (Some (mk_nd [2%nat] [false; false])) (Some (5/2)) true false = RetOk r /\
  length rm = length (phi2Arr r) /\ has_spec 1 0 (flat (RMSFcube r)) rm.
Proof.
  intros fit. destruct (y_rmsf fit) as (r & rm & E & L & S & _). exists r, rm.
  split; [apply y_valid|]. split; [apply y_grid|]. auto.
Qed.


(** C15 C16. The peak of the RMSF is the only one, so that CLEAN shifts by the right amount, when two channels are close enough. *)
Theorem C16_rmsf_unit_peak : forall fit l2 phi h step wA msk lam0in fitRMSF r p l0 rm j1 j2,
  valid_rmsf l2 wA msk -> centred_grid phi h step -> 0 < step -> nonneg_w wA -> (p < mpix msk)%nat ->
  get_rmsf_planes fit l2 phi wA (Some msk) lam0in true fitRMSF = RetOk r ->
  rmsf_lam0 r = Some l0 ->
  length rm = length (phi2Arr r) -> has_spec (mpix msk) p (flat (RMSFcube r)) rm ->
  (j1 < length l2)%nat -> (j2 < length l2)%nat ->
  at2 (mpix msk) false (flat msk) j1 p = false -> at2 (mpix msk) false (flat msk) j2 p = false ->
  0 < nth j1 (weights_of (length l2) wA) 0 -> 0 < nth j2 (weights_of (length l2) wA) 0 ->
  0 < INR (length phi) * step * Rabs (nth j1 l2 0 - nth j2 l2 0) < PI ->
  unit_peak rm (length phi).
Proof. exact rmsf_unit_peak. Qed.
Print Assumptions C16_rmsf_unit_peak.
Example C16_unit_peak_nonvacuous : 0 < INR (length y_phi) * (1/10) * Rabs (nth 0 y_l2 0 - nth 1 y_l2 0) < PI.
Proof.
  rewrite y_l2_eq. simpl. replace (1 - 4) with (-(3)) by ring. rewrite Rabs_Ropp, Rabs_pos_eq by lra. generalize PI2_3_2. lra.
Qed.


(** C16. A single on-grid source is cleaned geometrically in its own channel only. *)
Theorem C16_rmclean_single_source : forall dirty phi RMSF phi2 fwhm cutoff maxIter gain msk pool r p d rm fw imax i0 A,
  do_rmclean_hogbom dirty phi RMSF phi2 fwhm cutoff maxIter gain msk pool None = CRetOk r ->
  0 < cutoff ->
  let m := prodn (tl (shape dirty)) in
  any_order (n_loud m (length phi) (flat dirty) cutoff) pool ->
  (p < m)%nat -> length rm = length phi2 ->
  has_spec m p (flat dirty) d -> has_spec m p (flat RMSF) rm -> nth p fwhm None = Some fw ->
  unit_peak rm imax -> roomy (length phi) (length phi2) imax ->
  single_source rm imax (length phi) i0 A d ->
  exists k, (k <= maxIter)%nat /\
    (pool = None -> nth p (flat (iterCountArr r)) 0%nat = k) /\
    (forall j, (j < length phi)%nat ->
       at2 m None (flat (residFDF r)) j p = Some (RtoC ((1 - gain) ^ k) * nth j d czero)%C /\
       at2 m None (flat (ccArr r)) j p = Some (if Nat.eqb j i0 then (A * RtoC (1 - (1 - gain) ^ k))%C else czero)) /\
    (forall k', (k' < k)%nat -> cutoff <= Rabs (1 - gain) ^ k' * Cmod A) /\
    (k = maxIter \/ Rabs (1 - gain) ^ k * Cmod A < cutoff).
Proof. exact rmclean_single_source. Qed.
Print Assumptions C16_rmclean_single_source.
Example C16_nonvacuous : unit_peak x_rm 5 /\ roomy (length x_phi) (length x_phi2) 5 /\
  single_source x_rm 5 (length x_phi) 1 (RtoC 7) [zz; RtoC 7; zz; zz; zz].
Proof.
  split; [apply x_unit|]. split; [apply x_roomy|]. split; [reflexivity|]. split; [simpl; lia|].
  intros j Hj. do 5 (destruct j as [|j]; [unfold zsample, x_rm, zz; simpl; apply injective_projections; simpl; ring|]). simpl in Hj. lia.
Qed.


(** C16. With a gain between 0 and 2 the cutoff is always reached. *)
Theorem C16_single_source_converges : forall RMSF phi fwhm gain cutoff imax i0 A d,
  unit_peak RMSF imax -> roomy (length phi) (length RMSF) imax ->
  single_source RMSF imax (length phi) i0 A d -> 0 < cutoff -> 0 < gain < 2 -> (2 <= length phi)%nat ->
  exists N, forall maxIter, (N <= maxIter)%nat ->
    exists s, cleanloop d RMSF phi fwhm gain cutoff None maxIter = POk s /\
      (iters s <= N)%nat /\ all_below cutoff (resid s).
Proof. exact clean_single_source_converges. Qed.
Print Assumptions C16_single_source_converges.


(** C17. The Q,U spectra predicted from the components, synthesised with the same channels, weights and reference wavelength, are what CLEAN removed. *)
Theorem C17_clean_components_predict : forall fit freq phi h step wA flags l0 fitRMSF r rm d fw cutoff maxIter gain window q,
  centred_grid phi h step -> freq <> [] -> length flags = length freq ->
  match wA : option (list (option R)) with None => True | Some w => length w = length freq end ->
  let l2 := map (fun f => (c_light / f) ^ 2) freq in
  let msk := mk_nd [length freq] flags in
  wsum (mask_chans (length l2) 1 flags l2 (weights_of (length l2) wA) 0) <> 0 ->
  get_rmsf_planes fit l2 phi wA (Some msk) (Some l0) true fitRMSF = RetOk r ->
  length rm = length (phi2Arr r) -> has_spec 1 0 (flat (RMSFcube r)) rm -> peak_at rm (length phi) ->
  fw <> 0 -> 0 < cutoff -> length d = length phi ->
  do_rmclean_hogbom (mk_nd [length phi] (map Some d)) phi (mk_nd [length rm] (map Some rm)) (phi2Arr r) [Some fw]
     cutoff maxIter gain None None window = CRetOk q ->
  exists res comp QU Imod s,
    has_spec 1 0 (flat (residFDF q)) res /\ length res = length phi /\
    has_spec 1 0 (flat (ccArr q)) comp /\ length comp = length phi /\
    calculate_QU_model freq phi comp l0 None = POk (QU, Imod) /\
    do_rmsynth_planes (mk_nd [length freq] (flagged_data flags (map fst QU)))
                      (mk_nd [length freq] (flagged_data flags (map snd QU))) l2 phi wA (Some l0) = Some s /\
    forall k, (k < length phi)%nat ->
      blank0 (nth k (flat (FDFcube s)) None) = (nth k d czero - nth k res czero)%C.
Proof. exact clean_components_predict. Qed.
Print Assumptions C17_clean_components_predict.
Example C17_nonvacuous : forall fit, exists r rm q,
  centred_grid y_phi 1 (1/10) /\ y_freq <> [] /\
  wsum (mask_chans (length y_l2) 1 [false; false] y_l2 (weights_of (length y_l2) None) 0) <> 0 /\
  get_rmsf_planes fit y_l2 y_phi None (Some (mk_nd [2%nat] [false; false])) (Some (5/2)) true false = RetOk r /\
  length rm = length (phi2Arr r) /\ has_spec 1 0 (flat (RMSFcube r)) rm /\ peak_at rm (length y_phi) /\
  do_rmclean_hogbom (mk_nd [length y_phi] (map Some [RtoC 5; RtoC 9; RtoC 1])) y_phi (mk_nd [length rm] (map Some rm)) (phi2Arr r)
     [Some 1] 3 100 (1/10) None None (Some 1) = CRetOk q.
Proof. exact y_predict. Qed.


(** C18. A pixel that never reaches the cutoff is returned as it came, with no components and no iterations. *)
Theorem C18_rmclean_quiet_pixel : forall dirty phi RMSF phi2 fwhm cutoff maxIter gain msk pool window r p,
  do_rmclean_hogbom dirty phi RMSF phi2 fwhm cutoff maxIter gain msk pool window = CRetOk r ->
  0 < cutoff ->
  let m := prodn (tl (shape dirty)) in
  any_order (n_loud m (length phi) (flat dirty) cutoff) pool ->
  (p < m)%nat -> reaches m (length phi) p (flat dirty) cutoff = false ->
  nth p (flat (iterCountArr r)) 0%nat = 0%nat /\
  forall k, (k < length phi)%nat ->
    at2 m None (flat (residFDF r)) k p = at2 m None (flat dirty) k p /\
    at2 m None (flat (ccArr r)) k p = Some (RtoC 0) /\
    at2 m None (flat (cleanFDF r)) k p = at2 m None (flat dirty) k p.
Proof. exact rmclean_quiet_pixel. Qed.
Print Assumptions C18_rmclean_quiet_pixel.
Example C18_nonvacuous : reaches 1 5 0 (map Some x_d) 11 = false /\ reaches 1 5 0 (map Some x_d) 5 = true.
Proof.
  split; [|apply x_reaches]. unfold reaches, x_d, zz. simpl.
  rewrite !Cmod_R, !Rabs_pos_eq by lra.
  repeat match goal with |- context[Rle_dec ?a ?b] => destruct (Rle_dec a b); [lra|] end. reflexivity.
Qed.


(** C19. Cubes: the pool gives the same three cubes as the serial loop for every completion order. *)
Theorem C19_rmclean_pool_same_cubes : forall dirty phi RMSF phi2 fwhm cutoff maxIter gain msk window sched,
  0 < cutoff ->
  Permutation sched (seq 0 (n_loud (prodn (tl (shape dirty))) (length phi) (flat dirty) cutoff)) ->
  match do_rmclean_hogbom dirty phi RMSF phi2 fwhm cutoff maxIter gain msk None window,
        do_rmclean_hogbom dirty phi RMSF phi2 fwhm cutoff maxIter gain msk (Some sched) window with
  | CRetOk r, CRetOk r' => cleanFDF r' = cleanFDF r /\ ccArr r' = ccArr r /\ residFDF r' = residFDF r
  | CRaise, CRaise => True
  | CRetNone4, CRetNone4 => True
  | _, _ => False
  end.
Proof. exact rmclean_pool_same_cubes. Qed.
Print Assumptions C19_rmclean_pool_same_cubes.
Example C19_nonvacuous : Permutation [2; 0; 1]%nat (seq 0 3).
Proof. simpl. eapply perm_trans; [apply perm_swap|]. apply perm_skip. apply perm_swap. Qed.


(** C19. The iteration map is not the same: with a pool it stays zero. *)
Theorem C19_pool_iterations_refuted : exists dirty phi RMSF phi2 fwhm cutoff maxIter gain window sched r r',
  do_rmclean_hogbom dirty phi RMSF phi2 fwhm cutoff maxIter gain None None window = CRetOk r /\
  do_rmclean_hogbom dirty phi RMSF phi2 fwhm cutoff maxIter gain None (Some sched) window = CRetOk r' /\
  Permutation sched (seq 0 (n_loud (prodn (tl (shape dirty))) (length phi) (flat dirty) cutoff)) /\
  iterCountArr r <> iterCountArr r'.
Proof. exact rmclean_pool_iterations_refuted. Qed.
Print Assumptions C19_pool_iterations_refuted.


(** C19. In general: the iteration map of a pool run is zero everywhere. *)
Theorem C19_pool_iterations_zero : forall dirty phi RMSF phi2 fwhm cutoff maxIter gain msk sched window r p,
  do_rmclean_hogbom dirty phi RMSF phi2 fwhm cutoff maxIter gain msk (Some sched) window = CRetOk r ->
  nth p (flat (iterCountArr r)) 0%nat = 0%nat.
Proof. exact rmclean_pool_iterations_zero. Qed.
Print Assumptions C19_pool_iterations_zero.


(** C20. Windowed phase, soundness: a channel whose component differs from the run without a window is within half a width (plus the rounding of one channel) of a first-phase component. *)
Theorem C20_rmclean_window_sound : forall dirty phi RMSF phi2 fwhm cutoff maxIter gain msk pool w r1 r2 p d rm fw,
  do_rmclean_hogbom dirty phi RMSF phi2 fwhm cutoff maxIter gain msk pool None = CRetOk r1 ->
  do_rmclean_hogbom dirty phi RMSF phi2 fwhm cutoff maxIter gain msk pool (Some w) = CRetOk r2 ->
  0 < cutoff ->
  let m := prodn (tl (shape dirty)) in
  any_order (n_loud m (length phi) (flat dirty) cutoff) pool ->
  (p < m)%nat -> length d = length phi -> length rm = length phi2 ->
  has_spec m p (flat dirty) d -> has_spec m p (flat RMSF) rm -> nth p fwhm None = Some fw ->
  let width := fw / (nth 1 phi 0 - nth 0 phi 0) in
  0 <= width ->
  forall j, (j < length phi)%nat ->
    at2 m None (flat (ccArr r2)) j p <> at2 m None (flat (ccArr r1)) j p ->
    exists i, (i < length phi)%nat /\ at2 m None (flat (ccArr r1)) i p <> Some czero /\
      Rabs (INR j - INR i) < width / 2 + 1.
Proof. exact rmclean_window_sound. Qed.
Print Assumptions C20_rmclean_window_sound.
Example C20_nonvacuous : exists r,
  do_rmclean_hogbom (mk_nd [5%nat] (map Some x_d)) x_phi (mk_nd [11%nat] (map Some x_rm)) x_phi2 [Some 4] 5 10 1 None None (Some (1/2)) = CRetOk r /\
  any_order (n_loud 1 5 (map Some x_d) 5) None /\ has_spec 1 0 (map Some x_d) x_d /\ has_spec 1 0 (map Some x_rm) x_rm /\
  peak_at x_rm 5 /\ roomy (length x_phi) (length x_phi2) 5.
Proof.
  destruct (x_hogbom None (Some (1/2)) I (or_intror eq_refl)) as [r E]. exists r. split; [exact E|].
  split; [exact I|]. split; [apply x_spec|]. split; [apply x_spec|]. split; [apply x_peak|apply x_roomy].
Qed.


(** C20. Windowed phase, completeness away from the lower edge. *)
Theorem C20_rmclean_window_complete : forall dirty phi RMSF phi2 fwhm cutoff maxIter gain msk w r1 r2 p d rm fw,
  do_rmclean_hogbom dirty phi RMSF phi2 fwhm cutoff maxIter gain msk None None = CRetOk r1 ->
  do_rmclean_hogbom dirty phi RMSF phi2 fwhm cutoff maxIter gain msk None (Some w) = CRetOk r2 ->
  0 < cutoff -> 0 < w ->
  let m := prodn (tl (shape dirty)) in
  (p < m)%nat -> length d = length phi -> length rm = length phi2 ->
  has_spec m p (flat dirty) d -> has_spec m p (flat RMSF) rm -> nth p fwhm None = Some fw ->
  let width := fw / (nth 1 phi 0 - nth 0 phi 0) in
  nth p (flat (iterCountArr r2)) 0%nat = maxIter \/
  forall i j, (i < length phi)%nat -> (j < length phi)%nat ->
    at2 m None (flat (ccArr r1)) i p <> Some czero ->
    width / 2 <= INR i -> INR i - width / 2 <= INR j -> INR j + 1 <= INR i + width / 2 ->
    exists z, at2 m None (flat (residFDF r2)) j p = Some z /\ Cmod z < w.
Proof. exact rmclean_window_complete. Qed.
Print Assumptions C20_rmclean_window_complete.
Example C20_complete_nonvacuous : 4 / (nth 1 x_phi 0 - nth 0 x_phi 0) / 2 <= INR 2 /\
  INR 2 - 4 / (nth 1 x_phi 0 - nth 0 x_phi 0) / 2 <= INR 3 /\ INR 3 + 1 <= INR 2 + 4 / (nth 1 x_phi 0 - nth 0 x_phi 0) / 2.
Proof. simpl. lra. Qed.


(** C20. Near the lower edge the claim is false: int() and a negative slice bound close the window. *)
Theorem C20_window_edge_refuted : exists dirty phi RMSF phi2 fw cutoff maxIter gain w r,
  do_rmclean_hogbom dirty phi RMSF phi2 [Some fw] cutoff maxIter gain None None (Some w) = CRetOk r /\
  0 < cutoff /\ 0 < w /\
  fw / (nth 1 phi 0 - nth 0 phi 0) / 2 = 2 /\
  (nth 0 (flat (iterCountArr r)) 0 < maxIter)%nat /\
  nth 0 (flat (ccArr r)) None = Some (RtoC 10) /\
  exists z, nth 1 (flat (residFDF r)) None = Some z /\ w <= Cmod z.
Proof. exact rmclean_window_edge_refuted. Qed.
Print Assumptions C20_window_edge_refuted.


(** C41. rmclean1d: a negative threshold is that multiple of the noise, for cutoff and window. *)
Theorem C41_rmclean_sigma_levels : forall dirty RMSF phi phi2 fw noise k w maxIter gain,
  0 <= noise -> 0 < k -> 0 < w ->
  run_rmclean_1d dirty RMSF phi phi2 fw noise (- k) maxIter gain None =
    run_rmclean_1d dirty RMSF phi phi2 fw noise (k * noise) maxIter gain None /\
  run_rmclean_1d dirty RMSF phi phi2 fw noise (- k) maxIter gain (Some (- w)) =
    run_rmclean_1d dirty RMSF phi phi2 fw noise (k * noise) maxIter gain (Some (w * noise)).
Proof. exact rmclean_sigma_levels. Qed.
Print Assumptions C41_rmclean_sigma_levels.


(** C41. rmclean1d: non-negative thresholds are passed on unchanged. *)
Theorem C41_rmclean_absolute_levels : forall dirty RMSF phi phi2 fw noise c w maxIter gain,
  0 <= c -> 0 <= w ->
  run_rmclean_1d dirty RMSF phi phi2 fw noise c maxIter gain (Some w) =
  do_rmclean_hogbom (mk_nd [length dirty] dirty) phi (mk_nd [length RMSF] RMSF) phi2 [fw] c maxIter gain None None (Some w).
Proof. exact rmclean_absolute_levels. Qed.
Print Assumptions C41_rmclean_absolute_levels.


(** C41. The library default window = 0 is not "no window": a pixel with a component then uses all its iterations. *)
Theorem C41_default_window_refuted : forall dirty phi RMSF phi2 fwhm cutoff maxIter gain msk r p d rm fw,
  do_rmclean_hogbom dirty phi RMSF phi2 fwhm cutoff maxIter gain msk None (Some 0) = CRetOk r ->
  0 < cutoff ->
  let m := prodn (tl (shape dirty)) in
  (p < m)%nat -> length d = length phi -> length rm = length phi2 ->
  has_spec m p (flat dirty) d -> has_spec m p (flat RMSF) rm -> nth p fwhm None = Some fw ->
  (exists j, (j < length phi)%nat /\ at2 m None (flat (ccArr r)) j p <> Some czero) ->
  nth p (flat (iterCountArr r)) 0%nat = maxIter.
Proof. exact rmclean_default_window_refuted. Qed.
Print Assumptions C41_default_window_refuted.

