(** The direct sums the NUFFT replaced, the deprecated routines and the prototypes: claims C74, C75 and C76. *)
From Coq Require Import Reals List Arith ZArith Lia Lra Bool Permutation.
Set Warnings "-ambiguous-paths".
From Coquelicot Require Import Coquelicot.
From Verif Require Import CBase NdArray PyRes PyList Interp_Model Synth_Model Synth_Spec Clean_Model Clean_Spec Ref_Model Ref_Spec Ref_Proofs Ref_Dep Ref_Clean Ref_Noise Ref_Example Ref_Width.
Import ListNotations.
Local Open Scope R_scope.

(** C74. Any grid: the NUFFT routine gives what the direct sum gives on the negated and reversed grid. *)
Theorem C74_any_grid : forall dataQ dataU l2 phi wA lam0in,
  do_rmsynth_planes dataQ dataU l2 phi wA lam0in =
  do_rmsynth_planes_old dataQ dataU l2 (map Ropp (rev phi)) wA lam0in.
Proof. exact @planes_is_old. Qed.
Print Assumptions C74_any_grid.


(** C74. Grids symmetric about zero: the two routines agree, flags, weights, blanks and errors included. *)
Theorem C74_symmetric_grid : forall dataQ dataU l2 phi wA lam0in, antisym phi ->
  do_rmsynth_planes dataQ dataU l2 phi wA lam0in = do_rmsynth_planes_old dataQ dataU l2 phi wA lam0in.
Proof. exact @planes_old_antisym. Qed.
Print Assumptions C74_symmetric_grid.
Example C74_symmetric_grid_nonvacuous : antisym [-1; 0; 1].
Proof. intros k Hk. do 3 (destruct k as [|k]; [cbn; lra|]). cbn in Hk. lia. Qed.


(** C74. The spread function: the two routines agree on symmetric grids, up to axes of length one. *)
Theorem C74_rmsf : forall fit l2 phi wA mskArr lam0in double fitRMSF,
  antisym phi ->
  get_rmsf_planes_old fit l2 phi wA mskArr lam0in double fitRMSF =
  as_old (get_rmsf_planes fit l2 phi wA mskArr lam0in double fitRMSF).
Proof. exact @rmsf_is_old. Qed.
Print Assumptions C74_rmsf.
Example C74_rmsf_nonvacuous : antisym [-1; 0; 1].
Proof. intros k Hk. do 3 (destruct k as [|k]; [cbn; lra|]). cbn in Hk. lia. Qed.


(** C75. The deprecated synthesis ends on all valid data. *)
Theorem C75_ends : forall fit dQ dU l2 phi wA,
  valid_spectral dQ dU l2 wA -> l2 <> [] -> (2 <= length phi)%nat ->
  exists r, do_rmsynth fit dQ dU l2 phi wA = DOk r.
Proof. exact @dep_total. Qed.
Print Assumptions C75_ends.
Example C75_ends_nonvacuous : valid_spectral v_Q v_U v_l2 None /\ v_l2 <> [] /\ (2 <= length v_phi)%nat.
Proof. split; [exact v_valid|]. split; [discriminate|cbn; lia]. Qed.


(** C75. What it computes: the spectrum of the good channels, scaled by the share of the weight they have. *)
Theorem C75_synthesis : forall fit dQ dU l2 phi wA r,
  valid_spectral dQ dU l2 wA -> do_rmsynth fit dQ dU l2 phi wA = DOk r ->
  let n := length l2 in
  let m := spix dQ in
  let w := given_weights n wA in
  let live := spec_live n m (flat dQ) (flat dU) l2 w in
  (wsum live = 0 -> d_lam0 r = None) /\
  (wsum live <> 0 -> d_lam0 r = Some (mean_l2 live) /\
     length (d_RMSF r) = length (d_phi2 r) /\
     forall i, (i < length (d_phi2 r))%nat ->
       nth i (d_RMSF r) None = Some (RMSF_spec live (mean_l2 live) (nth i (d_phi2 r) 0))) /\
  forall p i, (p < m)%nat -> (i < length phi)%nat ->
    let chs := spec_chans n (flat dQ) (flat dU) l2 w p in
    let c := at2 (length phi) None (flat (d_FDF r)) p i in
    (wsum live = 0 -> c = None) /\
    (wsum live <> 0 -> wsum chs <> 0 ->
       c = Some (FDF_spec chs (mean_l2 live) (nth i phi 0) * RtoC (wsum chs / wsum live))%C) /\
    (wsum live <> 0 -> flags_whole n m (flat dQ) (flat dU) p ->
       c = Some (FDF_spec chs (mean_l2 live) (nth i phi 0))).
Proof. exact @dep_refines. Qed.
Print Assumptions C75_synthesis.


(** C75. Where whole channels are flagged it agrees with the current routine. *)
Theorem C75_agrees : forall fit dQ dU cQ cU l2 phi wA r c p i z,
  valid_spectral dQ dU l2 wA -> valid_synth cQ cU l2 wA -> spix dQ = npix cQ ->
  transposed (length l2) (npix cQ) dQ cQ -> transposed (length l2) (npix cQ) dU cU ->
  antisym phi -> do_rmsynth fit dQ dU l2 phi wA = DOk r ->
  do_rmsynth_planes cQ cU l2 phi wA None = Some c ->
  wsum (live_chans (length l2) (npix cQ) (flat cQ) (flat cU) l2 (weights_of (length l2) wA)) <> 0 ->
  (p < npix cQ)%nat -> (i < length phi)%nat ->
  flags_whole (length l2) (npix cQ) (flat dQ) (flat dU) p ->
  at2 (npix cQ) None (flat (FDFcube c)) i p = Some z ->
  at2 (length phi) None (flat (d_FDF r)) p i = Some z /\ d_lam0 r = Some (synth_lam0 c).
Proof. exact @dep_agrees. Qed.
Print Assumptions C75_agrees.


(** C75. Finding: a flag in one voxel only makes its spectrum too small. *)
Theorem C75_isolated_flag_refuted : forall fit, exists r, do_rmsynth fit v_Q v_U v_l2 v_phi None = DOk r /\
  let chs := spec_chans 2 (flat v_Q) (flat v_U) v_l2 (given_weights 2 None) 0 in
  let live := spec_live 2 2 (flat v_Q) (flat v_U) v_l2 (given_weights 2 None) in
  at2 2 None (flat (d_FDF r)) 0 0 = Some (FDF_spec chs (mean_l2 live) (-1) / RtoC 2)%C /\
  at2 2 None (flat (d_FDF r)) 0 0 <> Some (FDF_spec chs (mean_l2 live) (-1)).
Proof. exact @dep_isolated_flag_refuted. Qed.
Print Assumptions C75_isolated_flag_refuted.


(** C75. The deprecated CLEAN finds the components of the current one, in as many steps, when that one is not told to clean deeper; its beam has a rounded constant. *)
Theorem C75_clean : forall (fit : list R -> list (option C) -> option (Z * R)) (d : list C) (phi l2 : list R) (cutoff : R) (maxIter : nat) (gain : R)
    (weight : option (list (option R))) (rm : list C) (phi2 : list R) (pad : nat),
  increasing phi -> (2 <= length phi)%nat -> extends_by pad phi phi2 ->
  forall window : option R, (forall w, window = Some w -> cutoff <= w) ->
  forall r, do_rmclean fit d phi l2 cutoff maxIter gain weight (Some (rm, Some phi2)) = DCOk r ->
    exists c res, do_rmclean_hogbom (mk_nd [length d] (map Some d)) phi (mk_nd [length rm] (map Some rm)) phi2 [Some (dc_fwhm r)]
        cutoff maxIter gain None None window = CRetOk c /\
      flat (ccArr c) = map Some (dc_cc r) /\ nth 0 (flat (iterCountArr c)) 0%nat = dc_iter r /\ flat (residFDF c) = map Some res /\
      length res = length phi /\ length (dc_clean r) = length phi /\
      forall k, (k < length phi)%nat -> nth k (dc_clean r) (RtoC 0) = (restored12 (dc_fwhm r) phi (dc_cc r) k + nth k res (RtoC 0))%C.
Proof. exact @dep_clean_is_current. Qed.
Print Assumptions C75_clean.
Example C75_clean_nonvacuous : increasing k_phi /\ (2 <= length k_phi)%nat /\ extends_by 1 k_phi k_phi2 /\
  exists r, do_rmclean k_fit k_d k_phi [1; 4] (1 / 2) 10 1 None (Some (k_rm, Some k_phi2)) = DCOk r /\ dc_fwhm r = 2.
Proof. split; [exact k_inc|]. split; [cbn; lia|]. split; [exact k_ext|exact k_runs]. Qed.


(** C75. It ends where the current one does. *)
Theorem C75_clean_ends : forall (fit : list R -> list (option C) -> option (Z * R)) (d : list C) (phi l2 : list R) (cutoff : R) (maxIter : nat) (gain : R)
    (weight : option (list (option R))) (rm : list C) (phi2 : list R) (pad : nat),
  increasing phi -> (2 <= length phi)%nat -> extends_by pad phi phi2 ->
  forall window : option R, 
  forall st fw c, fit phi2 (map Some rm) = Some (st, fw) -> (1 <= st)%Z ->
    match weight with Some w => length w = length l2 | None => True end -> cutoff <= maxabs d ->
    do_rmclean_hogbom (mk_nd [length d] (map Some d)) phi (mk_nd [length rm] (map Some rm)) phi2 [Some fw]
        cutoff maxIter gain None None window = CRetOk c ->
    exists r, do_rmclean fit d phi l2 cutoff maxIter gain weight (Some (rm, Some phi2)) = DCOk r /\ dc_fwhm r = fw.
Proof. exact @dep_clean_returns. Qed.
Print Assumptions C75_clean_ends.


(** C75. The doubled grids of the package are of the kind asked for. *)
Theorem C75_grids : forall phi phi2, increasing phi -> (2 <= length phi)%nat -> phi2_grid true phi = Some phi2 ->
  extends_by (Nat.div2 (length phi + 1)) phi phi2.
Proof. exact @doubled_grid_extends. Qed.
Print Assumptions C75_grids.


(** C76. The spectrum of every pixel, with its own weights and its own reference wavelength. *)
Theorem C76_synthesis : forall dQ dU l2 phi wA, valid_noise dQ dU l2 wA ->
  exists r, threeDnoise_do_rmsynth_planes dQ dU l2 phi wA LamNone = NOk r /\
    let m := npix dQ in
    let w := voxel_weights (prodn (shape dQ)) wA in
    forall p, (p < m)%nat ->
      let chs := voxel_chans (length l2) m (flat dQ) (flat dU) l2 w p in
      let live := voxel_live (length l2) m (flat dQ) (flat dU) l2 w p in
      (wsum live = 0 -> nth p (flat (ns_lam0 r)) None = None /\
         forall i, (i < length phi)%nat -> nth (i * m + p) (flat (ns_FDF r)) None = None) /\
      (wsum live <> 0 -> nth p (flat (ns_lam0 r)) None = Some (mean_l2 live) /\
         forall i, (i < length phi)%nat ->
           (wsum chs <> 0 -> nth (i * m + p) (flat (ns_FDF r)) None = Some (FDF_spec chs (mean_l2 live) (nth i phi 0))) /\
           (wsum chs = 0 -> nth (i * m + p) (flat (ns_FDF r)) None = Some (RtoC 0))).
Proof. exact @noise_refines. Qed.
Print Assumptions C76_synthesis.
Example C76_synthesis_nonvacuous : valid_noise n_Q n_U [1; 4] (Some n_w) /\
  let w := voxel_weights (prodn (shape n_Q)) (Some n_w) in
  wsum (voxel_live 2 2 (flat n_Q) (flat n_U) [1; 4] w 0) <> 0 /\ wsum (voxel_chans 2 2 (flat n_Q) (flat n_U) [1; 4] w 0) <> 0.
Proof. exact n_valid. Qed.


(** C76. With a map of reference wavelengths. *)
Theorem C76_lam0_map : forall dQ dU l2 phi wA l, valid_noise dQ dU l2 wA -> length l = npix dQ ->
  exists r, threeDnoise_do_rmsynth_planes dQ dU l2 phi wA (LamMap l) = NOk r /\
    let m := npix dQ in
    forall p l0, (p < m)%nat -> nth p l None = Some l0 ->
      let chs := voxel_chans (length l2) m (flat dQ) (flat dU) l2 (voxel_weights (prodn (shape dQ)) wA) p in
      wsum chs <> 0 -> nth p (flat (ns_lam0 r)) None = Some l0 /\
      forall i, (i < length phi)%nat -> nth (i * m + p) (flat (ns_FDF r)) None = Some (FDF_spec chs l0 (nth i phi 0)).
Proof. exact @noise_lam0_map. Qed.
Print Assumptions C76_lam0_map.


(** C76. Finding: a single reference wavelength raises. *)
Theorem C76_lam0_number_refuted : forall dQ dU l2 phi wA l0, valid_noise dQ dU l2 wA ->
  threeDnoise_do_rmsynth_planes dQ dU l2 phi wA (LamNum l0) = NRaise.
Proof. exact @noise_lam0_number_refuted. Qed.
Print Assumptions C76_lam0_number_refuted.


(** C76. Finding: weights (or data without weights) with fewer than three axes raise. *)
Theorem C76_low_weights_refuted : forall dQ dU l2 phi wA l0in, shape dQ = shape dU -> (1 <= length (shape dQ) <= 3)%nat ->
  nth 0 (shape dQ) 0%nat = length l2 ->
  match wA with
  | None => (length (shape dQ) < 3)%nat
  | Some w => shape w = [length l2] \/ (shape w = shape dQ /\ (length (shape dQ) < 3)%nat)
  end ->
  threeDnoise_do_rmsynth_planes dQ dU l2 phi wA l0in = NRaise.
Proof. exact @noise_low_weights_refuted. Qed.
Print Assumptions C76_low_weights_refuted.


(** C76. Where the weights of a channel are the same in every pixel, the prototype agrees with the current routine (blank pixels being zero). *)
Theorem C76_agrees : forall dQ dU l2 phi wA wV r c, antisym phi -> valid_noise dQ dU l2 wV ->
  match wA with None => True | Some w => length w = length l2 end ->
  (forall j p, (j < length l2)%nat -> (p < npix dQ)%nat ->
     nth (j * npix dQ + p) (voxel_weights (prodn (shape dQ)) wV) 0 = nth j (weights_of (length l2) wA) 0) ->
  threeDnoise_do_rmsynth_planes dQ dU l2 phi wV LamNone = NOk r ->
  do_rmsynth_planes dQ dU l2 phi wA None = Some c ->
  forall i p, (i < length phi)%nat -> (p < npix dQ)%nat ->
    wsum (live_chans (length l2) (npix dQ) (flat dQ) (flat dU) l2 (weights_of (length l2) wA)) <> 0 ->
    nth p (flat (ns_lam0 r)) None = Some (synth_lam0 c) /\
    nth (i * npix dQ + p) (flat (ns_FDF r)) None = Some (blank0 (nth (i * npix dQ + p) (flat (FDFcube c)) None)).
Proof. exact @noise_agrees. Qed.
Print Assumptions C76_agrees.


(** C76. The spread function of every pixel. *)
Theorem C76_rmsf : forall fit l2 phi wA lam0in double fitRMSF fitReal phi2,
  l2 <> [] -> match wA with None => True | Some w => (1 <= length (shape w) <= 3)%nat /\ nth 0 (shape w) 0%nat = length l2 end ->
  phi2_grid double phi = Some phi2 ->
  exists r, threeDnoise_get_rmsf_planes fit l2 phi wA lam0in double fitRMSF fitReal = OROk r /\ or_phi2 r = phi2 /\
    let m := prodn (tl (match wA with None => [length l2] | Some w => shape w end)) in
    let w := voxel_weights (length l2) wA in
    forall p, (p < m)%nat ->
      let chs := weight_chans (length l2) m l2 w p in
      wsum chs <> 0 ->
      forall i, (i < length phi2)%nat -> nth (i * m + p) (flat (or_cube r)) None = Some (RMSF_spec chs (mean_l2 chs) (nth i phi2 0)).
Proof. exact @noise_rmsf_refines. Qed.
Print Assumptions C76_rmsf.


(** C76. Finding: the reference wavelength asked for is not used. *)
Theorem C76_rmsf_lam0_refuted : forall fit, exists r,
  threeDnoise_get_rmsf_planes fit [1] [PI / 2] None (Some 0) false false false = OROk r /\
  nth 0 (flat (or_cube r)) None = Some (RMSF_spec [mk_chan 1 1 (RtoC 0)] 1 (PI / 2)) /\
  nth 0 (flat (or_cube r)) None <> Some (RMSF_spec [mk_chan 1 1 (RtoC 0)] 0 (PI / 2)).
Proof. exact @noise_rmsf_lam0_refuted. Qed.
Print Assumptions C76_rmsf_lam0_refuted.


(** C76. Finding: the width fitted to the real part does not depend on the weights. *)
Theorem C76_real_fit_refuted : forall fit l2 phi w w' lam0in double r r',
  shape w = [length l2] -> shape w' = [length l2] ->
  threeDnoise_get_rmsf_planes fit l2 phi (Some w) lam0in double true true = OROk r ->
  threeDnoise_get_rmsf_planes fit l2 phi (Some w') lam0in double true true = OROk r' ->
  or_fwhm r = or_fwhm r' /\ or_stat r = or_stat r'.
Proof. exact @noise_rmsf_real_fit_refuted. Qed.
Print Assumptions C76_real_fit_refuted.


(** C75. The axes of its result, and the width it reports. *)
Theorem C75_shape : forall fit dQ dU l2 phi wA r, do_rmsynth fit dQ dU l2 phi wA = DOk r ->
  shape (d_FDF r) = removelast (shape dQ) ++ [length phi] /\
  length (flat (d_FDF r)) = (spix dQ * length phi)%nat /\
  phi2_grid true phi = Some (d_phi2 r) /\
  exists fw0, range_width (38 / 10) l2 fw0 /\ d_fwhm r = snd (fit_or (fit (d_phi2 r) (d_RMSF r)) fw0).
Proof. exact @dep_shape. Qed.
Print Assumptions C75_shape.


(** C75. The spread function alone; without weights its width is never fitted. *)
Theorem C75_spread : forall fit l2 phi wA lam0in rm phi2 fw,
  get_RMSF fit l2 phi wA lam0in = POk (rm, phi2, fw) ->
  phi2_grid true phi = Some phi2 /\ length rm = length phi2 /\
  (let chs := given_chans (length l2) l2 (given_weights (length l2) wA) in
   forall i l0, (i < length phi2)%nat -> wsum chs <> 0 ->
     l0 = match lam0in with None => Some (mean_l2 chs) | Some l => l end ->
     nth i rm None = option_map (fun l => RMSF_spec chs l (nth i phi2 0)) l0) /\
  exists fw0, range_width (38 / 10) l2 fw0 /\
    fw = snd (fit_or (match wA with None => None | Some _ => fit phi2 rm end) fw0).
Proof. exact @dep_rmsf. Qed.
Print Assumptions C75_spread.
Example C75_spread_nonvacuous : exists rm phi2 fw, get_RMSF (fun _ _ => None) [1; 4] [-1; 1] None None = POk (rm, phi2, fw).
Proof. unfold get_RMSF. cbn [dep_weights repeat length Nat.eqb negb]. destruct (phi2_grid true [-1; 1]) as [x|] eqn:E; [now repeat eexists|].
  now rewrite Rmsf_Proofs.phi2_double in E by (cbn; lia). Qed.


(** C76. The axes of the results. *)
Theorem C76_shapes : forall dQ dU l2 phi wA l0in r, valid_noise dQ dU l2 wA ->
  threeDnoise_do_rmsynth_planes dQ dU l2 phi wA l0in = NOk r ->
  shape (ns_FDF r) = without_ones (length phi :: tl (shape dQ)) /\ length (flat (ns_FDF r)) = (length phi * npix dQ)%nat /\
  shape (ns_lam0 r) = without_ones (tl (shape dQ)) /\ length (flat (ns_lam0 r)) = npix dQ.
Proof. exact @noise_shapes. Qed.
Print Assumptions C76_shapes.


(** C76. Widths, fit states and axes of the spread functions. *)
Theorem C76_widths : forall fit l2 phi wA lam0in double fitRMSF fitReal r,
  match wA with None => True | Some w => (1 <= length (shape w) <= 3)%nat /\ nth 0 (shape w) 0%nat = length l2 end ->
  threeDnoise_get_rmsf_planes fit l2 phi wA lam0in double fitRMSF fitReal = OROk r ->
  let sh := tl (match wA with None => [length l2] | Some w => shape w end) in
  let m := prodn sh in
  let w := voxel_weights (length l2) wA in
  shape (or_cube r) = without_ones (length (or_phi2 r) :: sh) /\ shape (or_fwhm r) = without_ones sh /\ shape (or_stat r) = without_ones sh /\
  exists fw0, range_width (2 * sqrt 3) l2 fw0 /\
  forall p, (p < m)%nat ->
    let curve := map (fun i => nth (i * m + p) (flat (or_cube r)) None) (seq 0 (length (or_phi2 r))) in
    let out := (nth p (flat (or_stat r)) 0%Z, nth p (flat (or_fwhm r)) None) in
    (fitRMSF = false -> out = fit_or None fw0) /\
    (fitRMSF = true -> fitReal = false \/ ~ same_everywhere (length l2) m w -> out = fit_or (fit fitReal (or_phi2 r) (Some curve)) fw0) /\
    (fitRMSF = true -> fitReal = true -> same_everywhere (length l2) m w -> out = fit_or (fit true (or_phi2 r) None) fw0).
Proof. exact @noise_rmsf_widths. Qed.
Print Assumptions C76_widths.

