(** RM-synthesis and RMSF: the theorems that count. Each is closed by a lemma
    of the proof files; [Print Assumptions] lists what it rests on. *)
From Coq Require Import Reals List Arith ZArith Lia Lra Bool.
Set Warnings "-ambiguous-paths".
From Coquelicot Require Import Coquelicot.
From Verif Require Import CBase NdArray Interp_Model Synth_Model Synth_Spec Synth_Proofs Synth_Laws Rmsf_Proofs Synth_Refute.
Import ListNotations.
Local Open Scope R_scope.

(** C08. On an antisymmetric grid the output is the Brentjens-de Bruyn sum over the good channels of each pixel, at the depths passed by the caller; blank output means a zero spectrum. *)
Theorem C08_rmsynth_on_grid : forall dataQ dataU l2 phi wA lam0in,
  valid_synth dataQ dataU l2 wA -> antisym phi ->
  exists r, do_rmsynth_planes dataQ dataU l2 phi wA lam0in = Some r /\
    let w := weights_of (length l2) wA in
    let m := npix dataQ in
    let live := live_chans (length l2) m (flat dataQ) (flat dataU) l2 w in
    (synth_lam0 r = match lam0in with Some l => l | None =>
        if Req_EM_T (wsum live) 0 then 0 else mean_l2 live end) /\
    forall k p, (k < length phi)%nat -> (p < m)%nat ->
      let chs := pixel_chans (length l2) m (flat dataQ) (flat dataU) l2 w p in
      let c := at2 m None (flat (FDFcube r)) k p in
      (wsum chs = 0 -> c = None) /\
      (wsum chs <> 0 ->
        (c = None <-> forall f, In f phi -> FDF_spec chs (synth_lam0 r) f = RtoC 0) /\
        (forall z, c = Some z -> z = FDF_spec chs (synth_lam0 r) (nth k phi 0))).
Proof. exact synth_refines. Qed.
Print Assumptions C08_rmsynth_on_grid.
Example C08_nonvacuous : forall RM, valid_synth (e_Q RM) (e_U RM) e_l2 e_w /\ antisym e_phi /\
  wsum (pixel_chans 3 1 (flat (e_Q RM)) (flat (e_U RM)) e_l2 (weights_of 3 e_w) 0) <> 0.
Proof. intros. split; [apply e_valid|]. split; [apply e_antisym|]. rewrite e_wsum. lra. Qed.


(** C08. For a grid that is not antisymmetric the claim is false: a source at RM = 0 is reported at another depth, with nothing at depth 0. *)
Theorem C08_rmsynth_asymmetric_grid_refuted : exists dataQ dataU l2 phi lam0 r,
  valid_synth dataQ dataU l2 None /\ thin_pixel dataQ dataU l2 0 1 0 0 /\
  do_rmsynth_planes dataQ dataU l2 phi None (Some lam0) = Some r /\
  nth 0 phi 0 = 0 /\ nth 1 phi 0 <> 0 /\
  at2 1 None (flat (FDFcube r)) 0 0 = Some (RtoC 0) /\
  at2 1 None (flat (FDFcube r)) 1 0 = Some (RtoC 1) /\
  FDF_spec (pixel_chans 2 1 (flat dataQ) (flat dataU) l2 [1; 1] 0) lam0 0 = RtoC 1.
Proof. exact grid_refuted. Qed.
Print Assumptions C08_rmsynth_asymmetric_grid_refuted.


(** C01. Linearity in the Stokes spectra. *)
Theorem C01_rmsynth_linear : forall Q1 U1 Q2 U2 l2 phi wA lam0in a b,
  valid_synth Q1 U1 l2 wA -> shape Q1 = shape Q2 -> shape U1 = shape U2 ->
  same_flags Q1 Q2 -> same_flags U1 U2 ->
  exists r1 r2 r3,
    do_rmsynth_planes Q1 U1 l2 phi wA lam0in = Some r1 /\
    do_rmsynth_planes Q2 U2 l2 phi wA lam0in = Some r2 /\
    do_rmsynth_planes (lin_nd a b Q1 Q2) (lin_nd a b U1 U2) l2 phi wA lam0in = Some r3 /\
    synth_lam0 r1 = synth_lam0 r2 /\ synth_lam0 r3 = synth_lam0 r1 /\
    shape (FDFcube r3) = shape (FDFcube r1) /\
    forall k p, (k < length phi)%nat -> (p < npix Q1)%nat ->
      let v r := blank0 (at2 (npix Q1) None (flat (FDFcube r)) k p) in
      v r3 = (RtoC a * v r1 + RtoC b * v r2)%C.
Proof. exact synth_linear. Qed.
Print Assumptions C01_rmsynth_linear.
Example C01_nonvacuous : valid_synth (e_Q 0) (e_U 0) e_l2 e_w /\ same_flags (e_Q 0) (e_Q 1) /\ same_flags (e_U 0) (e_U 1).
Proof.
  split; [apply e_valid|]. split; (split; [reflexivity|]); intros [|[|[|[|i]]]]; reflexivity.
Qed.


(** C02. A thin source gives amp * phase * RMSF(phi - RM): at most amp everywhere, exactly amp at RM. *)
Theorem C02_rmsynth_thin_source : forall dataQ dataU l2 phi wA lam0in p amp psi RM,
  valid_synth dataQ dataU l2 wA -> antisym phi -> nonneg_w wA -> 0 <= amp ->
  (p < npix dataQ)%nat -> thin_pixel dataQ dataU l2 p amp psi RM ->
  let chs := pixel_chans (length l2) (npix dataQ) (flat dataQ) (flat dataU) l2 (weights_of (length l2) wA) p in
  0 < wsum chs ->
  exists r, do_rmsynth_planes dataQ dataU l2 phi wA lam0in = Some r /\
    let F k := at2 (npix dataQ) None (flat (FDFcube r)) k p in
    (forall k z, (k < length phi)%nat -> F k = Some z ->
       z = (RtoC amp * cis (2 * (psi + RM * synth_lam0 r)) * RMSF_spec chs (synth_lam0 r) (nth k phi 0 - RM))%C
       /\ Cmod z <= amp) /\
    (forall k, (k < length phi)%nat -> nth k phi 0 = RM -> 0 < amp ->
       exists z, F k = Some z /\ z = (RtoC amp * cis (2 * (psi + RM * synth_lam0 r)))%C /\ Cmod z = amp).
Proof. exact synth_thin_source. Qed.
Print Assumptions C02_rmsynth_thin_source.
Example C02_nonvacuous : valid_synth (e_Q 1) (e_U 1) e_l2 e_w /\ antisym e_phi /\ nonneg_w e_w /\
  thin_pixel (e_Q 1) (e_U 1) e_l2 0 2 0 1 /\ nth 2 e_phi 0 = 1 /\
  0 < wsum (pixel_chans 3 1 (flat (e_Q 1)) (flat (e_U 1)) e_l2 (weights_of 3 e_w) 0).
Proof.
  repeat (split; [first [apply e_valid | apply e_antisym | apply e_nonneg | apply e_thin | reflexivity]|]).
  rewrite e_wsum. lra.
Qed.


(** C02. The same with the RMSF returned by get_rmsf_planes, when the mask passed to it marks the flagged voxels of that pixel. *)
Theorem C02_thin_source_is_shifted_rmsf : forall fit dataQ dataU l2 phi wA lam0in p amp psi RM msk double fitRMSF phi2,
  valid_synth dataQ dataU l2 wA -> antisym phi -> nonneg_w wA -> 0 <= amp ->
  (p < npix dataQ)%nat -> thin_pixel dataQ dataU l2 p amp psi RM ->
  l2 <> [] -> shape msk = shape dataQ ->
  (forall j, (j < length l2)%nat ->
     at2 (npix dataQ) false (flat msk) j p =
     negb (finite (at2 (npix dataQ) None (flat dataQ) j p) && finite (at2 (npix dataQ) None (flat dataU) j p))) ->
  phi2_grid double phi = Some phi2 ->
  0 < wsum (pixel_chans (length l2) (npix dataQ) (flat dataQ) (flat dataU) l2 (weights_of (length l2) wA) p) ->
  exists r s,
    do_rmsynth_planes dataQ dataU l2 phi wA lam0in = Some r /\
    get_rmsf_planes fit l2 phi wA (Some msk) (Some (synth_lam0 r)) double fitRMSF = RetOk s /\
    forall k i, (k < length phi)%nat -> (i < length phi2)%nat -> nth k phi 0 - RM = nth i phi2 0 ->
      exists g, at2 (npix dataQ) None (flat (RMSFcube s)) i p = Some g /\
        forall z, at2 (npix dataQ) None (flat (FDFcube r)) k p = Some z ->
          z = (RtoC amp * cis (2 * (psi + RM * synth_lam0 r)) * g)%C.
Proof. exact synth_thin_is_shifted_rmsf. Qed.
Print Assumptions C02_thin_source_is_shifted_rmsf.
Example C02_shifted_nonvacuous : shape e_msk = shape (e_Q 1) /\
  (forall j, (j < length e_l2)%nat -> at2 (npix (e_Q 1)) false (flat e_msk) j 0 =
     negb (finite (at2 (npix (e_Q 1)) None (flat (e_Q 1)) j 0) && finite (at2 (npix (e_Q 1)) None (flat (e_U 1)) j 0))) /\
  exists phi2, phi2_grid true e_phi = Some phi2 /\ nth 2 e_phi 0 - 1 = nth 3 phi2 1.
Proof.
  split; [reflexivity|]. split; [apply e_mask_flags|]. destruct e_phi2 as (phi2 & E & _ & E2).
  exists phi2. split; auto. rewrite E2. simpl. lra.
Qed.


(** C03. 1D: the result with flagged channels is the result with these channels deleted, reference wavelength included. *)
Theorem C03_flagged_channels_dropped : forall Q U l2 phi wA lam0in,
  length Q = length l2 -> length U = length l2 ->
  match wA with None => True | Some w => length w = length l2 end ->
  let g := good Q U in
  do_rmsynth_planes (mk_nd [length l2] Q) (mk_nd [length l2] U) l2 phi wA lam0in =
  do_rmsynth_planes (mk_nd [length (select g l2)] (select g Q)) (mk_nd [length (select g l2)] (select g U))
     (select g l2) phi (option_map (select g) wA) lam0in.
Proof. exact synth_drop_flagged. Qed.
Print Assumptions C03_flagged_channels_dropped.
Example C03_nonvacuous : good (flat (e_Q 1)) (flat (e_U 1)) = [true; false; true] /\ select [true; false; true] e_l2 = [1; 3].
Proof. split; reflexivity. Qed.


(** C03. Cubes: every pixel has the spectrum of its own good channels. *)
Theorem C03_cube_flagged_channels_dropped : forall dataQ dataU l2 phi wA lam0in p,
  valid_synth dataQ dataU l2 wA -> (p < npix dataQ)%nat ->
  exists r r1,
    let q := flat (column dataQ (length l2) p) in
    let u := flat (column dataU (length l2) p) in
    let g := good q u in
    do_rmsynth_planes dataQ dataU l2 phi wA lam0in = Some r /\
    do_rmsynth_planes (mk_nd [length (select g l2)] (select g q)) (mk_nd [length (select g l2)] (select g u))
       (select g l2) phi (option_map (select g) wA) (Some (synth_lam0 r)) = Some r1 /\
    forall k, (k < length phi)%nat ->
      at2 (npix dataQ) None (flat (FDFcube r)) k p = nth k (flat (FDFcube r1)) None.
Proof. exact synth_cube_drop_flagged. Qed.
Print Assumptions C03_cube_flagged_channels_dropped.


(** C03. NaN weights act as zero weights. *)
Theorem C03_nan_weight_is_zero : forall dataQ dataU l2 phi w lam0in,
  do_rmsynth_planes dataQ dataU l2 phi (Some w) lam0in =
  do_rmsynth_planes dataQ dataU l2 phi (Some (map nan_w_0 w)) lam0in.
Proof. exact synth_nan_weight. Qed.
Print Assumptions C03_nan_weight_is_zero.


(** C04. Only relative weights matter (synthesis). *)
Theorem C04_rmsynth_weight_scale : forall dataQ dataU l2 phi w lam0in c,
  valid_synth dataQ dataU l2 (Some w) -> c <> 0 ->
  do_rmsynth_planes dataQ dataU l2 phi (Some (map (scale_w c) w)) lam0in =
  do_rmsynth_planes dataQ dataU l2 phi (Some w) lam0in.
Proof. exact synth_weight_scale. Qed.
Print Assumptions C04_rmsynth_weight_scale.
Example C04_nonvacuous : valid_synth (e_Q 1) (e_U 1) e_l2 e_w /\ map (scale_w 5) [Some 1; None; Some 3] <> [Some 1; None; Some 3].
Proof. split; [apply e_valid|]. simpl. intros H. inversion H. lra. Qed.


(** C04. Only relative weights matter (RMSF). *)
Theorem C04_rmsf_weight_scale : forall fit l2 phi w msk lam0in double fitRMSF c, c <> 0 ->
  get_rmsf_planes fit l2 phi (Some (map (scale_w c) w)) msk lam0in double fitRMSF =
  get_rmsf_planes fit l2 phi (Some w) msk lam0in double fitRMSF.
Proof. exact rmsf_weight_scale. Qed.
Print Assumptions C04_rmsf_weight_scale.


(** C05. A pixel of a cube has the spectrum it would have alone. *)
Theorem C05_pixel_alone : forall dataQ dataU l2 phi wA lam0in p,
  valid_synth dataQ dataU l2 wA -> (p < npix dataQ)%nat ->
  exists r r1,
    do_rmsynth_planes dataQ dataU l2 phi wA lam0in = Some r /\
    do_rmsynth_planes (column dataQ (length l2) p) (column dataU (length l2) p) l2 phi wA
                      (Some (synth_lam0 r)) = Some r1 /\
    synth_lam0 r1 = synth_lam0 r /\
    forall k, (k < length phi)%nat ->
      at2 (npix dataQ) None (flat (FDFcube r)) k p = nth k (flat (FDFcube r1)) None.
Proof. exact synth_pixel_alone. Qed.
Print Assumptions C05_pixel_alone.
Example C05_nonvacuous : exists Q U : nd (option R), valid_synth Q U e_l2 e_w /\ (1 < npix Q)%nat.
Proof.
  exists (mk_nd [3; 2]%nat [Some 1; Some 2; None; Some 3; Some 4; Some 5]),
         (mk_nd [3; 2]%nat [Some 1; Some 2; Some 0; Some 3; Some 4; None]).
  split; [repeat split; simpl; auto|unfold npix; simpl; lia].
Qed.


(** C05. Other pixels do not matter as long as the set of fully flagged planes is the same. *)
Theorem C05_other_pixels_irrelevant : forall Q U Q' U' l2 phi wA lam0in p,
  valid_synth Q U l2 wA -> shape Q' = shape Q -> shape U' = shape U -> (p < npix Q)%nat ->
  (forall j, (j < length l2)%nat ->
     at2 (npix Q) None (flat Q) j p = at2 (npix Q) None (flat Q') j p /\
     at2 (npix Q) None (flat U) j p = at2 (npix Q) None (flat U') j p) ->
  (forall j, (j < length l2)%nat -> (plane_flagged Q U j <-> plane_flagged Q' U' j)) ->
  exists r r', do_rmsynth_planes Q U l2 phi wA lam0in = Some r /\
    do_rmsynth_planes Q' U' l2 phi wA lam0in = Some r' /\
    synth_lam0 r = synth_lam0 r' /\
    forall k, (k < length phi)%nat ->
      at2 (npix Q) None (flat (FDFcube r)) k p = at2 (npix Q) None (flat (FDFcube r')) k p.
Proof. exact synth_other_pixels. Qed.
Print Assumptions C05_other_pixels_irrelevant.
Example C05_other_nonvacuous : exists Q U Q' U' : nd (option R), valid_synth Q U e_l2 e_w /\ shape Q' = shape Q /\ shape U' = shape U /\
  Q <> Q' /\ (forall j, (j < 3)%nat -> at2 2 None (flat Q) j 0 = at2 2 None (flat Q') j 0 /\ at2 2 None (flat U) j 0 = at2 2 None (flat U') j 0) /\
  (forall j, (j < 3)%nat -> (plane_flagged Q U j <-> plane_flagged Q' U' j)).
Proof.
  exists (mk_nd [3; 2]%nat [Some 1; Some 2; None; Some 3; Some 4; Some 5]),
         (mk_nd [3; 2]%nat [Some 1; Some 2; Some 0; Some 3; Some 4; None]),
         (mk_nd [3; 2]%nat [Some 1; None; None; Some 8; Some 4; Some 5]),
         (mk_nd [3; 2]%nat [Some 1; Some 2; Some 0; Some 3; Some 4; Some 6]).
  split; [repeat split; simpl; auto|]. split; [reflexivity|]. split; [reflexivity|]. split; [discriminate|]. split.
  - intros j Hj. destruct j as [|[|[|j]]]; try lia; split; reflexivity.
  - intros j Hj. unfold plane_flagged, at2, npix. simpl.
    split; intros H; exfalso;
    destruct j as [|[|[|j]]]; try lia;
    [ specialize (H 0%nat ltac:(lia)) | specialize (H 1%nat ltac:(lia)) | specialize (H 0%nat ltac:(lia))
    | specialize (H 0%nat ltac:(lia)) | specialize (H 1%nat ltac:(lia)) | specialize (H 0%nat ltac:(lia)) ];
    simpl in H; destruct H; discriminate.
Qed.


(** C06. Changing the reference wavelength rotates phases only. *)
Theorem C06_lam0_phase : forall dataQ dataU l2 phi wA a b,
  valid_synth dataQ dataU l2 wA -> antisym phi ->
  exists ra rb,
    do_rmsynth_planes dataQ dataU l2 phi wA (Some a) = Some ra /\
    do_rmsynth_planes dataQ dataU l2 phi wA (Some b) = Some rb /\
    forall k p, (k < length phi)%nat -> (p < npix dataQ)%nat ->
      at2 (npix dataQ) None (flat (FDFcube rb)) k p =
      option_map (fun z => cis (2 * nth k phi 0 * (b - a)) * z)%C (at2 (npix dataQ) None (flat (FDFcube ra)) k p).
Proof. exact synth_lam0_phase. Qed.
Print Assumptions C06_lam0_phase.


(** C07. The RMSF is the normalised transform of the weights of the unmasked channels of each pixel: on any grid when only whole planes are masked, on antisymmetric grids otherwise. Both code paths therefore agree. *)
Theorem C07_rmsf_refines : forall fit l2 phi wA msk lam0in double fitRMSF phi2,
  valid_rmsf l2 wA msk -> phi2_grid double phi = Some phi2 ->
  exists r, get_rmsf_planes fit l2 phi wA (Some msk) lam0in double fitRMSF = RetOk r /\
    phi2Arr r = phi2 /\
    forall k p l0, (k < length phi2)%nat -> (p < mpix msk)%nat -> rmsf_lam0 r = Some l0 ->
      let chs := mask_chans (length l2) (mpix msk) (flat msk) l2 (weights_of (length l2) wA) p in
      wsum chs <> 0 ->
      antisym phi \/ (forall j, (j < length l2)%nat ->
          (forall p, (p < mpix msk)%nat -> nth (j * mpix msk + p) (flat msk) false = true) \/
          (forall p, (p < mpix msk)%nat -> nth (j * mpix msk + p) (flat msk) false = false)) ->
      at2 (mpix msk) None (flat (RMSFcube r)) k p = Some (RMSF_spec chs l0 (nth k phi2 0)).
Proof. exact rmsf_refines. Qed.
Print Assumptions C07_rmsf_refines.
Example C07_nonvacuous : valid_rmsf e_l2 e_w e_msk /\ (exists phi2, phi2_grid true e_phi = Some phi2) /\
  wsum (mask_chans 3 1 (flat e_msk) e_l2 (weights_of 3 e_w) 0) <> 0.
Proof.
  split; [apply e_rmsf_valid|]. split; [destruct e_phi2 as (p & E & _); eauto|]. rewrite e_mask_wsum. lra.
Qed.


(** C07. RMSF: 1 at depth 0, modulus at most 1, conjugate-symmetric. *)
Theorem C07_rmsf_norm_bound_sym : forall fit l2 phi wA msk lam0in double fitRMSF phi2 p,
  valid_rmsf l2 wA msk -> phi2_grid double phi = Some phi2 -> nonneg_w wA -> (p < mpix msk)%nat ->
  antisym phi ->
  0 < wsum (mask_chans (length l2) (mpix msk) (flat msk) l2 (weights_of (length l2) wA) p) ->
  exists r, get_rmsf_planes fit l2 phi wA (Some msk) lam0in double fitRMSF = RetOk r /\
    forall k, (k < length phi2)%nat -> rmsf_lam0 r <> None ->
      exists z, at2 (mpix msk) None (flat (RMSFcube r)) k p = Some z /\
        Cmod z <= 1 /\
        (nth k phi2 0 = 0 -> z = RtoC 1) /\
        at2 (mpix msk) None (flat (RMSFcube r)) (length phi2 - 1 - k) p = Some (Cconj z).
Proof. exact rmsf_norm_bound_sym. Qed.
Print Assumptions C07_rmsf_norm_bound_sym.

