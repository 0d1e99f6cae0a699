(** The 3-D tool: a spectrum depends on the rest of the cube only through the
    reference wavelength; the 1-D tool gives the same up to that. Images of one
    column with Stokes I. *)
From Coq Require Import Reals List Arith ZArith Bool Ascii String Lra Lia.
Set Warnings "-ambiguous-paths".
From Coquelicot Require Import Coquelicot.
From Verif Require Import CBase PyRes PyStr PyList NdArray NdIndex Synth_Model Synth_Spec Synth_Proofs Synth_Laws Setup_Model Setup_Spec Setup_Proofs Cube_Model Cube_Spec Cube_Proofs Cube_Laws
  StokesI_Model Measure_Model Clean_Grid Run1D_Model Run1D_Spec Run1D_Proofs Run1D_Laws Pixfit_Model Pixfit_Spec Pixfit_Proofs Pixfit_Laws
  Run3D_Model Run3D_Spec Run3D_Proofs Run3D_Laws Run3D_Total Run3D_Thin.
Import ListNotations.
Local Open Scope R_scope.

Lemma FDF_other_ref : forall chs l0 l1 f, FDF_spec chs l1 f = (cis (2 * f * (l1 - l0)) * FDF_spec chs l0 f)%C.
Proof.
  intros chs l0 l1 f. unfold FDF_spec, Cdiv. rewrite Cmult_assoc. f_equal. rewrite <- csum_map_scal. apply csum_map_ext. intros c _.
  replace (-2 * f * (c_l2 c - l1)) with (2 * f * (l1 - l0) + -2 * f * (c_l2 c - l0)) by ring. rewrite cis_plus. ring.
Qed.


(** A pixel in one cube and the same spectrum in another. *)
Theorem same_spectrum : forall Q U Q' U' k k' freq rms o, good_files Q U None k freq -> good_files Q' U' None k' freq -> good_rms o rms (List.length freq) -> good_opts3 o freq ->
  forall fit fit' out out' f f', rmsynth3d fit Q U None freq rms o = POk out -> rmsynth3d fit' Q' U' None freq rms o = POk out' -> o_fdf out = Some f -> o_fdf out' = Some f' ->
  forall p p', in_image (i_naxis (f_image f)) p -> in_image (i_naxis (f_image f')) p' -> p' k' = p k ->
  (forall j, (j < List.length freq)%nat -> frac_vox Q' U' None (at_chan p' k' j) = frac_vox Q U None (at_chan p k j)) ->
  let phi := world (CRVAL (f_axis f)) (CRPIX (f_axis f)) (CDELT (f_axis f)) (S (p k)) in
  vox None (f_image f') p' = option_map (fun z => cis (2 * phi * (f_lamsq0 f' - f_lamsq0 f)) * z)%C (vox None (f_image f) p).
Proof.
  intros Q U Q' U' k k' freq rms o GF GF' GR GO fit fit' out out' f f' RUN RUN' EF EF' p p' Hp Hp' EK EV phi.
  destruct (files_of Q U None k freq rms o GF GR GO fit out f RUN EF) as (ph & h & step & mx & rm & G3 & GG & Hh & _ & RF & AL & AG & HF & _).
  destruct (files_of Q' U' None k' freq rms o GF' GR GO fit' out' f' RUN' EF') as (ph' & h' & step' & mx' & rm' & G3' & GG' & Hh' & _ & RF' & AL' & AG' & HF' & _).
  rewrite <- (grid_of_fun _ _ _ _ GG GG') in *. clear ph' GG' G3'.
  assert (Lk : (p k < List.length ph)%nat).
  { destruct AL as (_ & E & _). rewrite E in Hp. now apply (coord_lt Q U None k freq rms o GF GR GO). }
  assert (EP : nth (p k) ph 0 = phi) by (destruct AG as [_ AW]; rewrite <- (AW (p k) Lk); reflexivity).
  destruct (HF p Hp) as (i0 & RS & A1 & A2 & A3). destruct (HF' p' Hp') as (i0' & RS' & A1' & A2' & A3'). cbn in RS, RS'. subst i0 i0'. cbv zeta in *.
  set (w := weight3 o rms) in *.
  assert (EC : sky_chans Q' U' None k' freq w p' = sky_chans Q U None k freq w p).
  { unfold sky_chans. rewrite !flat_map_concat_map. f_equal. apply map_ext_in. intros j Ij. apply in_seq in Ij. rewrite EV by lia. reflexivity. }
  rewrite EC in A2', A3'. set (chs := sky_chans Q U None k freq w p) in *.
  destruct (Req_EM_T (wsum chs) 0) as [Z|Z]; [rewrite A2, A2' by exact Z; reflexivity|].
  destruct (A3 1 eq_refl Z) as [B1 B2]. destruct (A3' 1 eq_refl Z) as [B1' B2'].
  destruct (all_zero_or_not (FDF_spec chs (f_lamsq0 f)) ph) as [E|E].
  - rewrite B1 by exact E. rewrite B1'; [reflexivity|]. intros x Ix. rewrite (FDF_other_ref chs (f_lamsq0 f)), E by exact Ix. ring.
  - rewrite B2 by exact E. rewrite B2'.
    + cbn [option_map]. f_equal. rewrite EK, EP. rewrite (FDF_other_ref chs (f_lamsq0 f)). ring.
    + destruct E as (x & Ix & Nx). exists x. split; [exact Ix|]. rewrite (FDF_other_ref chs (f_lamsq0 f)). intros X. apply Nx.
      apply (f_equal (fun t => cis (- (2 * x * (f_lamsq0 f' - f_lamsq0 f))) * t)%C) in X. rewrite Cmult_assoc, cis_inv_l, Cmult_0_r, Cmult_1_l in X. exact X.
Qed.

(** A pixel of the cube and the 1-D tool on the same columns, with the same
    weights and the Stokes I of the cube as its model. *)
Theorem same_as_1D : forall Q U I k freq rms o, good_files Q U I k freq -> good_rms o rms (List.length freq) -> good_opts3 o freq ->
  forall fit out f, rmsynth3d fit Q U I freq rms o = POk out -> o_fdf out = Some f ->
  forall mpfit fit1 d o1 iA q u dI dQ dU out1, good_input d (o_noStokesI o1) freq iA q u dI dQ dU -> good_opts mpfit o1 (List.length freq) -> run_rmsynth mpfit fit1 d o1 = POk out1 ->
  forall p i0 I1 j1, in_image (i_naxis (f_image f)) p -> (j1 < List.length (r_phi out1))%nat ->
  (forall j, (j < List.length freq)%nat -> nth j q None = vox None Q (at_chan p k j) /\ nth j u None = vox None U (at_chan p k j) /\
     stokes_vox I (at_chan p k j) = Some (stokes_model o1 (r_fit out1) freq j) /\ nth j (r_weight out1) 0 = weight3 o rms j) ->
  ref_stokes3 freq (f_lamsq0 f) I k p (Some i0) -> r_Ifreq0 out1 = Some I1 ->
  nth j1 (r_phi out1) 0 = world (CRVAL (f_axis f)) (CRPIX (f_axis f)) (CDELT (f_axis f)) (S (p k)) ->
  exists z1, nth j1 (r_FDF out1) None = Some z1 /\
    (forall z, vox None (f_image f) p = Some z -> (RtoC I1 * z)%C = (RtoC i0 * (cis (2 * nth j1 (r_phi out1) 0 * (f_lamsq0 f - r_lam0 out1)) * z1))%C) /\
    (vox None (f_image f) p = None -> z1 = RtoC 0).
Proof.
  intros Q U I k freq rms o GF GR GO fit out f RUN EF mpfit fit1 d o1 iA q u dI dQ dU out1 GI GO1 RUN1 p i0 I1 j1 Hp Hj EV RS EI EP.
  destruct (files_of Q U I k freq rms o GF GR GO fit out f RUN EF) as (ph & h & step & mx & rm & G3 & GG & Hh & _ & RF & AL & AG & HF & _).
  destruct (run_refines mpfit fit1 d o1 freq iA q u dI dQ dU out1 GI GO1 RUN1) as (h1 & st1 & pm & I0 & _ & _ & _ & _ & _ & _ & WP & _ & _ & _ & _ & _ & EI' & _ & _ & V).
  rewrite EI in EI'. injection EI' as <-. rewrite V by exact Hj. eexists. split; [reflexivity|].
  assert (Lk : (p k < List.length ph)%nat).
  { destruct AL as (_ & E & _). rewrite E in Hp. now apply (coord_lt Q U I k freq rms o GF GR GO). }
  assert (EK : nth (p k) ph 0 = nth j1 (r_phi out1) 0) by (destruct AG as [_ AW]; rewrite <- (AW (p k) Lk), EP; reflexivity).
  set (w := weight3 o rms) in *.
  assert (EC : used_chans freq q u (stokes_model o1 (r_fit out1) freq) (r_weight out1) = sky_chans Q U I k freq w p).
  { unfold used_chans, sky_chans. rewrite !flat_map_concat_map. f_equal. apply map_ext_in. intros j Ij. apply in_seq in Ij. destruct (EV j ltac:(lia)) as (E1 & E2 & E3 & E4).
    unfold frac_vox. rewrite E1, E2, E3, E4. destruct (vox None Q (at_chan p k j)), (vox None U (at_chan p k j)); try reflexivity.
    destruct (Req_EM_T (stokes_model o1 (r_fit out1) freq j) 0); reflexivity. }
  rewrite EC in *. set (chs := sky_chans Q U I k freq w p) in *.
  destruct (HF p Hp) as (i0' & RS' & A1 & A2 & A3). cbv zeta in *. fold chs in A2, A3.
  rewrite (ref_stokes_fun Q U I k freq rms o GF (f_lamsq0 f) p i0' (Some i0)) in A3; auto; [|eapply ref_nonneg; eauto].
  destruct (A3 i0 eq_refl ltac:(lra)) as [B1 B2]. rewrite EK in B2. rewrite (FDF_other_ref chs (r_lam0 out1) (f_lamsq0 f)) in B2.
  destruct (all_zero_or_not (FDF_spec chs (f_lamsq0 f)) ph) as [E|E].
  - rewrite (B1 E). split; [discriminate|]. intros _. specialize (E (nth j1 (r_phi out1) 0)). rewrite <- EK in E at 1. specialize (E (nth_In ph 0 Lk)).
    rewrite (FDF_other_ref chs (f_lamsq0 f) (r_lam0 out1)), E. ring.
  - rewrite (B2 E). split; [|discriminate]. intros z [= <-]. ring.
Qed.
