(** Examples for the Stokes I cube tools: a fit and its rescaling. *)
From Coq Require Import Reals List Arith ZArith Bool Ascii String Lia Lra.
Set Warnings "-ambiguous-paths".
From Coquelicot Require Import Coquelicot.
From Verif Require Import CBase PyRes PyStr PyStr_Proofs PyList NdArray NdIndex Interp_Model Synth_Model Setup_Model Measure_Model Median_Proofs
  StokesI_Model StokesI_Spec StokesI_Proofs StokesI_Fit Cube_Model Cube_Spec Cube_Proofs Icube_Model Icube_Spec Icube_Proofs Icube_Fit Icube_Rescale Icube_Maps Icube_Refute.
Import ListNotations.
Local Open Scope R_scope.

Definition z_image : image (option R) := z_cube z_ctype z_sky.

(** A fit of order one over four pixels, then rescaled to the frequency 3: what
    the theorems on the rescaled maps ask for. *)
Lemma z_rescaled : exists w v, fitIcube z_mpfit z_image true [] [1; 2] 1 (-3) (s "linear") false = POk w /\ rescale w (Given 3) = POk v /\
  maps_of_size w 2 2 /\ fitted_with w (s "linear") /\ v_ref v = 3 /\
  (forall i, (i < List.length (w_coeff w))%nat -> exists y x r, (y < 2)%nat /\ (x < 2)%nat /\ ref_at w y x = Some r /\ 0 < r /\ says (coeff_at w i y x)) /\
  (forall y x, (y < 2)%nat -> (x < 2)%nat -> exists r, ref_at w y x = Some r /\ 0 < r /\ pixel_coeffs w y x [0; 0; 0; 0; 1; 1]) /\
  (forall y x, (y < 2)%nat -> (x < 2)%nat -> exists fr, stands_for w Linear y x fr /\ params fr = [0; 0; 0; 0; 1; 1]).
Proof.
  destruct z_runs as (w & E). fold z_image in E.
  destruct (fit_cube _ _ 3 _ _ _ _ _ _ Linear _ w (z_sky_cube _) z_six z_known E) as (_ & _ & Lc & Mw & _ & _ & PX). change (maps_of_size w 2 2) in Mw.
  pose proof (fit_files_fitted _ _ 3 _ _ _ _ _ _ Linear _ w (z_sky_cube _) z_six z_known E) as FW.
  destruct (proj2 (rescale_runs w (Given 3) 2 2 _ Linear Mw z_known FW) Logic.I) as (v & Ev).
  assert (Rv : v_ref v = 3) by exact (proj1 (rescale_spectra _ _ _ _ _ _ _ Mw z_known FW Ev)).
  change (S (Z.abs_nat 1)) with 2%nat in Lc.
  assert (PP : forall y x, (y < 2)%nat -> (x < 2)%nat -> exists fr, pixel_says w [1; 2] y x fr /\ params fr = [0; 0; 0; 0; 1; 1] /\ fit_function fr = Linear /\ 0 < ref_freq fr /\ pcov fr = Some (fun a b => if (a =? b)%nat then 1 else 0)).
  { intros y x Hy Hx. destruct (PX y x Hy Hx) as (_ & _ & P & _). destruct (P ltac:(discriminate) (z_fittable y x Hy Hx)) as (fr & EF & PS). exists fr. split; [exact PS|].
    destruct (fit_order_selection z_mpfit [1; 2] (spectrum (z_cube z_ctype z_sky) 3 y x) (map (channel_noise (z_cube z_ctype z_sky) 3 (-3)) (seq 0 2)) 1%Z Linear fr eq_refl eq_refl ltac:(discriminate) EF) as (mp & Em & Ep & _ & _ & _ & Ecv & Erf & Eff & Po & _).
    injection Em as <-. split; [rewrite Ep, (Po ltac:(lia)); reflexivity|]. split; [exact Eff|]. split; [|exact Ecv].
    rewrite Erf. destruct (z_noise 0 ltac:(lia)) as (n0 & N0). destruct (z_noise 1 ltac:(lia)) as (n1 & N1).
    set (sp := spectrum _ 3 y x). assert (ES : sp = [z_sky 0 y x; z_sky 1 y x]) by (unfold sp, spectrum; change (len (i_naxis (z_cube z_ctype z_sky)) 3) with 2%nat; cbn [seq map]; rewrite !z_sample by lia; reflexivity).
    cbn [seq map]. rewrite N0, N1, ES.
    unfold fit_ref. cbn [finite_chans List.length seq flat_map nth z_sky app map fst]. apply Rdiv_lt_0_compat; [lra|]. apply sqrt_lt_R0. unfold mean, rsum. cbn. apply Rdiv_lt_0_compat; lra. }
  assert (PC : forall y x, (y < 2)%nat -> (x < 2)%nat -> exists fr, pixel_says w [1; 2] y x fr /\ params fr = [0; 0; 0; 0; 1; 1] /\ 0 < ref_freq fr /\ stands_for w Linear y x fr /\ pixel_coeffs w y x [0; 0; 0; 0; 1; 1]).
  { intros y x Hy Hx. destruct (PP y x Hy Hx) as (fr & PS & Ep & Eff & Hr & Ecv). exists fr. destruct PS as (P1 & P2 & P3 & P4).
    assert (HP : pixel_coeffs w y x [0; 0; 0; 0; 1; 1]).
    { split; [reflexivity|]. intros i Hi. rewrite Lc. split; intros L.
      - rewrite (proj1 (P3 i ltac:(lia))), Ep. reflexivity.
      - do 6 (destruct i as [|i]; [try (exfalso; lia); reflexivity|]). lia. }
    split; [repeat split; auto; apply P3; auto|]. split; [exact Ep|]. split; [exact Hr|]. split; [|exact HP].
    split; [exact Eff|]. split; [exact P1|]. split; [exact Hr|]. split; [rewrite Ep; exact HP|]. eexists. split; [exact Ecv|]. intros a b Ha Hb. rewrite P4 by auto. rewrite Ecv. reflexivity. }
  exists w, v. split; [exact E|]. split; [exact Ev|]. split; [exact Mw|]. split; [exact FW|]. split; [exact Rv|]. split; [|split].
  - intros i Hi. destruct (PC 0%nat 0%nat ltac:(lia) ltac:(lia)) as (fr & PS & Ep & Hr & _ & _). exists 0%nat, 0%nat, (ref_freq fr). split; [lia|]. split; [lia|]. split; [exact (proj1 PS)|]. split; [exact Hr|].
    exists 1. split; [|lra]. rewrite (proj1 (proj1 (proj2 (proj2 PS)) i Hi)), Ep. rewrite Lc in Hi. destruct i as [|[|i]]; [reflexivity|reflexivity|lia].
  - intros y x Hy Hx. destruct (PC y x Hy Hx) as (fr & PS & Ep & Hr & _ & HP). exists (ref_freq fr). split; [exact (proj1 PS)|]. auto.
  - intros y x Hy Hx. destruct (PC y x Hy Hx) as (fr & PS & Ep & Hr & SF & HP). exists fr. auto.
Qed.

(** One raising fit *)
Lemma z_raise : six (fun _ => PErr) /\ fit_StokesI_model (fun _ => PErr) [1; 2] (spectrum z_image 3 0 0) (map (channel_noise z_image 3 (-3)) (seq 0 2)) 1 Linear = PErr.
Proof.
  split; [intros q r E; discriminate|]. unfold fit_StokesI_model. destruct (good_chans _ _ _); [reflexivity|]. cbv zeta. cbn [Z.ltb Z.compare].
  unfold fit_spec_poly5. reflexivity.
Qed.

(** Files with one blank pixel *)
Definition b_map : nd (option R) := tab_nd [2; 2]%nat (fun i => if (nth 0 i 0 =? 0)%nat then None else Some 1).
Definition b_files : fit_files := mk_fit_files b_map [(b_map, b_map)] b_map (tab_nd [6; 6; 2; 2]%nat (fun _ => None)) z_image [] [s "Fit model is 0-order log-polynomial"].
Lemma b_blank : maps_of_size b_files 2 2 /\ fitted_with b_files (s "log") /\ ref_at b_files 0 0 = None /\ (forall i, (i < List.length (w_coeff b_files))%nat -> coeff_at b_files i 0 0 = None) /\ exists v, rescale b_files Common = POk v.
Proof.
  assert (M : maps_of_size b_files 2 2).
  { split; [reflexivity|]. split; [apply wf_tab_nd|]. split; [reflexivity|]. split; [apply wf_tab_nd|]. split; [cbn; lia|].
    intros p I. repeat destruct I as [<-|I]; try (split; [reflexivity|apply wf_tab_nd]). destruct I. }
  assert (F : fitted_with b_files (s "log")).
  { exists [], (s "Fit model is 0-order log-polynomial"), []. split; [reflexivity|]. split; [|intros l []]. exists (s "0"). split; [reflexivity|]. left. reflexivity. }
  split; [exact M|]. split; [exact F|]. split; [reflexivity|]. split.
  - intros i Hi. cbn in Hi. assert (i = 0%nat) as -> by lia. reflexivity.
  - apply (rescale_runs b_files Common 2 2 (s "log") Log M ltac:(right; auto) F). exists 1%nat, 0%nat. split; [lia|]. split; [lia|]. discriminate.
Qed.

(** A cube without structure *)
Lemma z_flat : exists w, fitIcube z_mpfit (z_cube z_ctype (fun _ _ _ => Some 1)) true [] [1; 2] 0 (-3) (s "linear") false = POk w /\
  forall j, (j < 2)%nat -> forall v, In v (channel_values (z_cube z_ctype (fun _ _ _ => Some 1)) 3 j) -> v = 1.
Proof.
  destruct (proj2 (fit_cube_runs z_mpfit (z_cube z_ctype (fun _ _ _ => Some 1)) 3 true [] [1; 2] 0 (-3) _ Linear false (z_sky_cube _) z_six z_known z_total)) as (w & E).
  { split; [reflexivity|]. split; [lia|]. split; [reflexivity|]. intros E. exfalso. cbn in E. lia. }
  exists w. split; [exact E|]. intros j Hj v I. unfold channel_values in I. apply in_flat_map in I. destruct I as (y & Iy & I). apply in_flat_map in I. destruct I as (x & Ix & I).
  apply in_seq in Iy. apply in_seq in Ix. cbn in Iy, Ix. rewrite z_sample in I by lia. destruct I as [<-|[]]. reflexivity.
Qed.
