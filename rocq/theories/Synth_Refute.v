(** Witnesses for claims that fail on the faithful model, and concrete inputs
    meeting the hypotheses of the positive theorems. *)
From Coq Require Import Reals List Arith ZArith Lia Lra Bool.
Set Warnings "-ambiguous-paths".
From Coquelicot Require Import Coquelicot.
From Verif Require Import CBase NdArray Interp_Model Synth_Model Synth_Spec Synth_Proofs Synth_Laws Rmsf_Proofs.
Import ListNotations.
Local Open Scope R_scope.

(** Two channels, RM = 0 source of amplitude 1, grid [0, pi/2]. *)
Definition w_Q : nd (option R) := mk_nd [2%nat] [Some 1; Some 1].
Definition w_U : nd (option R) := mk_nd [2%nat] [Some 0; Some 0].
Definition w_l2 : list R := [0; 1].
Definition w_phi : list R := [0; PI / 2].

Lemma w_valid : valid_synth w_Q w_U w_l2 None.
Proof. repeat split; simpl; auto. Qed.

Lemma grid_refuted : exists dataQ dataU l2 phi lam0 r,
  valid_synth dataQ dataU l2 None /\ thin_pixel dataQ dataU l2 0 1 0 0 /\
  do_rmsynth_planes dataQ dataU l2 phi None (Some lam0) = Some r /\
  nth 0 phi 0 = 0 /\ nth 1 phi 0 <> 0 /\
  at2 1 None (flat (FDFcube r)) 0 0 = Some (RtoC 0) /\
  at2 1 None (flat (FDFcube r)) 1 0 = Some (RtoC 1) /\
  FDF_spec (pixel_chans 2 1 (flat dataQ) (flat dataU) l2 [1; 1] 0) lam0 0 = RtoC 1.
Proof.
  exists w_Q, w_U, w_l2, w_phi, 0. eexists.
  split; [apply w_valid|]. split.
  { intros j q u Hj. simpl in Hj. destruct j as [|[|j]]; [| |lia]; unfold at2; simpl; intros E1 E2;
      injection E1 as <-; injection E2 as <-; unfold thin; replace (2 * (0 + 0 * _)) with 0 by ring;
      rewrite cis_0; unfold Cmult, RtoC; simpl; f_equal; ring. }
  split; [apply do_rmsynth_eq, w_valid|].
  assert (PI2 : PI / 2 <> 0) by (pose proof PI_RGT_0; lra).
  split; [reflexivity|]. split; [exact PI2|].
  cbn [FDFcube squeeze flat]. change (npix w_Q) with 1%nat.
  rewrite !at2_tab2 by (simpl; lia).
  change (prep_weights (length w_l2) None) with [1; 1]. change (length w_l2) with 2%nat.
  set (oc k := out_cell 2 1 (flat w_Q) (flat w_U) w_l2 w_phi [1; 1] (Some 0) k 0).
  fold (oc 0%nat) (oc 1%nat).
  assert (CH : pixel_chans 2 1 (flat w_Q) (flat w_U) w_l2 [1; 1] 0 = [mk_chan 0 1 (1, 0); mk_chan 1 1 (1, 0)]) by reflexivity.
  assert (W : wsum [mk_chan 0 1 (1, 0); mk_chan 1 1 (1, 0)] = 2).
  { unfold wsum; simpl. rewrite !rsum_cons, rsum_nil. ring. }
  assert (R0 : raw [mk_chan 0 1 (1, 0); mk_chan 1 1 (1, 0)] 0 0 = RtoC 2).
  { unfold raw; simpl. rewrite !csum_cons, csum_nil.
    replace (2 * 0 * (0 - 0)) with 0 by ring. replace (2 * 0 * (1 - 0)) with 0 by ring. rewrite cis_0.
    unfold Cmult, Cplus, RtoC; simpl. f_equal; ring. }
  assert (R1 : raw [mk_chan 0 1 (1, 0); mk_chan 1 1 (1, 0)] 0 (PI / 2) = RtoC 0).
  { unfold raw; simpl. rewrite !csum_cons, csum_nil.
    replace (2 * (PI / 2) * (0 - 0)) with 0 by ring. replace (2 * (PI / 2) * (1 - 0)) with PI by field. rewrite cis_0, cis_PI.
    unfold Cmult, Cplus, RtoC; simpl. f_equal; ring. }
  pose proof (out_cell_val 2 1 (flat w_Q) (flat w_U) w_l2 w_phi [1;1] (Some 0) eq_refl 0 0 ltac:(simpl; lia) ltac:(lia)) as V0.
  pose proof (out_cell_val 2 1 (flat w_Q) (flat w_U) w_l2 w_phi [1;1] (Some 0) eq_refl 1 0 ltac:(simpl; lia) ltac:(lia)) as V1.
  fold (oc 0%nat) in V0. fold (oc 1%nat) in V1.
  rewrite FDF_nth in V0, V1 by (simpl; lia || reflexivity). rewrite CH, W, inv_or_0_nz in V0, V1 by lra.
  cbn [lam0_used] in V0, V1. change (nth (length w_phi - 1 - 0) w_phi 0) with (PI / 2) in V0.
  change (nth (length w_phi - 1 - 1) w_phi 0) with 0 in V1. rewrite R1 in V0. rewrite R0 in V1.
  assert (V1' : nan_to_num (oc 1%nat) = RtoC 1). { rewrite V1, <- RtoC_mult. f_equal. field. }
  assert (NB : oc 1%nat <> None). { intros E. rewrite E in V1'. simpl in V1'. inversion V1'. lra. }
  assert (NB0 : oc 0%nat <> None).
  { intros E. apply NB. unfold oc in *. apply out_cell_blank; try (simpl; lia); auto.
    apply (proj1 (out_cell_blank 2 1 (flat w_Q) (flat w_U) w_l2 w_phi [1;1] (Some 0) eq_refl 0 0 ltac:(simpl; lia) ltac:(lia))). exact E. }
  split; [|split].
  - destruct (oc 0%nat); [|congruence]. simpl in V0. rewrite V0. f_equal. ring.
  - destruct (oc 1%nat); [|congruence]. simpl in V1'. now rewrite V1'.
  - rewrite CH. rewrite <- raw_spec by (rewrite W; lra). rewrite Ropp_0, R0, W, inv_or_0_nz by lra.
    rewrite <- RtoC_mult. f_equal. field.
Qed.

(** Concrete inputs: three channels, the middle one flagged in Q. *)
Definition e_l2 : list R := [1; 2; 3].
Definition e_phi : list R := [-1; 0; 1].
Definition e_w : option (list (option R)) := Some [Some 1; None; Some 3].
Definition e_Q (RM : R) : nd (option R) :=
  mk_nd [3%nat] [Some (fst (thin 2 0 RM 1)); None; Some (fst (thin 2 0 RM 3))].
Definition e_U (RM : R) : nd (option R) :=
  mk_nd [3%nat] [Some (snd (thin 2 0 RM 1)); Some 7; Some (snd (thin 2 0 RM 3))].
Definition e_msk : nd bool := mk_nd [3%nat] [false; true; false].

Lemma e_antisym : antisym e_phi.
Proof. intros k Hk. simpl in Hk. destruct k as [|[|[|k]]]; simpl; try lra; lia. Qed.

Lemma e_valid : forall RM, valid_synth (e_Q RM) (e_U RM) e_l2 e_w.
Proof. intros. repeat split; simpl; auto. Qed.

Lemma e_thin : forall RM, thin_pixel (e_Q RM) (e_U RM) e_l2 0 2 0 RM.
Proof.
  intros RM j q u Hj. simpl in Hj. unfold at2. destruct j as [|[|[|j]]]; simpl; intros E1 E2; try discriminate; try lia;
    injection E1 as <-; injection E2 as <-; symmetry; apply surjective_pairing.
Qed.

Lemma e_nonneg : nonneg_w e_w.
Proof. intros x [H|[H|[H|[]]]]; inversion H; lra. Qed.

Lemma e_wsum : forall RM, wsum (pixel_chans 3 1 (flat (e_Q RM)) (flat (e_U RM)) e_l2 (weights_of 3 e_w) 0) = 4.
Proof. intros. unfold wsum; simpl. rewrite !rsum_cons, rsum_nil. ring. Qed.

Lemma e_rmsf_valid : valid_rmsf e_l2 e_w e_msk.
Proof. split; [discriminate|]. repeat split; simpl; auto. Qed.

Lemma e_mask_wsum : wsum (mask_chans 3 1 (flat e_msk) e_l2 (weights_of 3 e_w) 0) = 4.
Proof. unfold wsum; simpl. rewrite !rsum_cons, rsum_nil. ring. Qed.

Lemma e_mask_flags : forall RM j, (j < length e_l2)%nat ->
  at2 (npix (e_Q RM)) false (flat e_msk) j 0 =
  negb (finite (at2 (npix (e_Q RM)) None (flat (e_Q RM)) j 0) && finite (at2 (npix (e_Q RM)) None (flat (e_U RM)) j 0)).
Proof. intros RM j Hj. simpl in Hj. destruct j as [|[|[|j]]]; try reflexivity. lia. Qed.

Lemma e_phi2 : exists phi2, phi2_grid true e_phi = Some phi2 /\ length phi2 = 7%nat /\ nth 3 phi2 1 = 0.
Proof.
  eexists. split; [apply phi2_double; simpl; lia|]. split; reflexivity.
Qed.
