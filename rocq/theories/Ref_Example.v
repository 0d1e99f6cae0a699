(** Counterexamples and examples for the deprecated and prototype routines. *)
From Coq Require Import Reals List Arith ZArith Bool Lra Lia.
Set Warnings "-ambiguous-paths".
From Coquelicot Require Import Coquelicot.
From Verif Require Import PyRes CBase NdArray PyList Interp_Model Synth_Model Synth_Spec Synth_Proofs Rmsf_Proofs
  Clean_Model Clean_Spec Clean_Proofs Clean_Total Ref_Model Ref_Spec Ref_Proofs Ref_Dep Ref_Clean Ref_Noise.
Import ListNotations.
Local Open Scope R_scope.

(** Two channels and two pixels; channel 0 of pixel 0 is flagged. *)
Definition v_Q : nd (option R) := mk_nd [2%nat; 2%nat] [None; Some 1; Some 1; Some 1].
Definition v_U : nd (option R) := mk_nd [2%nat; 2%nat] [None; Some 0; Some 0; Some 0].
Definition v_l2 : list R := [1; 1].
Definition v_phi : list R := [-1; 1].

Lemma v_valid : valid_spectral v_Q v_U v_l2 None.
Proof. repeat split; cbn; lia. Qed.

(** A flagged voxel makes the deprecated spectrum too small: here by two. *)
Theorem dep_isolated_flag_refuted : forall fit, exists r, do_rmsynth fit v_Q v_U v_l2 v_phi None = DOk r /\
  let chs := spec_chans 2 (flat v_Q) (flat v_U) v_l2 (given_weights 2 None) 0 in
  let live := spec_live 2 2 (flat v_Q) (flat v_U) v_l2 (given_weights 2 None) in
  at2 2 None (flat (d_FDF r)) 0 0 = Some (FDF_spec chs (mean_l2 live) (-1) / RtoC 2)%C /\
  at2 2 None (flat (d_FDF r)) 0 0 <> Some (FDF_spec chs (mean_l2 live) (-1)).
Proof.
  intros fit. destruct (dep_total fit v_Q v_U v_l2 v_phi None v_valid ltac:(discriminate) ltac:(cbn; lia)) as [r Er]. exists r. split; [exact Er|].
  pose proof (dep_refines fit v_Q v_U v_l2 v_phi None r v_valid Er) as (_ & _ & D). specialize (D 0%nat 0%nat ltac:(cbn; lia) ltac:(cbn; lia)). cbv zeta in D.
  change (length v_l2) with 2%nat in D. change (spix v_Q) with 2%nat in D. change (length v_phi) with 2%nat in D. change (nth 0 v_phi 0) with (-1) in D.
  cbv zeta. set (chs := spec_chans 2 (flat v_Q) (flat v_U) v_l2 (given_weights 2 None) 0) in *.
  set (live := spec_live 2 2 (flat v_Q) (flat v_U) v_l2 (given_weights 2 None)) in *.
  assert (EL : live = [mk_chan 1 1 (RtoC 0); mk_chan 1 1 (RtoC 0)]) by reflexivity.
  assert (EC : chs = [mk_chan 1 1 (1, 0)]) by reflexivity.
  assert (WL : wsum live = 2) by (rewrite EL; unfold wsum, rsum; cbn; lra).
  assert (WC : wsum chs = 1) by (rewrite EC; unfold wsum, rsum; cbn; lra).
  assert (ML : mean_l2 live = 1) by (unfold mean_l2; rewrite WL, EL; unfold rsum; cbn; field).
  destruct D as (_ & D & _). rewrite WL, WC in D. specialize (D ltac:(lra) ltac:(lra)).
  assert (F : FDF_spec chs (mean_l2 live) (-1) = RtoC 1).
  { unfold FDF_spec. rewrite WC, ML, EC. cbn [map c_w c_P c_l2]. rewrite csum_cons, csum_nil. replace (-2 * -1 * (1 - 1)) with 0 by ring. rewrite cis_0.
    change ((1, 0) : C) with (RtoC 1). rewrite <- !RtoC_mult, <- RtoC_plus. unfold Cdiv. rewrite <- RtoC_inv by lra. rewrite <- RtoC_mult. f_equal. field. }
  rewrite D, F. split.
  - f_equal. unfold Cdiv. rewrite <- RtoC_inv by lra. f_equal. f_equal. lra.
  - intros H. injection H as H. lra.
Qed.

(** The wavelength asked for is not used by the prototype of the RMSF. *)
Theorem noise_rmsf_lam0_refuted : forall fit, exists r,
  threeDnoise_get_rmsf_planes fit [1] [PI / 2] None (Some 0) false false false = OROk r /\
  nth 0 (flat (or_cube r)) None = Some (RMSF_spec [mk_chan 1 1 (RtoC 0)] 1 (PI / 2)) /\
  nth 0 (flat (or_cube r)) None <> Some (RMSF_spec [mk_chan 1 1 (RtoC 0)] 0 (PI / 2)).
Proof.
  intros fit. destruct (noise_rmsf_refines fit [1] [PI / 2] None (Some 0) false false false [PI / 2] ltac:(discriminate) Logic.I eq_refl) as (r & Er & _ & S). exists r. split; [exact Er|].
  cbv zeta in S. specialize (S 0%nat ltac:(cbn; lia)). change (weight_chans _ _ _ _ _) with [mk_chan 1 1 (RtoC 0)] in S.
  assert (WS : wsum [mk_chan 1 1 (RtoC 0)] = 1) by (unfold wsum, rsum; cbn; lra).
  specialize (S ltac:(rewrite WS; lra) 0%nat ltac:(cbn; lia)). change (nth 0 [PI / 2] 0) with (PI / 2) in S.
  assert (M : mean_l2 [mk_chan 1 1 (RtoC 0)] = 1) by (unfold mean_l2; rewrite WS; unfold rsum; cbn; field). rewrite M in S. change (0 * _ + 0)%nat with 0%nat in S.
  rewrite S. split; [reflexivity|]. intros H. assert (G : forall a b : C, Some a = Some b -> a = b) by congruence. apply G in H. clear G.
  revert H. unfold RMSF_spec. rewrite WS. cbn [map c_w c_P c_l2]. rewrite !csum_cons, !csum_nil.
  replace (-2 * (PI / 2) * (1 - 1)) with 0 by ring. replace (-2 * (PI / 2) * (1 - 0)) with (- PI) by field. rewrite cis_0.
  unfold cis. rewrite cos_neg, sin_neg, cos_PI, sin_PI. unfold Cdiv. rewrite <- RtoC_inv by lra. intros H. apply (f_equal fst) in H. cbn in H. lra.
Qed.

(** The deprecated CLEAN at work. *)
Definition k_fit : list R -> list (option C) -> option (Z * R) := fun _ _ => Some (1%Z, 2).
Definition k_phi : list R := [0; 1].
Definition k_phi2 : list R := [-1; 0; 1; 2].
Definition k_rm : list C := [RtoC 0; RtoC 1; RtoC 0; RtoC 0].
Definition k_d : list C := [RtoC 1; RtoC 0].

Lemma k_ext : extends_by 1 k_phi k_phi2.
Proof.
  split; [lia|]. split; [reflexivity|]. split.
  - unfold k_phi2. repeat (constructor; [cbn; intuition lra|]). constructor.
  - intros [|[|i]] Hi; cbn in *; try reflexivity; lia.
Qed.
Lemma k_inc : increasing k_phi.
Proof. intros i j Hij. cbn in Hij. assert (i = 0%nat /\ j = 1%nat) by lia. destruct H as [-> ->]. cbn. lra. Qed.

Lemma k_runs : exists r, do_rmclean k_fit k_d k_phi [1; 4] (1 / 2) 10 1 None (Some (k_rm, Some k_phi2)) = DCOk r /\ dc_fwhm r = 2.
Proof.
  assert (HP : peak_at k_rm 1).
  { split; [cbn; lia|]. intros k Hk N. do 4 (destruct k as [|k]; [cbn; try lra; lia|]). cbn in Hk. lia. }
  destruct (rmclean_1d_total k_d k_phi k_rm k_phi2 2 (1 / 2) 10 1 None 1 eq_refl eq_refl ltac:(cbn; lia) ltac:(cbn; lia) HP) as [c Ec].
  { split; [exists 1%nat; cbn; lia|cbn; lia]. }
  apply (dep_clean_returns k_fit k_d k_phi [1; 4] (1 / 2) 10 1 None k_rm k_phi2 1 k_inc ltac:(cbn; lia) k_ext None 1%Z 2 c eq_refl ltac:(lia) Logic.I); [|exact Ec].
  assert (Cmod (RtoC 1) <= maxabs k_d) by (apply maxabs_ge; now left). rewrite Cmod_1 in H. lra.
Qed.

(** A 2 x 1 x 2 cube with a weight per voxel. *)
Definition n_Q : nd (option R) := mk_nd [2%nat; 1%nat; 2%nat] [Some 1; None; Some 1; Some 2].
Definition n_U : nd (option R) := mk_nd [2%nat; 1%nat; 2%nat] [Some 0; Some 1; Some 1; Some 2].
Definition n_w : nd (option R) := mk_nd [2%nat; 1%nat; 2%nat] [Some 1; Some 2; Some 3; None].

Lemma n_valid : valid_noise n_Q n_U [1; 4] (Some n_w) /\
  let w := voxel_weights (prodn (shape n_Q)) (Some n_w) in
  wsum (voxel_live 2 2 (flat n_Q) (flat n_U) [1; 4] w 0) <> 0 /\ wsum (voxel_chans 2 2 (flat n_Q) (flat n_U) [1; 4] w 0) <> 0.
Proof. split; [repeat split; cbn; lia|]. cbv zeta. unfold wsum, rsum. cbn. lra. Qed.
