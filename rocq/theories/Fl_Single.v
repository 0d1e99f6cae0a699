(** Single and double precision, from Flocq. *)
From Coq Require Import Reals List Arith ZArith Lra Lia Psatz Bool Permutation.
Set Warnings "-ambiguous-paths".
From Flocq Require Import Core Relative.
From Coquelicot Require Import Coquelicot.
From Verif Require Import CBase NdArray Synth_Model Synth_Spec Synth_Proofs Synth_Laws QU_Proofs Fl_Model Fl_Spec Fl_Proofs Fl_Synth Fl_Laws Fl_Float.
Import ListNotations.
Local Open Scope R_scope.

#[local] Instance p24 : Prec_gt_0 24. Proof. reflexivity. Qed.
#[local] Instance p53 : Prec_gt_0 53. Proof. reflexivity. Qed.

Lemma f32_rounds : rounds f32 (/ 16777216).
Proof.
  intro x. unfold f32. pose proof (relative_error_N_FLX radix2 24 ltac:(reflexivity) (fun x => negb (Z.even x)) x) as E.
  eapply Rle_trans; [exact E|]. apply Rmult_le_compat_r; [apply Rabs_pos|].
  change (bpow radix2 (- (24) + 1)) with (/ 8388608). lra.
Qed.

Lemma f64_rounds : rounds f64 (/ 9007199254740992).
Proof.
  intro x. unfold f64. pose proof (relative_error_N_FLX radix2 53 ltac:(reflexivity) (fun x => negb (Z.even x)) x) as E.
  eapply Rle_trans; [exact E|]. apply Rmult_le_compat_r; [apply Rabs_pos|].
  change (bpow radix2 (- (53) + 1)) with (/ 4503599627370496). lra.
Qed.

Lemma pow_bern : forall u d, 0 <= u -> (1 + u) ^ d * (1 - INR d * u) <= 1.
Proof.
  intros u d Hu. induction d as [|d IH].
  - cbn [pow INR]. lra.
  - rewrite S_INR. cbn [pow]. assert (0 < (1 + u) ^ d) by (apply pow_lt; lra).
    replace ((1 + u) * (1 + u) ^ d * (1 - (INR d + 1) * u)) with ((1 + u) ^ d * (1 - INR d * u - (INR d + 1) * u ^ 2)) by ring.
    assert (0 <= (INR d + 1) * u ^ 2) by (pose proof (pos_INR d); pose proof (pow2_ge_0 u); apply Rmult_le_pos; lra).
    assert ((1 + u) ^ d * (1 - INR d * u - (INR d + 1) * u ^ 2) <= (1 + u) ^ d * (1 - INR d * u)) by (apply Rmult_le_compat_l; lra). lra.
Qed.

(** up to 1000 additions in single precision *)
Lemma sum_err_1000 : forall d, (d <= 1000)%nat -> (1 + / 16777216) ^ d - 1 <= 6 / 100000.
Proof.
  intros d Hd. pose proof (pow1_le (/ 16777216) d 1000 ltac:(lra) Hd) as M.
  pose proof (pow_bern (/ 16777216) 1000 ltac:(lra)) as B. replace (INR 1000) with 1000 in B by (rewrite INR_IZR_INZ; reflexivity).
  revert M B. generalize ((1 + / 16777216) ^ 1000). intros; lra.
Qed.

Lemma synth_err_single : forall g x, 0 <= g <= 6 / 100000 -> 0 <= x ->
  synth_err (/ 16777216) (/ 9007199254740992) g (1 / 1000000) x <= 62 / 1000000 + 12 / 100000000 * x.
Proof.
  intros g x Hg Hx. unfold synth_err.
  set (u := / 16777216). set (v := / 9007199254740992).
  assert (C1 : (1 + u) ^ 3 <= 1 + 18 / 100000000) by (unfold u; simpl; lra).
  assert (C2 : (1 + u) ^ 2 * (1 + v) - 1 <= 1193 / 10000000000) by (unfold u, v; simpl; lra).
  assert (C3 : 0 <= (1 + u) ^ 2 * (1 + v) - 1) by (unfold u, v; simpl; lra).
  assert (I : / (1 - g) <= 1 + 60004 / 1000000000).
  { apply (Rmult_le_reg_r (1 - g)); [lra|]. rewrite Rinv_l by lra. nra. }
  assert (I0 : 0 < / (1 - g)) by (apply Rinv_0_lt_compat; lra).
  assert (C0 : 0 <= (1 + u) ^ 3) by (apply pow_le; unfold u; lra).
  assert (K : (1 + u) ^ 3 / (1 - g) <= 1 + 602 / 10000000).
  { unfold Rdiv at 1. apply Rle_trans with ((1 + 18 / 100000000) * (1 + 60004 / 1000000000)); [apply Rmult_le_compat; lra|lra]. }
  assert (K0 : 0 <= (1 + u) ^ 3 / (1 - g)) by (apply Rmult_le_pos; lra).
  assert (T : ((1 + u) ^ 2 * (1 + v) - 1) * x <= 1193 / 10000000000 * x) by (apply Rmult_le_compat_r; lra).
  apply Rle_trans with ((1 + 602 / 10000000) * (1 + 1 / 1000000 + 1193 / 10000000000 * x) - 1).
  - apply Rplus_le_compat_r. apply Rmult_le_compat; try lra.
    assert (0 <= ((1 + u) ^ 2 * (1 + v) - 1) * x) by (apply Rmult_le_pos; lra). lra.
  - lra.
Qed.

Lemma single_sums : forall n order,
  (forall l, length l = n -> Permutation (leaves (order l)) l /\ (depth (order l) <= 1000)%nat) ->
  exists g, 0 <= g <= 6 / 100000 /\ sums (fun l => fsum f32 (order l)) n g.
Proof.
  intros n order HO. exists ((1 + / 16777216) ^ 1000 - 1). split.
  - split; [|apply sum_err_1000, le_n]. pose proof (pow_R1_Rle (1 + / 16777216) 1000 ltac:(lra)) as P. revert P.
    generalize ((1 + / 16777216) ^ 1000). intros; lra.
  - apply tree_sums; [apply f32_rounds|lra|exact HO].
Qed.

(** C81 in single precision *)
Theorem synth_single : forall order nufft dataQ dataU l2 phi wA lam0in,
  (forall l, length l = length l2 -> Permutation (leaves (order l)) l /\ (depth (order l) <= 1000)%nat) ->
  transforms nufft (1 / 1000000) ->
  valid_synth dataQ dataU l2 wA -> antisym phi -> nonneg_w wA ->
  exists r, do_rmsynth_planes_fl f32 f64 (fun l => fsum f32 (order l)) nufft dataQ dataU l2 phi wA lam0in = Some r /\
    forall k p D, (k < length phi)%nat -> (p < npix dataQ)%nat ->
      let chs := pixel_chans (length l2) (npix dataQ) (flat dataQ) (flat dataU) l2 (weights_of (length l2) wA) p in
      0 < wsum chs -> (forall c, In c chs -> Rabs (c_l2 c - synth_lam0 r) <= D) ->
      Cmod (blank0 (at2 (npix dataQ) None (flat (FDFcube r)) k p) - FDF_spec chs (synth_lam0 r) (nth k phi 0))%C
      <= (62 / 1000000 + 12 / 100000000 * (2 * Rabs (nth k phi 0) * D)) * mean_P chs.
Proof.
  intros order nufft dataQ dataU l2 phi wA lam0in HO HF V A NW.
  destruct (single_sums (length l2) order HO) as (g & Gb & HS). assert (G1 : 0 <= g < 1) by lra.
  destruct (synth_fl_close f32 f64 (fun l => fsum f32 (order l)) nufft (/ 16777216) (/ 9007199254740992) g (1 / 1000000)
    dataQ dataU l2 phi wA lam0in f32_rounds f64_rounds HS HF ltac:(lra) ltac:(lra) G1 ltac:(lra) V A NW) as (r & r0 & E & _ & _ & CL).
  exists r. split; [exact E|]. intros k p D Hk Hp chs HW HD. eapply Rle_trans; [apply (CL k p D Hk Hp HW HD)|].
  fold chs. assert (D0 : 0 <= D).
  { destruct chs as [|c t] eqn:EC; [unfold wsum in HW; cbn in HW; rewrite rsum_nil in HW; lra|].
    pose proof (HD c (or_introl eq_refl)). pose proof (Rabs_pos (c_l2 c - synth_lam0 r)). lra. }
  apply Rmult_le_compat_r.
  - unfold mean_P. apply Rmult_le_pos; [|apply Rlt_le, Rinv_0_lt_compat; auto]. apply rsum_nonneg. intros x Hx.
    apply in_map_iff in Hx. destruct Hx as (c & <- & Hc). apply Rmult_le_pos; [|apply Cmod_ge_0].
    apply pixel_chans_In in Hc. destruct Hc as (j & q & uu & Hj & E1 & E2 & ->). cbn [c_w]. now apply prep_nonneg.
  - apply synth_err_single; [lra|]. pose proof (Rabs_pos (nth k phi 0)). apply Rmult_le_pos; lra.
Qed.
