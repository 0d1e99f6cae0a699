(** The tolerance of the transform is not the error of the spectrum, and
    instances of the hypotheses. *)
From Coq Require Import Reals List Arith ZArith Lra Lia Psatz Bool Permutation.
Set Warnings "-ambiguous-paths".
From Flocq Require Import Core Relative.
From Coquelicot Require Import Coquelicot.
From Verif Require Import CBase NdArray Synth_Model Synth_Spec Synth_Proofs Synth_Laws QU_Proofs Fl_Model Fl_Spec Fl_Proofs Fl_Synth Fl_Laws Fl_Float Fl_Single.
Import ListNotations.
Local Open Scope R_scope.

#[local] Instance p24' : Prec_gt_0 24. Proof. reflexivity. Qed.
#[local] Instance p53' : Prec_gt_0 53. Proof. reflexivity. Qed.

Definition t_l2 : list R := [33554433 / 33554432].
Definition t_phi : list R := [-1024; 1024].
Definition t_Q : nd (option R) := mk_nd [1%nat] [Some 1].
Definition t_U : nd (option R) := mk_nd [1%nat] [Some 0].

Lemma f32_int : forall m e, (Z.abs m < 16777216)%Z -> f32 (F2R (Float radix2 m e)) = F2R (Float radix2 m e).
Proof.
  intros m e H. unfold f32. apply round_generic; [apply valid_rnd_N|]. apply generic_format_FLX. exists (Float radix2 m e); [reflexivity|exact H].
Qed.
Lemma f64_int : forall m e, (Z.abs m < 9007199254740992)%Z -> f64 (F2R (Float radix2 m e)) = F2R (Float radix2 m e).
Proof.
  intros m e H. unfold f64. apply round_generic; [apply valid_rnd_N|]. apply generic_format_FLX. exists (Float radix2 m e); [reflexivity|exact H].
Qed.
Lemma f32_Z : forall m, (Z.abs m < 16777216)%Z -> f32 (IZR m) = IZR m.
Proof. intros m H. pose proof (f32_int m 0 H) as E. unfold F2R in E. cbn [Fnum Fexp bpow] in E. now rewrite Rmult_1_r in E. Qed.
Lemma f64_t : f64 (33554433 / 33554432) = 33554433 / 33554432.
Proof. pose proof (f64_int 33554433 (-25) ltac:(reflexivity)) as E. exact E. Qed.
Lemma f32_t : f32 (33554433 / 33554432) = 1.
Proof.
  unfold f32, round, F2R, scaled_mantissa, cexp.
  rewrite (mag_unique radix2 (33554433 / 33554432) 1) by (cbn; rewrite Rabs_pos_eq by lra; lra).
  change (FLX_exp 24 1) with (-23)%Z. cbn [Z.opp Fnum Fexp].
  change (bpow radix2 23) with 8388608. change (bpow radix2 (-23)) with (/ 8388608).
  rewrite (Znearest_imp _ _ 8388608); [lra|]. unfold Rabs; destruct Rcase_abs; lra.
Qed.

Lemma t_valid : valid_synth t_Q t_U t_l2 None.
Proof. repeat split; simpl; auto. Qed.

Lemma sin_lower : forall x, 0 <= x <= 1 -> x - x ^ 3 / 6 <= sin x.
Proof.
  intros x H. destruct (pre_sin_bound x 0 ltac:(lra) ltac:(lra)) as [L _]. unfold sin_approx, sin_term in L. simpl in L. simpl. lra.
Qed.

Definition t_value (k : nat) : C :=
  match do_rmsynth_planes_fl f32 f64 rsum nufft1d3 t_Q t_U t_l2 t_phi None (Some 0) with
  | Some r => blank0 (at2 1 None (flat (FDFcube r)) k 0) | None => RtoC 0 end.

Lemma t_value_eq : t_value 1 = scale_fl f32 (cis (-2048)) 1.
Proof.
  unfold t_value. rewrite do_rmsynth_fl_eq by apply t_valid. cbn [FDFcube squeeze flat].
  change (npix t_Q) with 1%nat. rewrite at2_tab2 by (cbn; lia).
  rewrite out_cell_fl_val with (eps := 0) by (try apply nufft_exact; cbn; lia).
  unfold FDF_pix_fl, K_pix_fl, t_l2, t_phi, t_Q, t_U, lam0_used_fl, nufft1d3.
  cbn [length seq map rev app flat combine nth fst snd].
  unfold pC_fl, w_eff_fl, plane_ok_fl, pcell_fl, pC_fl, pcell_fl, at2, inv_or_0_fl. cbn [nth Nat.mul Nat.add is_some seq existsb length map prep_weights repeat option_map nan_to_num orb].
  change (is_some (Some (scale_fl f32 (1, 0) 1))) with true. cbn [orb].
  rewrite rsum_cons, rsum_nil, csum_cons. destruct (Req_EM_T (1 + 0) 0) as [E|_]; [lra|].
  replace (1 / (1 + 0)) with (IZR 1) by field. replace (-1024 * 2) with (IZR (-2048)) by lra.
  replace (33554433 / 33554432 - 0) with (33554433 / 33554432) by lra.
  rewrite f64_t, f32_t, (f32_Z 1), (f32_Z (-2048)) by reflexivity. f_equal.
  unfold scale_fl. cbn [fst snd]. replace (1 * 1) with (IZR 1) by ring. replace (0 * 1) with (IZR 0) by ring.
  rewrite (f32_Z 1), (f32_Z 0) by reflexivity. unfold csum. cbn [fold_right].
  replace (-2048 * 1) with (-2048) by ring. change (1, 0)%R with (RtoC 1). ring.
Qed.

Lemma t_chans : pixel_chans 1 1 (flat t_Q) (flat t_U) t_l2 (weights_of 1 None) 0 = [mk_chan (33554433 / 33554432) 1 (RtoC 1)].
Proof. reflexivity. Qed.

(** the transform here is exact, and so is the sum *)
Theorem t_error : 50 / 1000000 < Cmod (t_value 1 -
  FDF_spec (pixel_chans 1 1 (flat t_Q) (flat t_U) t_l2 (weights_of 1 None) 0) 0 1024)%C.
Proof.
  rewrite t_value_eq.
  assert (FDF_spec (pixel_chans 1 1 (flat t_Q) (flat t_U) t_l2 (weights_of 1 None) 0) 0 1024 = (cis (-2048) * cis (- / 16384))%C) as ->.
  { rewrite <- cis_plus, t_chans. unfold FDF_spec, wsum, rsum, csum. cbn [map fold_right c_w c_P c_l2].
    replace (-2 * 1024 * (33554433 / 33554432 - 0)) with (-2048 + - / 16384) by lra.
    replace (1 + 0)%R with 1 by ring. field. apply RtoC_neq0. lra. }
  pose proof (Cmod_scale f32 (/ 16777216) (cis (-2048)) 1 f32_rounds ltac:(lra)) as E. rewrite Cmod_cis, Rabs_R1 in E.
  pose proof (Cmod_triangle3 (cis (-2048)) (scale_fl f32 (cis (-2048)) 1) (cis (-2048) * cis (- / 16384))%C) as T.
  rewrite (Cmod_minus_sym (cis (-2048)) (scale_fl _ _ _)) in T.
  replace (cis (-2048) * RtoC 1)%C with (cis (-2048)) in E by ring.
  replace (cis (-2048) - cis (-2048) * cis (- / 16384))%C with (cis (-2048) * (RtoC 1 - cis (- / 16384)))%C in T by ring.
  rewrite Cmod_mult, Cmod_cis, Rmult_1_l in T.
  pose proof (Rmax_Cmod (RtoC 1 - cis (- / 16384))%C) as M.
  pose proof (Rmax_r (Rabs (fst (RtoC 1 - cis (- / 16384))%C)) (Rabs (snd (RtoC 1 - cis (- / 16384))%C))) as M2.
  assert (S0 : snd (RtoC 1 - cis (- / 16384))%C = sin (/ 16384)) by (unfold Cminus, Cplus, Copp, cis, RtoC; cbn [fst snd]; rewrite sin_neg; ring).
  rewrite S0 in M, M2. pose proof (sin_lower (/ 16384) ltac:(lra)) as L. pose proof (Rle_abs (sin (/ 16384))). cbn [pow] in L. lra.
Qed.

(** C81: refuted. Even with an exact transform and an exact sum the spectrum
    is not within 50 times the tolerance requested of the transform. *)
Theorem tolerance_refuted : ~ forall dataQ dataU l2 phi wA lam0in r,
  valid_synth dataQ dataU l2 wA -> antisym phi -> nonneg_w wA ->
  do_rmsynth_planes_fl f32 f64 rsum nufft1d3 dataQ dataU l2 phi wA lam0in = Some r ->
  forall k p, (k < length phi)%nat -> (p < npix dataQ)%nat ->
  let chs := pixel_chans (length l2) (npix dataQ) (flat dataQ) (flat dataU) l2 (weights_of (length l2) wA) p in
  0 < wsum chs ->
  Cmod (blank0 (at2 (npix dataQ) None (flat (FDFcube r)) k p) - FDF_spec chs (synth_lam0 r) (nth k phi 0))%C
  <= 50 * (1 / 1000000) * mean_P chs.
Proof.
  intros H. pose proof t_error as E. unfold t_value in E.
  pose proof (do_rmsynth_fl_eq f32 f64 rsum nufft1d3 t_Q t_U t_l2 t_phi None (Some 0) t_valid) as R.
  destruct (do_rmsynth_planes_fl f32 f64 rsum nufft1d3 t_Q t_U t_l2 t_phi None (Some 0)) as [r|] eqn:ER; [|discriminate].
  assert (L : synth_lam0 r = 0) by (injection R as R; now rewrite R).
  assert (A : antisym t_phi) by (intros k Hk; cbn in Hk; destruct k as [|[|k]]; cbn; try lra; lia).
  specialize (H t_Q t_U t_l2 t_phi None (Some 0) r t_valid A Logic.I ER 1%nat 0%nat ltac:(cbn; lia) ltac:(cbn; lia)).
  cbv zeta in H. change (length t_l2) with 1%nat in H. change (npix t_Q) with 1%nat in H. change (nth 1 t_phi 0) with 1024 in H.
  rewrite L in H. rewrite t_chans in *. unfold mean_P, wsum, rsum in H. cbn [map fold_right c_w c_P] in H.
  specialize (H ltac:(lra)). rewrite Cmod_1 in H. lra.
Qed.

(* ------------------------------------------------------- instances *)

(** addition from left to right *)
Fixpoint from_left (t : stree) (l : list R) : stree := match l with [] => t | x :: l' => from_left (Node t (Leaf x)) l' end.
Definition left_order (l : list R) : stree := match l with [] => Leaf 0 | x :: l' => from_left (Leaf x) l' end.

Lemma from_left_leaves : forall l t, leaves (from_left t l) = leaves t ++ l.
Proof. induction l as [|x l IH]; intros t; cbn [from_left]; [now rewrite app_nil_r|]. rewrite IH. cbn [leaves]. now rewrite <- app_assoc. Qed.
Lemma from_left_depth : forall l t, depth (from_left t l) = (depth t + length l)%nat.
Proof. induction l as [|x l IH]; intros t; cbn [from_left length]; [lia|]. rewrite IH. cbn [depth]. lia. Qed.

Lemma left_order_ok : forall n, (1 <= n <= 1001)%nat ->
  forall l, length l = n -> Permutation (leaves (left_order l)) l /\ (depth (left_order l) <= 1000)%nat.
Proof.
  intros n Hn l L. destruct l as [|x l]; cbn [length] in L; [lia|]. cbn [left_order].
  rewrite from_left_leaves, from_left_depth. cbn [leaves depth app]. split; [apply Permutation_refl|].
  apply (Nat.add_le_mono_r _ _ 1). lia.
Qed.

Definition g_Q : nd (option R) := mk_nd [2%nat] [Some 1; Some 1].
Definition g_U : nd (option R) := mk_nd [2%nat] [Some 0; Some 0].
Definition g_l2 : list R := [0; 1].
Definition g_phi : list R := [- (PI / 2); 0; PI / 2].
Definition g_chs : list chan := [mk_chan 0 1 (RtoC 1); mk_chan 1 1 (RtoC 1)].

Lemma g_valid : valid_synth g_Q g_U g_l2 None. Proof. repeat split; simpl; auto. Qed.
Lemma g_antisym : antisym g_phi.
Proof. intros k Hk; cbn in Hk; destruct k as [|[|[|k]]]; cbn; try lra; lia. Qed.
Lemma g_wsum : wsum g_chs = 2. Proof. unfold wsum, g_chs, rsum. cbn [map fold_right c_w]. ring. Qed.
Lemma g_mean : mean_P g_chs = 1.
Proof. unfold mean_P. rewrite g_wsum. unfold g_chs, rsum. cbn [map fold_right c_w c_P]. rewrite Cmod_1. field. Qed.

Lemma g_off : forall s, s = 1 \/ s = -1 -> FDF_spec g_chs 0 (s * (PI / 2)) = RtoC 0.
Proof.
  intros s Hs. unfold FDF_spec. rewrite g_wsum. unfold g_chs, csum. cbn [map fold_right c_w c_P c_l2].
  replace (-2 * (s * (PI / 2)) * (0 - 0)) with 0 by ring. rewrite cis_0.
  assert (cis (-2 * (s * (PI / 2)) * (1 - 0)) = RtoC (-1)) as ->.
  { destruct Hs as [-> | ->]; [|replace (-2 * (-1 * (PI / 2)) * (1 - 0)) with PI by field; apply cis_PI].
    replace (-2 * (1 * (PI / 2)) * (1 - 0)) with (- PI) by field. rewrite cis_opp, cis_PI. unfold Cconj, RtoC. cbn [fst snd]. f_equal; ring. }
  replace (RtoC (-1)) with (- RtoC 1)%C by (unfold Copp, RtoC; cbn [fst snd]; f_equal; ring).
  field. apply RtoC_neq0. lra.
Qed.
Lemma g_on : FDF_spec g_chs 0 0 = RtoC 1.
Proof.
  unfold FDF_spec. rewrite g_wsum. unfold g_chs, csum. cbn [map fold_right c_w c_P c_l2].
  replace (-2 * 0 * (0 - 0)) with 0 by ring. replace (-2 * 0 * (1 - 0)) with 0 by ring. rewrite cis_0.
  replace (RtoC 2) with (RtoC 1 + RtoC 1)%C by (rewrite <- RtoC_plus; f_equal; ring). field.
  intros [= E]. lra.
Qed.

(** the lead of the peak exceeds the errors of single precision *)
Lemma g_lead : forall g k, 0 <= g <= 6 / 100000 -> (k < 3)%nat -> k <> 1%nat ->
  let E k := synth_err (/ 16777216) (/ 9007199254740992) g (1 / 1000000) (2 * Rabs (nth k g_phi 0) * 1) * mean_P g_chs in
  Cmod (FDF_spec g_chs 0 (nth k g_phi 0)) + E k + E 1%nat < Cmod (FDF_spec g_chs 0 (nth 1 g_phi 0)).
Proof.
  intros g k Hg Hk Hn E. unfold E. rewrite g_mean.
  pose proof PI_4 as P4. pose proof PI_RGT_0 as P0.
  assert (X1 : nth 1 g_phi 0 = 0) by reflexivity.
  assert (Xk : exists s, (s = 1 \/ s = -1) /\ nth k g_phi 0 = s * (PI / 2) /\ Rabs (nth k g_phi 0) = PI / 2).
  { destruct k as [|[|[|k]]]; [exists (-1)|lia|exists 1|lia]; cbn; (split; [auto|split; [lra|]]).
    - rewrite Rabs_Ropp. apply Rabs_pos_eq. lra.
    - apply Rabs_pos_eq. lra. }
  destruct Xk as (s & Hs & -> & A). rewrite A, X1, g_on, (g_off s Hs), Cmod_0, Cmod_1, Rabs_R0.
  pose proof (synth_err_single g (2 * (PI / 2) * 1) Hg ltac:(lra)). pose proof (synth_err_single g (2 * 0 * 1) Hg ltac:(lra)). lra.
Qed.
