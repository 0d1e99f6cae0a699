(** When is the peak of the RMSF the only one? A sufficient condition on the
    channels, which discharges the hypotheses of the CLEAN theorems. *)
From Coq Require Import Reals List Arith ZArith Bool Lia Lra Psatz.
Set Warnings "-ambiguous-paths".
From Coquelicot Require Import Coquelicot.
From Verif Require Import CBase NdArray Interp_Model Synth_Model Synth_Spec Synth_Proofs Synth_Laws
  Rmsf_Proofs Clean_Spec Clean_Laws Clean_Grid.
Import ListNotations.
Local Open Scope R_scope.

Lemma Cmod_lt : forall z s, 0 < s -> fst z ^ 2 + snd z ^ 2 < s ^ 2 -> Cmod z < s.
Proof.
  intros z s Hs H. unfold Cmod. rewrite <- (sqrt_Rsqr s) by lra. apply sqrt_lt_1.
  - nra.
  - apply Rle_0_sqr.
  - unfold Rsqr. nra.
Qed.

Lemma two_phasors : forall wa wb a b, 0 < wa -> 0 < wb -> cos (a - b) < 1 ->
  Cmod (RtoC wa * cis a + RtoC wb * cis b)%C < wa + wb.
Proof.
  intros wa wb a b Ha Hb H. apply Cmod_lt; [lra|]. unfold cis. simpl fst. simpl snd.
  rewrite cos_minus in H.
  assert (Sa : cos a * cos a = 1 - sin a * sin a) by (generalize (sin2_cos2 a); unfold Rsqr; lra).
  assert (Sb : cos b * cos b = 1 - sin b * sin b) by (generalize (sin2_cos2 b); unfold Rsqr; lra).
  match goal with |- ?x < ?y => replace x with (wa * wa * (cos a * cos a + sin a * sin a) + wb * wb * (cos b * cos b + sin b * sin b)
     + 2 * (wa * wb) * (cos a * cos b + sin a * sin b)) by ring end.
  rewrite Sa, Sb. assert (0 < wa * wb) by (apply Rmult_lt_0_compat; auto). nra.
Qed.

Lemma in_take : forall {A} (x : A) l, In x l -> exists rest,
  (forall y, In y rest -> In y l) /\ (forall y, In y l -> y = x \/ In y rest) /\
  (forall f : A -> C, csum (map f l) = (f x + csum (map f rest))%C) /\
  (forall f : A -> R, rsum (map f l) = f x + rsum (map f rest)).
Proof.
  intros A x l H. apply in_split in H. destruct H as [l1 [l2 ->]]. exists (l1 ++ l2). repeat split.
  - intros y Hy. apply in_app_iff in Hy. apply in_app_iff. simpl. tauto.
  - intros y Hy. apply in_app_iff in Hy. simpl in Hy. rewrite in_app_iff. intuition.
  - intros f. rewrite !map_app, !csum_app. simpl. rewrite csum_cons. ring.
  - intros f. rewrite !map_app, !rsum_app. simpl. rewrite rsum_cons. ring.
Qed.

Lemma RMSF_lt_1 : forall chs l0 f a b, (forall c, In c chs -> 0 <= c_w c) ->
  In a chs -> In b chs -> 0 < c_w a -> 0 < c_w b -> cos (2 * f * (c_l2 a - c_l2 b)) < 1 ->
  Cmod (RMSF_spec chs l0 f) < 1.
Proof.
  intros chs l0 f a b Hw Ia Ib Wa Wb H.
  destruct (in_take a chs Ia) as [r1 [Q1 [Q2 [Q3 Q4]]]].
  assert (Ib1 : In b r1).
  { destruct (Q2 b Ib) as [->|]; auto. exfalso. rewrite Rminus_diag_eq, Rmult_0_r, cos_0 in H by auto. lra. }
  destruct (in_take b r1 Ib1) as [r2 [P1 [_ [P3 P4]]]].
  assert (W2 : 0 <= rsum (map c_w r2)).
  { apply rsum_nonneg. intros x Hx. apply in_map_iff in Hx. destruct Hx as [c [<- Hc]]. auto. }
  assert (WS : wsum chs = c_w a + c_w b + rsum (map c_w r2)) by (unfold wsum; rewrite Q4, P4; ring).
  unfold RMSF_spec. rewrite Cmod_div by (intros HH; apply RtoC_inj in HH; lra).
  rewrite Cmod_R, Rabs_pos_eq by lra.
  apply Rmult_lt_reg_r with (wsum chs); [lra|]. unfold Rdiv. rewrite Rmult_assoc, Rinv_l, Rmult_1_r, Rmult_1_l by lra.
  rewrite Q3, P3, Cplus_assoc. eapply Rle_lt_trans; [apply Cmod_triangle|]. rewrite WS.
  apply Rplus_lt_le_compat.
  - apply two_phasors; auto.
    replace (-2 * f * (c_l2 a - l0) - -2 * f * (c_l2 b - l0)) with (- (2 * f * (c_l2 a - c_l2 b))) by ring.
    now rewrite cos_neg.
  - eapply Rle_trans; [apply Cmod_csum_le|]. apply rsum_le. intros c Hc.
    rewrite Cmod_mult, Cmod_cis, Cmod_R, Rabs_pos_eq; [lra|]. auto.
Qed.

Lemma cos_lt_1 : forall x, x <> 0 -> Rabs x < 2 * PI -> cos x < 1.
Proof.
  intros x Hx Hb. replace x with (2 * (x / 2)) by field. rewrite cos_2a_sin.
  assert (sin (x / 2) <> 0).
  { destruct (Rlt_dec 0 x).
    - rewrite Rabs_pos_eq in Hb by lra. apply Rgt_not_eq, sin_gt_0; lra.
    - rewrite Rabs_left in Hb by lra. apply Rlt_not_eq. apply sin_lt_0_var; lra. }
  assert (0 < sin (x / 2) * sin (x / 2)) by nra. lra.
Qed.

(** The RMSF of a pixel, on the doubled grid, has a single peak of one at
    depth zero as soon as two unmasked channels with positive weight are close
    enough not to be aliased on that grid. *)
Theorem rmsf_unit_peak : forall fit l2 phi h step wA msk lam0in fitRMSF r p l0 rm j1 j2,
  valid_rmsf l2 wA msk -> centred_grid phi h step -> 0 < step -> nonneg_w wA -> (p < mpix msk)%nat ->
  get_rmsf_planes fit l2 phi wA (Some msk) lam0in true fitRMSF = RetOk r ->
  rmsf_lam0 r = Some l0 ->
  length rm = length (phi2Arr r) -> has_spec (mpix msk) p (flat (RMSFcube r)) rm ->
  (j1 < length l2)%nat -> (j2 < length l2)%nat ->
  at2 (mpix msk) false (flat msk) j1 p = false -> at2 (mpix msk) false (flat msk) j2 p = false ->
  0 < nth j1 (weights_of (length l2) wA) 0 -> 0 < nth j2 (weights_of (length l2) wA) 0 ->
  0 < INR (length phi) * step * Rabs (nth j1 l2 0 - nth j2 l2 0) < PI ->
  unit_peak rm (length phi).
Proof.
  intros fit l2 phi h step wA msk lam0in fitRMSF r p l0 rm j1 j2 V G Hs NW Hp Er HL Lrm HS B1 B2 U1 U2 W1 W2 HA.
  destruct (rmsf_grid_fits_clean phi h step G) as [phi2 [E2 [G2 [L2 [_ [Z2 RO]]]]]].
  destruct (rmsf_refines fit l2 phi wA msk lam0in true fitRMSF phi2 V E2) as [r' [Er' [Ep F]]].
  rewrite Er in Er'. injection Er' as <-. rewrite Ep in Lrm.
  set (chs := mask_chans (length l2) (mpix msk) (flat msk) l2 (weights_of (length l2) wA) p) in *.
  assert (NN : forall c, In c chs -> 0 <= c_w c).
  { intros c Hc. unfold chs, mask_chans in Hc. apply in_flat_map in Hc.
    destruct Hc as (j & _ & Hc). destruct (nth _ (flat msk) false); [destruct Hc|]. destruct Hc as [<-|[]]. simpl.
    change weights_of with prep_weights. now apply prep_nonneg. }
  assert (IN : forall j, (j < length l2)%nat -> at2 (mpix msk) false (flat msk) j p = false ->
    In (mk_chan (nth j l2 0) (nth j (weights_of (length l2) wA) 0) (RtoC 0)) chs).
  { intros j Hj Hm. unfold chs, mask_chans. apply in_flat_map. exists j. split; [apply in_seq; lia|].
    unfold at2 in Hm. rewrite Hm. left. reflexivity. }
  assert (WP : 0 < wsum chs).
  { destruct (in_take _ chs (IN j1 B1 U1)) as [rest [Q1 [_ [_ Q4]]]]. unfold wsum. rewrite Q4. simpl.
    assert (0 <= rsum (map c_w rest)); [|lra]. apply rsum_nonneg. intros x Hx. apply in_map_iff in Hx. destruct Hx as [c [<- Hc]]. auto. }
  assert (ZZ : forall k, (k < length phi2)%nat -> nth k rm czero = RMSF_spec chs l0 (nth k phi2 0)).
  { intros k Hk. specialize (F k p l0 Hk Hp HL ltac:(fold chs; lra) (or_introl (centred_antisym _ _ _ G))).
    unfold at2 in F. rewrite HS in F by lia. now injection F. }
  pose proof G as [Hh [Hn _]]. pose proof G2 as [_ [Hn2 G2']].
  split; [lia|]. split.
  - rewrite ZZ by lia. rewrite Z2. apply RMSF_at_0. lra.
  - intros k Hk Hkn. rewrite ZZ by lia.
    apply (RMSF_lt_1 chs l0 _ _ _ NN (IN j1 B1 U1) (IN j2 B2 U2)); simpl; auto.
    rewrite Lrm in Hk. rewrite G2' by lia.
    set (d := nth j1 l2 0 - nth j2 l2 0) in *.
    assert (Hd : 0 < Rabs d).
    { destruct (Req_dec d 0) as [E|E]; [|now apply Rabs_pos_lt]. rewrite E, Rabs_R0 in HA. lra. }
    assert (Hi : 1 <= Rabs (INR k - INR (length phi)) <= INR (length phi)).
    { destruct (lt_dec k (length phi)).
      - apply lt_INR in l as l'. rewrite Rabs_left by lra. generalize (le_INR (S k) (length phi) l). rewrite S_INR.
        generalize (pos_INR k). lra.
      - assert (length phi + 1 <= k)%nat by lia. apply le_INR in H. rewrite plus_INR in H. simpl in H.
        rewrite Rabs_pos_eq by lra. split; [lra|].
        assert (k <= 2 * length phi)%nat by lia. apply le_INR in H0. rewrite mult_INR in H0. simpl in H0. lra. }
    apply cos_lt_1.
    + intros HH. apply Rmult_integral in HH. destruct HH as [HH|HH].
      * assert (E : INR k - INR (length phi) = 0) by nra. rewrite E, Rabs_R0 in Hi. lra.
      * rewrite HH, Rabs_R0 in Hd. lra.
    + rewrite !Rabs_mult. rewrite (Rabs_pos_eq 2), (Rabs_pos_eq step) by lra.
      assert (0 < step * Rabs d) by (apply Rmult_lt_0_compat; auto).
      assert (Rabs (INR k - INR (length phi)) * (step * Rabs d) <= INR (length phi) * (step * Rabs d)) by (apply Rmult_le_compat_r; lra).
      lra.
Qed.
