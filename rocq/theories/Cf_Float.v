(** RM-CLEAN of one source in single precision: numbers. *)
From Coq Require Import Reals List Arith ZArith Bool Lia Lra Psatz.
Set Warnings "-ambiguous-paths".
From Coquelicot Require Import Coquelicot.
From Verif Require Import PyRes CBase NdArray PyList Synth_Model Clean_Model Clean_Spec Clean_Proofs Fl_Spec Fl_Float Fl_Proofs Fl_Single Cf_Arith Cf_Model Cf_Spec Cf_Round Cf_Proofs Cf_Single.
Import ListNotations.
Local Open Scope R_scope.

Lemma accurate_weaken : forall a f u v m e h u' v' m' e' h', u <= u' -> v <= v' -> m <= m' -> e <= e' -> h <= h' ->
  accurate a f u v m e h -> accurate a f u' v' m' e' h'.
Proof.
  intros a f u v m e h u' v' m' e' h' H1 H2 H3 H4 H5 (A1 & A2 & A3 & A4 & A5 & A6). unfold accurate.
  split; [intros z; eapply Rle_trans; [apply A1|apply Rmult_le_compat_r; [apply Cmod_ge_0|assumption]]|].
  split; [intros g z; eapply Rle_trans; [apply A2|]; apply Rmult_le_compat_r; [apply Cmod_ge_0|]; apply Rmult_le_compat_r; [apply Rabs_pos|assumption]|].
  split; [intros z w; eapply Rle_trans; [apply A3|]; apply Rmult_le_compat_r; [apply Cmod_ge_0|]; apply Rmult_le_compat_r; [apply Cmod_ge_0|assumption]|].
  split; [intros z w; eapply Rle_trans; [apply A4|apply Rmult_le_compat_r; [apply Cmod_ge_0|assumption]]|].
  split; [intros z w; eapply Rle_trans; [apply A5|apply Rmult_le_compat_r; [apply Cmod_ge_0|assumption]]|].
  intros amp mu x. eapply Rle_trans; [apply A6|apply Rmult_le_compat_r; [apply Cmod_ge_0|assumption]].
Qed.

Lemma pow_bound : forall k, (k <= 1000)%nat -> 1 <= (1 + 6 / 100000000) ^ k <= 1 + 1 / 10000.
Proof.
  intros k Hk. split; [apply pow_R1_Rle; lra|].
  apply Rle_trans with ((1 + 6 / 100000000) ^ 1000); [apply Rle_pow; [lra|exact Hk]|].
  change 1000%nat with (10 * (10 * 10))%nat. rewrite !pow_mult.
  assert (P : forall x y z : R, 0 <= x <= y -> y ^ 10 <= z -> x ^ 10 <= z) by (intros x y z H Hz; eapply Rle_trans; [apply pow_incr; exact H|exact Hz]).
  apply (P _ (1 + 61 / 10000000)); [|].
  2:{ lra. }
  split; [apply pow_le, pow_le; lra|]. apply (P _ (1 + 605 / 1000000000)); [|lra]. split; [apply pow_le; lra|lra].
Qed.

Definition U := 6 / 100000000.
Definition V := 1 / 1000000000000000.
Definition M := 25 / 100000000.
Definition E := / 4194304.

Lemma f32_accurate : forall absf gaussf fwhm hg,
  (forall z, Rabs (absf z - Cmod z) <= E * Cmod z) -> (forall mu x, Rabs (gaussf mu fwhm x - beam fwhm (x - mu)) <= hg) ->
  accurate (rounded f32 f64 absf gaussf) fwhm U V M E ((1 + V) * (1 + hg) - 1).
Proof.
  intros absf gaussf fwhm hg HA HG.
  assert (h0 : 0 <= hg) by (generalize (Rabs_pos (gaussf 0 fwhm 0 - beam fwhm (0 - 0))) (HG 0 0); lra).
  pose proof (rounded_accurate f32 f64 absf gaussf fwhm _ _ E hg f32_rounds f64_rounds ltac:(lra) ltac:(lra) HA HG) as A.
  refine (accurate_weaken _ _ _ _ _ _ _ _ _ _ _ _ _ _ _ _ _ A); unfold U, V, M, mul_err; lra.
Qed.

Lemma prod_bound : forall g, 9 / 100 <= g <= 11 / 100 -> 0 <= prod_err g V M <= 28 / 1000000000.
Proof.
  intros g Hg. unfold prod_err. assert (K : 0 <= (1 + V) * (1 + M) - 1 <= 2501 / 10000000000) by (unfold V, M; lra).
  set (k := (1 + V) * (1 + M) - 1) in *. nra.
Qed.
Lemma peak_bound : forall g, 9 / 100 <= g <= 11 / 100 -> 0 <= peak_err g U V M <= 83 / 1000000000.
Proof.
  intros g Hg. unfold peak_err. pose proof (prod_bound g Hg) as P. set (p := prod_err g V M) in *. unfold U. nra.
Qed.

Lemma ratio_bound : forall g x A k, 9 / 100 <= g <= 11 / 100 -> 0 <= A -> 0 <= x <= k -> x * (A + A / 1000000) / (g - peak_err g U V M) <= k * (1000001 / 89999) * A.
Proof.
  intros g x A k Hg HA Hx. pose proof (peak_bound g Hg) as P. set (c := peak_err g U V M) in *.
  assert (D : 89999 / 1000000 <= g - c) by lra.
  assert (I : 0 < / (g - c) <= 1000000 / 89999). { split; [apply Rinv_0_lt_compat; lra|]. replace (1000000 / 89999) with (/ (89999 / 1000000)) by field. apply Rinv_le_contravar; lra. }
  unfold Rdiv at 1. set (w := / (g - c)) in *. replace (x * (A + A / 1000000) * w) with (x * w * (1000001 / 1000000 * A)) by field.
  replace (k * (1000001 / 89999) * A) with (k * (1000000 / 89999) * (1000001 / 1000000 * A)) by field.
  apply Rmult_le_compat_r; [nra|]. apply Rmult_le_compat; lra.
Qed.

Lemma resid_bound : forall g A k, 9 / 100 <= g <= 11 / 100 -> 0 <= A -> (k <= 1000)%nat -> resid_err g U V M A (A / 1000000) k <= 4 / 1000000 * A.
Proof.
  intros g A k Hg HA Hk. unfold resid_err. pose proof (pow_bound k Hk) as P. change (6 / 100000000) with U in P.
  pose proof (peak_bound g Hg) as B1. pose proof (prod_bound g Hg) as B2.
  assert (X : (peak_err g U V M + prod_err g V M + U) * (A + A / 1000000) / (g - peak_err g U V M) <= 1 / 5840000 * (1000001 / 89999) * A * 10 / 10).
  { eapply Rle_trans; [apply (ratio_bound g _ A (1 / 5840000) Hg HA)|lra]. unfold U at 2 4. unfold U in B1 |- *. lra. }
  apply Rle_trans with ((1 + 1 / 10000) * (2 * (A / 1000000) + 1 / 5840000 * (1000001 / 89999) * A * 10 / 10)); [|lra].
  apply Rle_trans with ((1 + U) ^ k * (2 * (A / 1000000) + 1 / 5840000 * (1000001 / 89999) * A * 10 / 10)).
  - apply Rmult_le_compat_l; [lra|]. lra.
  - apply Rmult_le_compat_r; lra.
Qed.

Lemma comp_bound : forall g A k, 9 / 100 <= g <= 11 / 100 -> 0 <= A -> (k <= 81)%nat -> comp_err g U V M A (A / 1000000) k <= 7 / 1000000 * A.
Proof.
  intros g A k Hg HA Hk. unfold comp_err. assert (Hk' : (k <= 1000)%nat) by lia. pose proof (pow_bound k Hk') as P. change (6 / 100000000) with U in P.
  pose proof (peak_bound g Hg) as B1.
  assert (X : (peak_err g U V M + V * g) * (A + A / 1000000) / (g - peak_err g U V M) <= 84 / 1000000000 * (1000001 / 89999) * A).
  { apply (ratio_bound g _ A (84 / 1000000000) Hg HA). assert (0 <= V * g <= 11 / 100 * V) by (unfold V; lra). unfold V at 2 4. unfold V at 2 in H. unfold V at 2 in H. unfold V in *. lra. }
  assert (K : 0 <= INR k <= 81). { split; [apply pos_INR|]. replace 81 with (INR 81) by (simpl; lra). apply le_INR. lia. }
  assert (Y : INR k * U * A <= 81 * (6 / 100000000) * A). { apply Rmult_le_compat_r; [assumption|]. apply Rmult_le_compat_r; [unfold U; lra|lra]. }
  assert (Z : A / 1000000 + (peak_err g U V M + V * g) * (A + A / 1000000) / (g - peak_err g U V M) + INR k * U * A <= 6795 / 1000000000 * A) by lra.
  apply Rle_trans with ((1 + U) ^ k * (6795 / 1000000000 * A)); [apply Rmult_le_compat_l; lra|].
  apply Rle_trans with ((1 + 1 / 10000) * (6795 / 1000000000 * A)); [apply Rmult_le_compat_r; lra|lra].
Qed.

Lemma pow81 : forall q, 0 <= q <= 9100001 / 10000000 -> q ^ 81 <= 49 / 100000.
Proof.
  intros q Hq. change 81%nat with (3 * (3 * (3 * 3)))%nat. rewrite !pow_mult.
  assert (P : forall x y z : R, 0 <= x <= y -> y ^ 3 <= z -> 0 <= x ^ 3 <= z) by (intros x y z H Hz; split; [apply pow_le; lra|eapply Rle_trans; [apply pow_incr; exact H|exact Hz]]).
  apply (P _ (788 / 10000)); [|lra]. apply (P _ (4287 / 10000)); [|lra]. apply (P _ (75358 / 100000)); [|lra]. apply (P _ (9100001 / 10000000)); [exact Hq|lra].
Qed.

Theorem single_precision : forall absf gaussf ends RMSF phi fwhm hg g imax i0 maxIter A dirty cutoff window s,
  (forall z, Rabs (absf z - Cmod z) <= / 4194304 * Cmod z) ->
  (forall mu x, Rabs (gaussf mu fwhm x - beam fwhm (x - mu)) <= hg) ->
  roomy (length phi) (length RMSF) imax -> peak_at RMSF imax -> sidelobes RMSF imax (97 / 100) ->
  9 / 100 <= g <= 11 / 100 -> A <> czero ->
  noisy_source RMSF imax (length phi) i0 A (Cmod A / 1000000) dirty ->
  Cmod A / 2000 <= cutoff -> (forall w, window = Some w -> Cmod A / 2000 <= w) -> (maxIter <= 1000)%nat ->
  cleanloop_fl (rounded f32 f64 absf gaussf) ends dirty RMSF phi fwhm g cutoff window maxIter = POk s ->
  (iters s <= 81)%nat /\
  (forall j, (j < length phi)%nat -> j <> i0 -> nth j (cc s) czero = czero) /\
  Cmod (nth i0 (cc s) czero - A * RtoC (1 - (1 - g) ^ iters s))%C <= 7 / 1000000 * Cmod A /\
  (forall j, (j < length phi)%nat ->
     Cmod (nth j (resid s) czero - A * RtoC ((1 - g) ^ iters s) * zsample RMSF (Z.of_nat imax + Z.of_nat j - Z.of_nat i0))%C <= 4 / 1000000 * Cmod A).
Proof.
  intros absf gaussf ends RMSF phi fwhm hg g imax i0 maxIter A dirty cutoff window s HA HG HR HP SL Hg A0 NS Hc Hw Hm H.
  assert (AP : 0 < Cmod A) by (apply Cmod_gt_0; exact A0). assert (AN : 0 <= Cmod A) by lra.
  pose proof (f32_accurate absf gaussf fwhm hg HA HG) as ACC. pose proof (peak_bound g Hg) as PB.
  assert (RB : (1 - E ^ 2) * (1 + 97 / 100) * resid_err g U V M (Cmod A) (Cmod A / 1000000) maxIter < Cmod A / 2000 * ((1 - E) - (1 + E) * (97 / 100))).
  { pose proof (resid_bound g (Cmod A) maxIter Hg AN Hm) as B. apply Rle_lt_trans with ((1 - E ^ 2) * (1 + 97 / 100) * (4 / 1000000 * Cmod A)).
    - apply Rmult_le_compat_l; [unfold E; lra|exact B].
    - unfold E. lra. }
  destruct (fl_single _ ends RMSF phi fwhm g U V M E _ (97 / 100) (Cmod A / 1000000) (Cmod A / 2000) imax i0 maxIter A dirty cutoff window s ACC HR HP SL
    ltac:(lra) ltac:(unfold E; lra) ltac:(lra) ltac:(lra) ltac:(lra) NS ltac:(lra) Hw RB H) as (L & C0 & C1 & C2 & C3).
  assert (I81 : (iters s <= 81)%nat).
  { apply C3. assert (Q : (1 - g + peak_err g U V M) ^ 81 <= 49 / 100000) by (apply pow81; lra).
    apply Rle_lt_trans with ((1 + E) * (49 / 100000 * (Cmod A + Cmod A / 1000000))); [|unfold E; lra].
    apply Rmult_le_compat_l; [unfold E; lra|]. apply Rmult_le_compat_r; lra. }
  split; [exact I81|]. split; [exact C0|]. split.
  - eapply Rle_trans; [exact C1|]. apply comp_bound; auto.
  - intros j Hj. eapply Rle_trans; [apply C2; exact Hj|]. apply resid_bound; auto. lia.
Qed.

(* ---------------------------------------------------------------- example *)
Definition k_phi : list R := [-1; 0; 1].
Definition k_rm : list C := map RtoC [1/10; 1/10; 1/10; 1/10; 1; 1/10; 1/10; 1/10; 1/10].
Definition k_dirty : list C := map RtoC [1/10; 1; 1/10].

Lemma k_roomy : roomy (length k_phi) (length k_rm) 4.
Proof. split; [exists 3%nat; cbn; lia|cbn; lia]. Qed.
Lemma k_peak : peak_at k_rm 4.
Proof. split; [cbn; lia|]. intros k Hk N. do 9 (destruct k as [|k]; [cbn; lra || lia|]). cbn in Hk. lia. Qed.
Lemma k_lobes : sidelobes k_rm 4 (97 / 100).
Proof.
  split; [cbn; lia|]. split; [reflexivity|]. intros k Hk N.
  do 9 (destruct k as [|k]; [try lia; cbn [nth k_rm map]; rewrite Cmod_R, Rabs_pos_eq; lra|]). cbn in Hk. lia.
Qed.
Lemma k_source : noisy_source k_rm 4 (length k_phi) 1 (RtoC 1) (Cmod (RtoC 1) / 1000000) k_dirty.
Proof.
  split; [reflexivity|]. split; [cbn; lia|]. intros j Hj. rewrite Cmod_1.
  assert (Z0 : forall x : C, Cmod (x - RtoC 1 * x)%C <= 1 / 1000000). { intros x. replace (x - RtoC 1 * x)%C with czero by (unfold czero; ring). unfold czero. rewrite Cmod_0. lra. }
  do 3 (destruct j as [|j]; [apply Z0|]). cbn in Hj. lia.
Qed.
Lemma k_beam : forall mu x fwhm, Rabs (beam fwhm (x - mu) - beam fwhm (x - mu)) <= 0.
Proof. intros. rewrite Rminus_diag_eq by reflexivity. rewrite Rabs_R0. lra. Qed.
Lemma k_abs : forall z, Rabs (Cmod z - Cmod z) <= / 4194304 * Cmod z.
Proof. intros. rewrite Rminus_diag_eq by reflexivity. rewrite Rabs_R0. pose proof (Cmod_ge_0 z). lra. Qed.
Lemma k_accurate : accurate (rounded f32 f64 Cmod (fun m f x => beam f (x - m))) 1 U V M E ((1 + V) * (1 + 0) - 1).
Proof. apply f32_accurate; [apply k_abs|intros; apply k_beam]. Qed.
