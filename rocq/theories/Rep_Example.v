(** Three channels, for the examples. *)
From Coq Require Import Reals List Arith ZArith Bool Lra Lia Psatz.
Set Warnings "-ambiguous-paths".
From Coquelicot Require Import Coquelicot.
From Verif Require Import CBase PyRes PyList NdArray Synth_Model Synth_Spec Synth_Proofs Lobe_Spec Rep_Spec Rep_Model Rep_Proofs Rep_Report Rep_Default.
Import ListNotations.
Local Open Scope R_scope.

Definition x_freq : column := CFloat [299792458; 299792458 / (11 / 10); 299792458 / 2].
Definition x_l2 : list R := [1; 121 / 100; 4].
Definition x_w : list R := [1; 1 / 100; 1].

Lemma x_wave : all_some (lambda2 x_freq) = Some x_l2.
Proof.
  unfold x_freq. rewrite float_wavelengths.
  - unfold x_l2, wavelength2. cbn [map]. f_equal. f_equal; [field|]. f_equal; [field|]. f_equal. field.
  - intros f [<-|[<-|[<-|[]]]]; lra.
Qed.

Lemma x_span : span x_l2 3 /\ In 1 x_l2 /\ (forall x, In x x_l2 -> 1 <= x) /\ length x_w = length x_l2 /\ (forall v, In v x_w -> 0 <= v).
Proof.
  split; [|split; [now left|split; [|split; [reflexivity|]]]].
  - exists 4, 1. split; [right; right; now left|]. split; [now left|]. split; [|ring]. intros x [<-|[<-|[<-|[]]]]; lra.
  - intros x [<-|[<-|[<-|[]]]]; lra.
  - intros x [<-|[<-|[<-|[]]]]; lra.
Qed.

Lemma sqrt3_bounds : 17 / 10 <= sqrt 3 <= 174 / 100.
Proof.
  split; [apply Rsqr_incr_0_var; [|apply sqrt_pos]; rewrite Rsqr_sqrt by lra; unfold Rsqr; lra|].
  apply Rsqr_incr_0_var; [|lra]. rewrite Rsqr_sqrt by lra. unfold Rsqr. lra.
Qed.

Lemma x_near : 0 < 101 * (2 * sqrt 3 / (10 * 3)) * Rabs (nth 0 x_l2 0 - nth 1 x_l2 0) < PI.
Proof.
  cbn [nth x_l2]. replace (1 - 121 / 100) with (- (21 / 100)) by field. rewrite Rabs_Ropp, Rabs_pos_eq by lra.
  pose proof sqrt3_bounds. assert (3 < PI) by (pose proof PI2_3_2; lra). lra.
Qed.

(** the moduli *)
Lemma x_mod : forall phi, let R3 := Cmod (RMSF_spec (weighted x_l2 x_w) (mean_l2 (weighted x_l2 x_w)) phi) in
  (2 * Rabs (cos (3 * phi)) - 1 / 100) / (201 / 100) <= R3 <= (2 * Rabs (cos (3 * phi)) + 1 / 100) / (201 / 100).
Proof.
  intros phi. set (l0 := mean_l2 (weighted x_l2 x_w)). clearbody l0. cbv zeta. unfold RMSF_spec, wsum, weighted. cbn [combine x_l2 x_w map fst snd c_w c_l2]. unfold rsum, csum. cbn [fold_right].
  replace (1 + (1 / 100 + (1 + 0))) with (201 / 100) by field.
  unfold Cdiv. rewrite Cmod_mult. rewrite <- RtoC_inv by lra. rewrite Cmod_R, (Rabs_pos_eq (/ (201 / 100))) by (left; apply Rinv_0_lt_compat; lra).
  set (A := (RtoC 1 * cis (-2 * phi * (1 - l0)) + RtoC 1 * cis (-2 * phi * (4 - l0)))%C). set (B := (RtoC (1 / 100) * cis (-2 * phi * (121 / 100 - l0)))%C).
  replace (RtoC 1 * cis (-2 * phi * (1 - l0)) + (B + (RtoC 1 * cis (-2 * phi * (4 - l0)) + RtoC 0)))%C with (A + B)%C by (unfold A; ring).
  assert (MA : Cmod A = 2 * Rabs (cos (3 * phi))).
  { unfold A. replace (-2 * phi * (1 - l0)) with (-2 * phi * (5 / 2 - l0) + 3 * phi) by field. replace (-2 * phi * (4 - l0)) with (-2 * phi * (5 / 2 - l0) + - (3 * phi)) by field.
    rewrite !cis_plus. set (z := cis (-2 * phi * (5 / 2 - l0))). replace (RtoC 1 * (z * cis (3 * phi)) + RtoC 1 * (z * cis (- (3 * phi))))%C with (z * (cis (3 * phi) + cis (- (3 * phi))))%C by ring.
    rewrite Cmod_mult. unfold z. rewrite Cmod_cis, Rmult_1_l.
    replace (cis (3 * phi) + cis (- (3 * phi)))%C with (RtoC (2 * cos (3 * phi))).
    - rewrite Cmod_R, Rabs_mult, (Rabs_pos_eq 2) by lra. reflexivity.
    - unfold cis. rewrite cos_neg, sin_neg. apply injective_projections; cbn; ring. }
  assert (MB : Cmod B = 1 / 100) by (unfold B; rewrite Cmod_mult, Cmod_cis, Cmod_R, Rabs_pos_eq by lra; ring).
  rewrite <- MA, <- MB. assert (0 < / (201 / 100)) by (apply Rinv_0_lt_compat; lra). unfold Rdiv. split.
  - apply Rmult_le_compat_r; [lra|]. pose proof (Cmod_triangle (A + B)%C (- B)%C) as T. rewrite Cmod_opp in T. replace (A + B + - B)%C with A in T by ring. lra.
  - apply Rmult_le_compat_r; [lra|]. apply Cmod_triangle.
Qed.

Lemma cos_between : forall x, -2 <= x <= 2 -> 1 - x ^ 2 / 2 <= cos x <= 1 - x ^ 2 / 2 + x ^ 4 / 24.
Proof.
  intros x Hx. destruct (pre_cos_bound x 0) as [A B]; try lra.
  unfold cos_approx, cos_term in A, B. cbn in A, B. split.
  - eapply Rle_trans; [|exact A]. apply Req_le. field.
  - eapply Rle_trans; [exact B|]. apply Req_le. field.
Qed.

Definition x_d : R := 2 * sqrt 3 / (10 * 3).

Lemma x_cos : forall j, (j <= 4)%nat -> let q := 12 / 100 * INR j ^ 2 in 1 - q / 2 <= cos (3 * (INR j * x_d)) <= 1 - q / 2 + q ^ 2 / 24.
Proof.
  intros j Hj q. assert (J : 0 <= INR j <= 4). { split; [apply pos_INR|]. apply le_INR in Hj. cbn [INR] in Hj. lra. }
  assert (E : (3 * (INR j * x_d)) ^ 2 = q).
  { unfold q, x_d. replace ((3 * (INR j * (2 * sqrt 3 / (10 * 3)))) ^ 2) with (INR j ^ 2 * (sqrt 3 * sqrt 3) / 25) by field. rewrite sqrt_sqrt by lra. field. }
  pose proof sqrt3_bounds. destruct (cos_between (3 * (INR j * x_d))) as [A B]. { unfold x_d. nra. }
  replace ((3 * (INR j * x_d)) ^ 4) with (((3 * (INR j * x_d)) ^ 2) ^ 2) in B by ring. rewrite E in A, B. auto.
Qed.

Definition x_Yl : list R := spread (weighted x_l2 x_w) x_d.

Lemma x_Y : forall j, (j <= 101)%nat -> nth (101 + j) x_Yl 0 = Cmod (RMSF_spec (weighted x_l2 x_w) (mean_l2 (weighted x_l2 x_w)) (INR j * x_d)).
Proof.
  intros j Hj. unfold x_Yl, spread. rewrite nth_map_seq by lia. rewrite Nat.add_0_l, plus_INR. replace (INR 101) with 101 by (rewrite INR_IZR_INZ; reflexivity).
  do 2 f_equal. ring.
Qed.

Lemma x_low : forall j c, (j <= 4)%nat -> 0 <= c <= 1 - 12 / 100 * INR j ^ 2 / 2 -> (2 * c - 1 / 100) / (201 / 100) <= nth (101 + j) x_Yl 0.
Proof.
  intros j c Hj Hc. rewrite x_Y by lia. destruct (x_mod (INR j * x_d)) as [A _]. eapply Rle_trans; [|exact A].
  destruct (x_cos j Hj) as [B _]. rewrite Rabs_pos_eq by lra. unfold Rdiv. apply Rmult_le_compat_r; [left; apply Rinv_0_lt_compat; lra|]. lra.
Qed.

Lemma x_falls : falls_after (4 / 10) x_Yl 101 4 /\ forall j, (j < 4)%nat -> 1 - 6 / 10 * (INR j / INR (4 - 1)) <= nth (101 + j) x_Yl 0.
Proof.
  assert (LY : length x_Yl = 203%nat) by (unfold x_Yl, spread; now rewrite map_length, seq_length).
  assert (Y0 : nth 101 x_Yl 0 = 1).
  { change 101%nat with (101 + 0)%nat. rewrite x_Y by lia. cbn [INR]. rewrite Rmult_0_l. unfold RMSF_spec, wsum, weighted. cbn [combine x_l2 x_w map fst snd c_w c_l2]. unfold rsum, csum. cbn [fold_right].
    rewrite !Rmult_0_r, !Rmult_0_l. rewrite cis_0.
    replace ((RtoC 1 * RtoC 1 + (RtoC (1 / 100) * RtoC 1 + (RtoC 1 * RtoC 1 + RtoC 0))) / RtoC (1 + (1 / 100 + (1 + 0))))%C with (RtoC 1).
    - now rewrite Cmod_R, Rabs_R1.
    - apply injective_projections; cbn; field. }
  pose proof (x_low 1 (94 / 100) ltac:(lia) ltac:(cbn [INR]; lra)) as L1.
  pose proof (x_low 2 (76 / 100) ltac:(lia) ltac:(cbn [INR]; lra)) as L2.
  pose proof (x_low 3 (46 / 100) ltac:(lia) ltac:(cbn [INR]; lra)) as L3.
  assert (L4 : nth (101 + 4) x_Yl 0 < 4 / 10).
  { rewrite x_Y by lia. destruct (x_mod (INR 4 * x_d)) as [_ A]. destruct (x_cos 4 ltac:(lia)) as [B C]. cbv zeta in B, C.
    replace (INR 4) with 4 in * by (rewrite INR_IZR_INZ; reflexivity). rewrite Rabs_pos_eq in A by lra. lra. }
  cbn [Nat.add] in *. split; [split; [lia|split; [exact L4|]]|]; intros j Hj; do 4 (destruct j as [|j]; [cbn [Nat.add INR Nat.sub]; lra|]); lia.
Qed.
