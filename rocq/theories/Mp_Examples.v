(** Concrete fits that meet the hypotheses of the statements about the fitter. *)
From Coq Require Import Reals List Arith ZArith Bool Lra Lia Psatz.
From Verif Require Import PyRes CBase PyList StokesI_Model StokesI_Spec Mp_Model Mp_Spec Mp_Algebra MpI_Model MpI_Spec MpI_Proofs.
Import ListNotations.
Local Open Scope R_scope.

(** two residuals p - 0 and p - 1 of one parameter *)
Definition e_fcn (p : nat -> R) (i : nat) : R := p 0%nat - INR i.

Lemma e_reads : reads 1 2 e_fcn.
Proof. intros p q H i Hi. unfold e_fcn. now rewrite H by lia. Qed.

Lemma e_linear : forall start, linear_in 1 2 [0%nat] start e_fcn (fun _ _ => 1) (fun i => - INR i).
Proof. intros start. split; [exact e_reads|]. intros p _ i Hi. unfold e_fcn, total. cbn [seq map]. unfold rsum. cbn [fold_right]. ring. Qed.

Lemma e_nodup : NoDup [0%nat].
Proof. constructor; [now intros []|constructor]. Qed.

Lemma small_pow : forall k, 0 < / 10 ^ k /\ / 10 ^ k <= 1.
Proof.
  intros k. split; [apply Rinv_0_lt_compat, pow_lt; lra|]. rewrite <- Rinv_1. apply Rinv_le_contravar; [lra|]. apply pow_R1_Rle. lra.
Qed.

Lemma e_independent : forall t, 0 <= t < 1 -> independent t 2 1 (fun _ _ => 1).
Proof.
  intros t Ht z k l Hk Hl Hz. assert (k = 0%nat) by lia. assert (l = 0%nat) by lia. subst. unfold gram, sqlen, dot, column, times, total. cbn [seq map].
  unfold rsum. cbn [fold_right]. rewrite Hz. nra.
Qed.

Lemma e_machep : 0 <= machep < 1.
Proof.
  unfold machep. split; [left; apply Rinv_0_lt_compat, pow_lt; lra|]. rewrite <- Rinv_1. apply Rinv_lt_contravar; [rewrite Rmult_1_l; apply pow_lt; lra|].
  apply Rlt_pow_R1; [lra|lia].
Qed.

Lemma e_gram : gram 2 (fun _ _ => 1) 0 0 = 2.
Proof. unfold gram, dot, column, total. cbn [seq map]. unfold rsum. cbn [fold_right]. ring. Qed.

Lemma e_scaled : forall x, scaled_length 2 1 (fun _ _ => 1) x = sqrt 2 * Rabs (x 0%nat).
Proof.
  intros x. unfold scaled_length. assert (sqlen 1 (fun j => sqrt (gram 2 (fun _ _ => 1) j j) * x j) = Rsqr (sqrt 2 * x 0%nat)) as ->.
  { unfold sqlen, dot, total. cbn [seq map]. rewrite e_gram. unfold rsum, Rsqr. cbn [fold_right]. ring. }
  rewrite sqrt_Rsqr_abs, Rabs_mult, (Rabs_pos_eq (sqrt 2)) by apply sqrt_pos. reflexivity.
Qed.

Lemma e_within : forall p, least_squares 2 1 (fun _ _ => 1) (e_fcn (fun _ => 3)) p -> within_reach 2 1 (fun _ _ => 1) (fun j => (fun _ => 3) (nth j [0%nat] 0%nat)) p.
Proof.
  intros p H. unfold within_reach. cbv zeta. rewrite !e_scaled.
  assert (0 < sqrt 2) as S2 by (apply sqrt_lt_R0; lra).
  destruct (Req_EM_T (sqrt 2 * Rabs 3) 0) as [E|_]; [rewrite (Rabs_pos_eq 3) in E by lra; lra|]. rewrite (Rabs_pos_eq 3) by lra.
  specialize (H (fun _ => - 5 / 2)). unfold sqlen, dot, times, e_fcn, total in H. cbn [seq map] in H. unfold rsum in H. cbn [fold_right INR] in H.
  assert (Rabs (p 0%nat) <= 10) as P by (apply Rabs_le; nra). nra.
Qed.

Lemma e_run : exists o, mpfit 2 e_fcn 1 2 [0%nat] (fun _ => 3) = Some (POk o) /\ o_fnorm o = chi2 2 e_fcn (o_params o).
Proof.
  destruct (linear_best 0 1 2 e_fcn (fun _ _ => 1) (fun i => - INR i) [0%nat] (fun _ => 3) (e_linear _) e_nodup
    ltac:(intros k [<-|[]]; lia) ltac:(discriminate) ltac:(cbn; lia) (e_independent _ e_machep) e_within) as (o & E & _ & _ & Fn & _).
  now exists o.
Qed.

Lemma e_stationary : exists o, mpfit 1 e_fcn 1 2 [0%nat] (fun _ => 1 / 2) = Some (POk o) /\ o_status o = 4%Z.
Proof.
  destruct (stationary_start 0 e_fcn 1 2 [0%nat] (fun _ => 1 / 2) e_reads e_nodup ltac:(discriminate) ltac:(cbn; lia)) as (o & E & St & _); [|now exists o].
  intros k [<-|[]]. unfold dot, slope, e_fcn, increment, total. cbn [seq map Nat.eqb]. unfold rsum. cbn [fold_right INR].
  destruct (Req_EM_T (1 / 2) 0); [lra|]. rewrite (Rabs_pos_eq (1 / 2)) by lra. field.
Qed.

(** two channels of a straight line: 1 + 7/5 x at x = 5 and x = 5/7 *)
Definition e_freq : list R := [1; 1 / 7].
Definition e_I : list (option R) := [Some 8; Some 2].
Definition e_dI : list (option R) := [Some 1; Some 1].
Definition e_coef (k : nat) : R := match k with 0%nat => 1 | _ => 7 / 5 end.
Definition e_g : list (R * R * R) := [(1, 8, 1); (1 / 7, 2, 1)].

Lemma e_chans : finite_chans e_freq e_I e_dI = e_g.
Proof. reflexivity. Qed.

Lemma e_errors : with_errors e_g = e_g.
Proof. unfold with_errors, e_g. cbn [forallb snd]. destruct (Req_EM_T 1 0); [lra|reflexivity]. Qed.

Lemma e_mean : mean_I e_g = 5.
Proof. unfold mean_I, mean, e_g, rsum. cbn [map fold_right List.length INR fst snd]. field. Qed.

Lemma e_weighted : weighted_mean e_g = 5.
Proof. unfold weighted_mean, weight_sum, e_g, rsum. cbn [map fold_right fst snd]. field. Qed.

Lemma e_ref : fit_ref e_g = 1 / 5.
Proof.
  unfold fit_ref, mean, e_g, rsum. cbn [map fold_right List.length INR fst snd].
  replace ((1 / 1 ^ 2 + (1 / (1 / 7) ^ 2 + 0)) / (1 + 1)) with (5 * 5) by field. rewrite sqrt_square by lra. reflexivity.
Qed.

Lemma e_line : forall f i e, In (f, i, e) e_g -> i = polynomial e_coef 1 (f / fit_ref e_g).
Proof.
  intros f i e [E|[E|[]]]; injection E as <- <- <-; rewrite e_ref; unfold polynomial, total, rsum; cbn [seq map fold_right e_coef]; field.
Qed.

Lemma e_design_indep : independent (/ 10 ^ 9) 2 2 (design e_g (fit_ref e_g) 1).
Proof.
  rewrite e_ref. intros z k l Hk Hl Hz. destruct (small_pow 18) as [P1 _]. replace ((/ 10 ^ 9) ^ 2) with (/ 10 ^ 18) by field.
  assert (/ 10 ^ 18 <= / 10 ^ 2) as P2 by (apply Rinv_le_contravar; [apply pow_lt; lra|apply Rle_pow; [lra|lia]]).
  assert (gram 2 (design e_g (1 / 5) 1) l l <= 26) as G.
  { assert (l = 0%nat \/ l = 1%nat) as [->| ->] by lia; unfold gram, dot, column, design, e_g, total; cbn [seq map nth fst snd Nat.sub pow]; unfold rsum; cbn [fold_right]; lra. }
  assert (1 / 2 <= sqlen 2 (times 2 (design e_g (1 / 5) 1) z)) as Q.
  { assert (sqlen 2 (times 2 (design e_g (1 / 5) 1) z) = (5 * z 0%nat + z 1%nat) ^ 2 + (5 / 7 * z 0%nat + z 1%nat) ^ 2) as ->.
    { unfold sqlen, dot, times, design, e_g, total. cbn [seq map nth fst snd Nat.sub pow]. unfold rsum. cbn [fold_right]. field. }
    assert (k = 0%nat \/ k = 1%nat) as [->| ->] by lia; rewrite Hz.
    - pose proof (pow2_ge_0 (z 1%nat + 20 / 7)). nra.
    - pose proof (pow2_ge_0 (z 0%nat + 7 / 31)). pose proof (pow2_ge_0 (z 0%nat + 28 / 125)). nra. }
  replace (/ 10 ^ 2) with (1 / 100) in P2 by field. nra.
Qed.

Lemma e_design_reach : within_reach 2 2 (design e_g (fit_ref e_g) 1) (last_only 1 (mean_I e_g)) (fun j => e_coef (1 - j) - last_only 1 (mean_I e_g) j).
Proof.
  rewrite e_ref, e_mean. unfold within_reach. cbv zeta.
  assert (forall x, scaled_length 2 2 (design e_g (1 / 5) 1) x = sqrt (gram 2 (design e_g (1 / 5) 1) 0 0 * x 0%nat ^ 2 + gram 2 (design e_g (1 / 5) 1) 1 1 * x 1%nat ^ 2)) as Sc.
  { intros x. unfold scaled_length. f_equal. unfold sqlen, dot at 1, total. cbn [seq map]. unfold rsum at 1. cbn [fold_right].
    assert (forall j, 0 <= gram 2 (design e_g (1 / 5) 1) j j) as Gp.
    { intros j. unfold gram, dot, column, total. cbn [seq map]. unfold rsum. cbn [fold_right]. nra. }
    rewrite <- (sqrt_sqrt (gram 2 (design e_g (1 / 5) 1) 0 0)) at 3 by auto. rewrite <- (sqrt_sqrt (gram 2 (design e_g (1 / 5) 1) 1 1)) at 3 by auto. ring. }
  rewrite !Sc.
  assert (gram 2 (design e_g (1 / 5) 1) 0 0 = 25 + 25 / 49) as -> by (unfold gram, dot, column, design, e_g, total; cbn [seq map nth fst snd Nat.sub pow]; unfold rsum; cbn [fold_right]; field).
  assert (gram 2 (design e_g (1 / 5) 1) 1 1 = 2) as -> by (unfold gram, dot, column, design, e_g, total; cbn [seq map nth fst snd Nat.sub pow]; unfold rsum; cbn [fold_right]; field).
  unfold last_only. cbn [Nat.eqb Nat.sub e_coef].
  replace ((25 + 25 / 49) * 0 ^ 2 + 2 * 5 ^ 2) with 50 by ring.
  replace ((25 + 25 / 49) * (7 / 5 - 0) ^ 2 + 2 * (1 - 5) ^ 2) with 82 by field.
  assert (sqrt 82 <= 10) as A by (rewrite <- (sqrt_square 10) by lra; apply sqrt_le_1; lra).
  assert (7 <= sqrt 50) as B by (rewrite <- (sqrt_square 7) by lra; apply sqrt_le_1; lra).
  destruct (Req_EM_T (sqrt 50) 0); lra.
Qed.

Lemma e_nonzero : forall t, In t e_g -> snd t <> 0.
Proof. intros t [<-|[<-|[]]]; cbn; lra. Qed.

Lemma e_positive : forall f, In f e_freq -> 0 < f.
Proof. intros f [<-|[<-|[]]]; lra. Qed.

Lemma e_tol : INR 2 / 10 ^ 10 < / 10 ^ 9.
Proof. replace (/ 10 ^ 9) with (10 / 10 ^ 10) by field. apply Rmult_lt_compat_r; [apply small_pow|cbn; lra]. Qed.

Lemma e_exists : forall ff, ff <> OtherFun -> exists N r, forall fuel rest, (N <= fuel)%nat -> fit_StokesI_model (mpfit_code fuel rest) e_freq e_I e_dI 1 ff = POk r.
Proof.
  intros ff Hf. apply stokes_fit_ends; auto; rewrite ?e_chans, ?e_errors.
  - discriminate.
  - exact e_nonzero.
  - rewrite e_mean. lra.
  - rewrite e_mean, e_weighted. lra.
Qed.
