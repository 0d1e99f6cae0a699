(** The rounded operations are accurate. *)
From Coq Require Import Reals List Arith ZArith Lia Lra Psatz.
Set Warnings "-ambiguous-paths".
From Coquelicot Require Import Coquelicot.
From Verif Require Import CBase Clean_Spec Clean_Model Clean_Proofs Fl_Spec Cf_Arith Cf_Spec.
Local Open Scope R_scope.

Lemma Cmod_sq : forall x y, Cmod (x, y) ^ 2 = x ^ 2 + y ^ 2.
Proof. intros x y. unfold Cmod. cbn [fst snd]. rewrite pow2_sqrt; [reflexivity|]. generalize (pow2_ge_0 x) (pow2_ge_0 y). lra. Qed.

Lemma Cmod_comp : forall k x y dx dy, 0 <= k -> Rabs dx <= k * Rabs x -> Rabs dy <= k * Rabs y -> Cmod (dx, dy) <= k * Cmod (x, y).
Proof.
  intros k x y dx dy Hk H1 H2.
  apply Rsqr_incr_0_var; [|apply Rmult_le_pos; [lra|apply Cmod_ge_0]].
  rewrite Rsqr_mult. rewrite !Rsqr_pow2, !Cmod_sq.
  assert (dx ^ 2 <= k ^ 2 * x ^ 2).
  { rewrite <- (pow2_abs dx), <- (pow2_abs x). rewrite <- Rpow_mult_distr. apply pow_incr. split; [apply Rabs_pos|exact H1]. }
  assert (dy ^ 2 <= k ^ 2 * y ^ 2).
  { rewrite <- (pow2_abs dy), <- (pow2_abs y). rewrite <- Rpow_mult_distr. apply pow_incr. split; [apply Rabs_pos|exact H2]. }
  lra.
Qed.

Lemma cauchy : forall x y a b, Rabs (x * a) + Rabs (y * b) <= Cmod (x, y) * Cmod (a, b).
Proof.
  intros x y a b. apply Rsqr_incr_0_var; [|apply Rmult_le_pos; apply Cmod_ge_0].
  rewrite Rsqr_mult, !Rsqr_pow2, !Cmod_sq, !Rabs_mult.
  rewrite <- (pow2_abs x), <- (pow2_abs y), <- (pow2_abs a), <- (pow2_abs b).
  generalize (Rabs x) (Rabs y) (Rabs a) (Rabs b). intros X Y A B. generalize (pow2_ge_0 (X * B - Y * A)). nra.
Qed.

Lemma rounds_abs : forall r u x, rounds r u -> Rabs (r x) <= (1 + u) * Rabs x.
Proof.
  intros r u x H. replace (r x) with (x + (r x - x)) by ring. eapply Rle_trans; [apply Rabs_triang|]. specialize (H x). lra.
Qed.

Lemma rounds_two : forall r u r' u' x, rounds r u -> rounds r' u' -> 0 <= u -> Rabs (r (r' x) - x) <= ((1 + u) * (1 + u') - 1) * Rabs x.
Proof.
  intros r u r' u' x H H' Hu. replace (r (r' x) - x) with ((r (r' x) - r' x) + (r' x - x)) by ring.
  eapply Rle_trans; [apply Rabs_triang|]. pose proof (H (r' x)). pose proof (H' x). pose proof (rounds_abs _ _ x H').
  assert (u * Rabs (r' x) <= u * ((1 + u') * Rabs x)) by (apply Rmult_le_compat_l; lra). lra.
Qed.

Lemma pair_minus : forall a b x y : R, ((a, b) - (x, y))%C = (a - x, b - y).
Proof. reflexivity. Qed.

Lemma Rabs_minus_le : forall a b, Rabs (a - b) <= Rabs a + Rabs b.
Proof. intros a b. replace (a - b) with (a + - b) by ring. eapply Rle_trans; [apply Rabs_triang|]. rewrite Rabs_Ropp. lra. Qed.

Lemma part_mul : forall r u p q, rounds r u -> 0 <= u ->
  Rabs (r (r p - r q) - (p - q)) <= ((1 + u) ^ 2 - 1) * (Rabs p + Rabs q) /\
  Rabs (r (r p + r q) - (p + q)) <= ((1 + u) ^ 2 - 1) * (Rabs p + Rabs q).
Proof.
  intros r u p q H Hu. pose proof (H p) as Hp. pose proof (H q) as Hq. pose proof (rounds_abs _ _ p H) as Ap. pose proof (rounds_abs _ _ q H) as Aq.
  split.
  - pose proof (H (r p - r q)) as Hd. replace (r (r p - r q) - (p - q)) with ((r (r p - r q) - (r p - r q)) + ((r p - p) - (r q - q))) by ring.
    eapply Rle_trans; [apply Rabs_triang|].
    pose proof (Rabs_minus_le (r p - p) (r q - q)). pose proof (Rabs_minus_le (r p) (r q)).
    assert (u * Rabs (r p - r q) <= u * ((1 + u) * (Rabs p + Rabs q))) by (apply Rmult_le_compat_l; lra). nra.
  - pose proof (H (r p + r q)) as Hd. replace (r (r p + r q) - (p + q)) with ((r (r p + r q) - (r p + r q)) + ((r p - p) + (r q - q))) by ring.
    eapply Rle_trans; [apply Rabs_triang|].
    assert (Rabs (r p - p + (r q - q)) <= Rabs (r p - p) + Rabs (r q - q)) by apply Rabs_triang.
    assert (Rabs (r p + r q) <= Rabs (r p) + Rabs (r q)) by apply Rabs_triang.
    assert (u * Rabs (r p + r q) <= u * ((1 + u) * (Rabs p + Rabs q))) by (apply Rmult_le_compat_l; lra). nra.
Qed.

Lemma cmul_rounded : forall r u z w, rounds r u -> 0 <= u ->
  Cmod (Cminus (r (r (fst z * fst w) - r (snd z * snd w)), r (r (fst z * snd w) + r (snd z * fst w))) (z * w)%C) <= 3 / 2 * ((1 + u) ^ 2 - 1) * (Cmod z * Cmod w).
Proof.
  intros r u [x y] [a b] H Hu. cbn [fst snd]. replace ((x, y) * (a, b))%C with (x * a - y * b, x * b + y * a) by reflexivity. rewrite pair_minus.
  pose proof (proj1 (part_mul r u (x * a) (y * b) H Hu)) as H1. pose proof (proj2 (part_mul r u (x * b) (y * a) H Hu)) as H2.
  pose proof (cauchy x y a b) as C1. pose proof (cauchy x y b a) as C2.
  replace (Cmod (b, a)) with (Cmod (a, b)) in C2 by (unfold Cmod; cbn [fst snd]; f_equal; ring).
  set (W := Cmod (x, y) * Cmod (a, b)) in *.
  assert (K0 : 0 <= (1 + u) ^ 2 - 1) by nra. set (K := (1 + u) ^ 2 - 1) in *.
  assert (W0 : 0 <= W) by (apply Rmult_le_pos; apply Cmod_ge_0).
  set (p := r (r (x * a) - r (y * b)) - (x * a - y * b)) in *. set (q := r (r (x * b) + r (y * a)) - (x * b + y * a)) in *.
  assert (P : Rabs p <= K * W) by (eapply Rle_trans; [exact H1|apply Rmult_le_compat_l; assumption]).
  assert (Q : Rabs q <= K * W) by (eapply Rle_trans; [exact H2|apply Rmult_le_compat_l; assumption]).
  apply Rsqr_incr_0_var; [|apply Rmult_le_pos; [lra|exact W0]].
  rewrite !Rsqr_pow2, Cmod_sq.
  assert (KW : 0 <= K * W) by (apply Rmult_le_pos; assumption).
  assert (p ^ 2 <= (K * W) ^ 2) by (rewrite <- (pow2_abs p); apply pow_incr; split; [apply Rabs_pos|exact P]).
  assert (q ^ 2 <= (K * W) ^ 2) by (rewrite <- (pow2_abs q); apply pow_incr; split; [apply Rabs_pos|exact Q]).
  replace ((3 / 2 * K * W) ^ 2) with (9 / 4 * (K * W) ^ 2) by field. generalize (pow2_ge_0 (K * W)). lra.
Qed.

Lemma Cmod_tri2 : forall a b, Cmod (a + b)%C <= Cmod a + Cmod b.
Proof. exact Cmod_triangle. Qed.

Lemma Cmod_minus_le : forall a b, Cmod (a - b)%C <= Cmod a + Cmod b.
Proof. intros. unfold Cminus. eapply Rle_trans; [apply Cmod_triangle|]. rewrite Cmod_opp. lra. Qed.

Lemma beam_le_1 : forall f x, 0 <= beam f x <= 1.
Proof.
  intros f x. unfold beam. split; [left; apply exp_pos|]. rewrite <- exp_0.
  assert (L : 0 < ln 2) by (rewrite <- ln_1; apply ln_increasing; lra).
  generalize (pow2_ge_0 (x / f)); intros Q. destruct (Req_dec (- (4 * ln 2) * (x / f) ^ 2) 0) as [E|E]; [rewrite E; lra|].
  left. apply exp_increasing. nra.
Qed.

Theorem rounded_accurate : forall r rw absf gaussf fwhm u u2 e h, rounds r u -> rounds rw u2 -> 0 <= u -> 0 <= u2 ->
  (forall z, Rabs (absf z - Cmod z) <= e * Cmod z) ->
  (forall mu x, Rabs (gaussf mu fwhm x - beam fwhm (x - mu)) <= h) ->
  accurate (rounded r rw absf gaussf) fwhm ((1 + u) * (1 + u2) - 1) u2 (mul_err u) e ((1 + u2) * (1 + h) - 1).
Proof.
  intros r rw absf gaussf fwhm u u2 e h H H2 Hu Hu2 HA HG. unfold accurate, rounded. cbn [a_abs a_scal a_mul a_add a_sub a_gauss].
  split; [exact HA|]. split.
  { intros g [x y]. cbn [fst snd]. replace (RtoC g * (x, y))%C with (g * x, g * y) by (unfold RtoC, Cmult; cbn [fst snd]; f_equal; ring).
    rewrite pair_minus. replace (u2 * Rabs g * Cmod (x, y)) with (u2 * Cmod (g * x, g * y)).
    - apply Cmod_comp; [lra|apply H2|apply H2].
    - rewrite Rmult_assoc. f_equal. replace (g * x, g * y) with (RtoC g * (x, y))%C by (unfold RtoC, Cmult; cbn [fst snd]; f_equal; ring).
      now rewrite Cmod_mult, Cmod_R. }
  split.
  { intros [x y] w. cbn [fst snd]. set (z' := (r x, r y) : C).
    pose proof (cmul_rounded r u z' w H Hu) as E. cbn [fst snd z'] in E. fold z' in E.
    match goal with |- Cmod (?a - _)%C <= _ => set (v := a) in * end.
    assert (D : Cmod (z' - (x, y))%C <= u * Cmod (x, y)) by (apply Cmod_comp; [lra|apply H|apply H]).
    assert (Z : Cmod z' <= (1 + u) * Cmod (x, y)).
    { replace z' with ((x, y) + (z' - (x, y)))%C by ring. eapply Rle_trans; [apply Cmod_triangle|]. lra. }
    replace (v - (x, y) * w)%C with ((v - z' * w) + (z' - (x, y)) * w)%C by ring.
    eapply Rle_trans; [apply Cmod_triangle|]. rewrite Cmod_mult. unfold mul_err.
    pose proof (Cmod_ge_0 w) as W0. pose proof (Cmod_ge_0 (x, y)) as Z0. assert (K0 : 0 <= (1 + u) ^ 2 - 1) by nra.
    set (K := (1 + u) ^ 2 - 1) in *. set (W := Cmod w) in *. set (X := Cmod (x, y)) in *.
    assert (Cmod (z' - (x, y))%C * W <= u * X * W) by (apply Rmult_le_compat_r; assumption).
    assert (3 / 2 * K * (Cmod z' * W) <= 3 / 2 * K * ((1 + u) * X * W)).
    { apply Rmult_le_compat_l; [lra|]. apply Rmult_le_compat_r; assumption. }
    lra. }
  split.
  { intros [x y] [x' y']. cbn [fst snd]. replace ((x, y) + (x', y'))%C with (x + x', y + y') by reflexivity. rewrite pair_minus.
    apply Cmod_comp; [nra| |]; now apply rounds_two. }
  split.
  { intros [x y] [x' y']. cbn [fst snd]. replace ((x, y) - (x', y'))%C with (x - x', y - y') by reflexivity. rewrite pair_minus.
    eapply Rle_trans; [apply (Cmod_comp u); [lra|apply H|apply H]|]. apply Rmult_le_compat_r; [apply Cmod_ge_0|nra]. }
  intros [x y] mu t. cbn [fst snd]. set (G := gaussf mu fwhm t). set (b := beam fwhm (t - mu)).
  replace ((x, y) * RtoC b)%C with (x * b, y * b) by (unfold RtoC, Cmult; cbn [fst snd]; f_equal; ring). rewrite pair_minus.
  pose proof (HG mu t) as Hg. fold G b in Hg. pose proof (beam_le_1 fwhm (t - mu)) as Hb. fold b in Hb.
  assert (h0 : 0 <= h) by (generalize (Rabs_pos (G - b)); lra).
  assert (GB : Rabs G <= 1 + h). { replace G with (b + (G - b)) by ring. eapply Rle_trans; [apply Rabs_triang|]. rewrite (Rabs_pos_eq b); lra. }
  assert (P : forall q, Rabs (rw (q * G) - q * b) <= ((1 + u2) * (1 + h) - 1) * Rabs q).
  { intros q. replace (rw (q * G) - q * b) with ((rw (q * G) - q * G) + q * (G - b)) by ring.
    eapply Rle_trans; [apply Rabs_triang|]. pose proof (H2 (q * G)) as E. rewrite !Rabs_mult in *. pose proof (Rabs_pos q).
    assert (u2 * (Rabs q * Rabs G) <= u2 * (Rabs q * (1 + h))) by (apply Rmult_le_compat_l; [lra|]; apply Rmult_le_compat_l; assumption).
    assert (Rabs q * Rabs (G - b) <= Rabs q * h) by (apply Rmult_le_compat_l; assumption). lra. }
  apply Cmod_comp; [nra|apply P|apply P].
Qed.

Theorem exact_accurate : forall fwhm, fwhm <> 0 -> accurate exact fwhm 0 0 0 0 0.
Proof.
  intros fwhm Hf. unfold accurate, exact. cbn [a_abs a_scal a_mul a_add a_sub a_gauss].
  assert (Z : forall z : C, Cmod (z - z)%C <= 0) by (intros; replace (z - z)%C with (RtoC 0) by ring; rewrite Cmod_0; lra).
  split; [intros; rewrite Rminus_diag_eq, Rabs_R0 by reflexivity; lra|].
  split; [intros; rewrite Rmult_0_l, Rmult_0_l; apply Z|]. split; [intros; rewrite Rmult_0_l, Rmult_0_l; apply Z|].
  do 2 (split; [intros; rewrite Rmult_0_l; apply Z|]). intros amp mu x. rewrite <- gauss1D_beam by exact Hf. rewrite Rmult_0_l. apply Z.
Qed.
