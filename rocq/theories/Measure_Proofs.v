(** Parabola, angles and the parameters of a Faraday spectrum. *)
From Coq Require Import Reals List Arith ZArith Bool Lia Lra Psatz.
Set Warnings "-ambiguous-paths".
From Coquelicot Require Import Coquelicot.
From Verif Require Import CBase PyRes PyList PyList_Proofs Clean_Grid Interp_Model Synth_Model Setup_Model Setup_Spec Setup_Proofs
  Peak_Proofs Measure_Model Measure_Spec.
Import ListNotations.
Local Open Scope R_scope.

(* ---------------------------------------------------------------- parabola *)

Theorem parabola_exists : forall x1 y1 x2 y2 x3 y3, x1 <> x2 -> x2 <> x3 -> x1 <> x3 ->
  exists a b c, through a b c x1 y1 x2 y2 x3 y3 /\
    forall a' b' c', through a' b' c' x1 y1 x2 y2 x3 y3 -> a' = a /\ b' = b /\ c' = c.
Proof.
  intros x1 y1 x2 y2 x3 y3 H12 H23 H13.
  set (D := (x1 - x2) * (x1 - x3) * (x2 - x3)).
  set (a := (x3 * (y2 - y1) + x2 * (y1 - y3) + x1 * (y3 - y2)) / D).
  set (b := (x3 * x3 * (y1 - y2) + x2 * x2 * (y3 - y1) + x1 * x1 * (y2 - y3)) / D).
  set (c := (x2 * x3 * (x2 - x3) * y1 + x3 * x1 * (x3 - x1) * y2 + x1 * x2 * (x1 - x2) * y3) / D).
  exists a, b, c. split.
  - unfold through, quad, a, b, c, D. repeat split; field; repeat split; lra.
  - intros a' b' c' (E1 & E2 & E3). unfold a, b, c, D, quad in *. subst y1 y2 y3. repeat split; field; repeat split; lra.
Qed.

Theorem vertex_spec : forall a b c x1 y1 x2 y2 x3 y3, x1 <> x2 -> x2 <> x3 -> x1 <> x3 -> y2 <> 0 ->
  through a b c x1 y1 x2 y2 x3 y3 ->
  (a <> 0 -> calc_parabola_vertex x1 y1 x2 y2 x3 y3 = Some (- b / (2 * a), quad a b c (- b / (2 * a)))) /\
  (a = 0 -> calc_parabola_vertex x1 y1 x2 y2 x3 y3 = None).
Proof.
  intros a b c x1 y1 x2 y2 x3 y3 H12 H23 H13 Hy (E1 & E2 & E3). unfold quad in E1, E2, E3.
  assert (Ec : c = y2 - a * x2 ^ 2 - b * x2) by lra. subst c.
  assert (y1 = a * x1 ^ 2 + b * x1 + (y2 - a * x2 ^ 2 - b * x2)) as -> by lra.
  assert (y3 = a * x3 ^ 2 + b * x3 + (y2 - a * x2 ^ 2 - b * x2)) as -> by lra.
  clear E1 E2 E3. unfold calc_parabola_vertex.
  destruct (Req_EM_T (x2 - x3) 0) as [E|E]; [lra|]. destruct (Req_EM_T y2 0) as [E'|E']; [lra|].
  match goal with |- context [Req_EM_T ?d 0] => set (D := d) end.
  assert (HD : D = - (x1 - x2) * (x1 - x3) / (x2 - x3) ^ 2 * -1).
  { unfold D. field. lra. }
  assert (HD0 : D <> 0).
  { rewrite HD. unfold Rdiv. repeat apply Rmult_integral_contrapositive_currified; try lra.
    apply Rinv_neq_0_compat. apply pow_nonzero. lra. }
  destruct (Req_EM_T D 0) as [E0|_]; [contradiction|].
  match goal with |- context [Req_EM_T (?n / D) 0] => set (A := n / D) end.
  assert (HA : A = a * (x2 - x3) ^ 2 / y2).
  { unfold A. rewrite HD. field. repeat split; lra. }
  match goal with |- context [Some (- (?n / D) / _ * _ + _, _)] => set (B := n / D) end.
  assert (HB : B = (x2 - x3) * (2 * a * x2 + b) / y2).
  { unfold B. rewrite HD. field. repeat split; lra. }
  match goal with |- context [(?n / D - _) * _] => set (C0 := n / D) end.
  assert (HC : C0 = 1).
  { unfold C0. rewrite HD. field. repeat split; lra. }
  clearbody A B C0 D. split.
  - intros Ha. assert (A <> 0) as HA0.
    { rewrite HA. unfold Rdiv. repeat apply Rmult_integral_contrapositive_currified; first [assumption | apply Rinv_neq_0_compat; assumption | lra]. }
    destruct (Req_EM_T A 0) as [?|_]; [contradiction|]. f_equal. subst A B C0. unfold quad. f_equal; field; repeat split; lra.
  - intros ->. destruct (Req_EM_T A 0) as [_|N]; [reflexivity|]. exfalso. apply N. rewrite HA. unfold Rdiv. ring.
Qed.

Theorem vertex_zero_middle : forall x1 y1 x2 x3 y3, calc_parabola_vertex x1 y1 x2 0 x3 y3 = None.
Proof.
  intros. unfold calc_parabola_vertex. destruct (Req_EM_T (x2 - x3) 0); [reflexivity|].
  destruct (Req_EM_T 0 0); [reflexivity|contradiction].
Qed.

Theorem vertex_symmetric : forall x d y0 y, 0 < d -> y0 <> 0 -> y <> y0 ->
  calc_parabola_vertex (x - d) y x y0 (x + d) y = Some (x, y0).
Proof.
  intros x d y0 y Hd Hy Hne.
  destruct (vertex_spec ((y - y0) / d ^ 2) (- 2 * ((y - y0) / d ^ 2) * x) ((y - y0) / d ^ 2 * x ^ 2 + y0) (x - d) y x y0 (x + d) y) as [H _]; try lra.
  - unfold through, quad. repeat split; field; lra.
  - assert (HN : (y - y0) / d ^ 2 <> 0).
    { unfold Rdiv. apply Rmult_integral_contrapositive_currified; [lra|]. apply Rinv_neq_0_compat, pow_nonzero. lra. }
    rewrite (H HN). unfold quad. f_equal. f_equal; field; split; lra.
Qed.

(** whatever is returned is the vertex of the parabola through the points *)
Theorem vertex_inv : forall x1 y1 x2 y2 x3 y3 xv yv, x1 <> x2 -> x2 <> x3 -> x1 <> x3 ->
  calc_parabola_vertex x1 y1 x2 y2 x3 y3 = Some (xv, yv) ->
  exists a b c, a <> 0 /\ through a b c x1 y1 x2 y2 x3 y3 /\ xv = - b / (2 * a) /\ yv = quad a b c xv.
Proof.
  intros x1 y1 x2 y2 x3 y3 xv yv H12 H23 H13 H.
  destruct (Req_EM_T y2 0) as [->|Hy]; [rewrite vertex_zero_middle in H; discriminate|].
  destruct (parabola_exists x1 y1 x2 y2 x3 y3 H12 H23 H13) as (a & b & c & T & _).
  destruct (vertex_spec _ _ _ _ _ _ _ _ _ H12 H23 H13 Hy T) as [S1 S2].
  destruct (Req_EM_T a 0) as [Ha|Ha]; [rewrite (S2 Ha) in H; discriminate|].
  rewrite (S1 Ha) in H. injection H as <- <-. exists a, b, c. auto.
Qed.

(** the vertex dominates the parabola when it opens downwards *)
Lemma quad_max : forall a b c x, a < 0 -> quad a b c x <= quad a b c (- b / (2 * a)).
Proof.
  intros a b c x Ha. assert (quad a b c (- b / (2 * a)) - quad a b c x = - a * (x - - b / (2 * a)) ^ 2) as E.
  { unfold quad. field. lra. }
  pose proof (pow2_ge_0 (x - - b / (2 * a))). nra.
Qed.
Lemma quad_min : forall a b c x, 0 < a -> quad a b c (- b / (2 * a)) <= quad a b c x.
Proof.
  intros a b c x Ha. assert (quad a b c x - quad a b c (- b / (2 * a)) = a * (x - - b / (2 * a)) ^ 2) as E.
  { unfold quad. field. lra. }
  pose proof (pow2_ge_0 (x - - b / (2 * a))). nra.
Qed.

(** A middle sample that is the largest: the vertex is a maximum, at least as
    high, and nearer to the middle sample than half a step. *)
Theorem vertex_of_peak : forall x d y1 y2 y3 xv yv, 0 < d -> y1 <= y2 -> y3 <= y2 ->
  calc_parabola_vertex (x - d) y1 x y2 (x + d) y3 = Some (xv, yv) ->
  Rabs (xv - x) <= d / 2 /\ y2 <= yv.
Proof.
  intros x d y1 y2 y3 xv yv Hd H1 H3 H.
  assert (N1 : x - d <> x) by lra. assert (N2 : x <> x + d) by lra. assert (N3 : x - d <> x + d) by lra.
  destruct (vertex_inv _ _ _ _ _ _ _ _ N1 N2 N3 H) as (a & b & c & Ha & (T1 & T2 & T3) & -> & ->).
  assert (E1 : y1 - y2 = a * d ^ 2 - d * (2 * a * x + b)) by (rewrite <- T1, <- T2; unfold quad; ring).
  assert (E3 : y3 - y2 = a * d ^ 2 + d * (2 * a * x + b)) by (rewrite <- T3, <- T2; unfold quad; ring).
  assert (Hn : a < 0) by (assert (0 < d ^ 2) by nra; nra).
  split.
  - assert (E : - b / (2 * a) - x = - (2 * a * x + b) / (2 * a)) by (field; lra). rewrite E.
    set (g := 2 * a * x + b) in *.
    assert (- a * d >= Rabs g) as G by (unfold Rabs; destruct (Rcase_abs g); nra).
    unfold Rdiv. rewrite Rabs_mult, Rabs_Ropp, Rabs_inv, (Rabs_left (2 * a)) by lra.
    apply (Rmult_le_reg_r (- (2 * a))); [lra|]. rewrite Rmult_assoc, Rinv_l by lra. nra.
  - rewrite <- T2. apply quad_max, Hn.
Qed.

(* ---------------------------------------------------------------- angles *)

Lemma fmod_range : forall a b, 0 < b -> 0 <= fmod a b < b.
Proof.
  intros a b Hb. unfold fmod. destruct (Rfloor_spec (a / b)) as [H1 H2].
  apply (Rmult_le_compat_l b) in H1; [|lra]. apply (Rmult_lt_compat_l b) in H2; [|lra].
  replace (b * (a / b)) with a in * by (field; lra). split; lra.
Qed.
Lemma fmod_same : forall a, same_angle (fmod a 180) a.
Proof. intros a. unfold fmod. exists (- Rfloor (a / 180))%Z. rewrite opp_IZR. ring. Qed.
Lemma same_angle_refl : forall a, same_angle a a.
Proof. intros a. exists 0%Z. ring. Qed.
Lemma same_angle_trans : forall a b c, same_angle a b -> same_angle b c -> same_angle a c.
Proof. intros a b c [j ->] [k ->]. exists (j + k)%Z. rewrite plus_IZR. ring. Qed.
Lemma same_angle_sym : forall a b, same_angle a b -> same_angle b a.
Proof. intros a b [j ->]. exists (- j)%Z. rewrite opp_IZR. ring. Qed.
Lemma same_angle_plus : forall a b c, same_angle a b -> same_angle (a + c) (b + c).
Proof. intros a b c [j ->]. exists j. ring. Qed.
Lemma same_angle_unique : forall a b, same_angle a b -> 0 <= a < 180 -> 0 <= b < 180 -> a = b.
Proof.
  intros a b [k ->] Ha Hb. assert (k = 0)%Z as ->; [|ring].
  assert (-1 < k < 1)%Z; [|lia]. split; apply lt_IZR; lra.
Qed.
Lemma fmod_unique : forall a r, 0 <= r < 180 -> same_angle r a -> fmod a 180 = r.
Proof.
  intros a r Hr S. apply same_angle_unique; auto; [|apply fmod_range; lra].
  eapply same_angle_trans; [apply fmod_same|]. apply same_angle_sym, S.
Qed.

(** arctan2 is the polar angle *)
Lemma arctan2_spec : forall x y, let r := sqrt (x ^ 2 + y ^ 2) in
  x = r * cos (arctan2 y x) /\ y = r * sin (arctan2 y x).
Proof.
  intros x y r. unfold arctan2.
  assert (P : forall u v, 0 < u -> u = sqrt (u ^ 2 + v ^ 2) * cos (atan (v / u)) /\ v = sqrt (u ^ 2 + v ^ 2) * sin (atan (v / u))).
  { intros u v Hu. rewrite cos_atan, sin_atan.
    assert (sqrt (u ^ 2 + v ^ 2) = u * sqrt (1 + (v / u) ^ 2)) as E.
    { rewrite <- (sqrt_pow2 u) at 2 by lra. rewrite <- sqrt_mult by (try apply pow2_ge_0; pose proof (pow2_ge_0 (v / u)); lra).
      f_equal. field. lra. }
    assert (0 < sqrt (1 + (v / u) ^ 2)) as S0 by (apply sqrt_lt_R0; pose proof (pow2_ge_0 (v / u)); lra).
    replace ((v / u)²) with ((v / u) ^ 2) by (unfold Rsqr; ring).
    rewrite E. split; field; lra. }
  destruct (Rlt_dec 0 x) as [Hx|Hx]; [apply P, Hx|].
  destruct (Rlt_dec x 0) as [Hx'|Hx'].
  - assert (E : y / x = - y / - x) by (field; lra).
    destruct (P (- x) (- y) ltac:(lra)) as [P1 P2]. rewrite <- E in P1, P2.
    replace ((- x) ^ 2 + (- y) ^ 2) with (x ^ 2 + y ^ 2) in P1, P2 by ring. fold r in P1, P2.
    destruct (Rle_dec 0 y).
    + rewrite neg_cos, neg_sin. lra.
    + unfold Rminus. rewrite cos_plus, sin_plus, cos_neg, sin_neg, cos_PI, sin_PI. lra.
  - assert (x = 0) as -> by lra. assert (r = Rabs y) as ->.
    { unfold r. rewrite <- sqrt_Rsqr_abs. f_equal. unfold Rsqr. ring. }
    destruct (Rlt_dec 0 y) as [Hy|Hy].
    + rewrite cos_PI2, sin_PI2, Rabs_pos_eq by lra. lra.
    + destruct (Rlt_dec y 0) as [Hy'|Hy'].
      * rewrite cos_neg, sin_neg, cos_PI2, sin_PI2, Rabs_left by lra. lra.
      * assert (y = 0) as -> by lra. rewrite Rabs_R0. lra.
Qed.

Lemma cis_same_angle : forall a b, same_angle a b -> cis (2 * (a * PI / 180)) = cis (2 * (b * PI / 180)).
Proof.
  intros a b [k ->]. replace (2 * ((b + 180 * IZR k) * PI / 180)) with (2 * (b * PI / 180) + 2 * IZR k * PI) by field.
  apply cis_period_Z.
Qed.

(** the position angle reported for a complex value *)
Definition angle_of (im re : R) : R := fmod (1 / 2 * degrees (arctan2 im re)) 180.

Lemma angle_of_orientation : forall im re, 0 <= angle_of im re < 180 /\ orientation (re, im) (angle_of im re).
Proof.
  intros im re. split; [apply fmod_range; lra|]. exists (sqrt (re ^ 2 + im ^ 2)). split; [apply sqrt_pos|].
  unfold angle_of. rewrite (cis_same_angle _ _ (fmod_same _)).
  assert (2 * (1 / 2 * degrees (arctan2 im re) * PI / 180) = arctan2 im re) as ->.
  { unfold degrees. field. apply PI_neq0. }
  destruct (arctan2_spec re im) as [E1 E2]. cbv zeta in E1, E2. set (r := sqrt (re ^ 2 + im ^ 2)) in *. clearbody r.
  unfold cis, RtoC, Cmult. simpl fst. simpl snd. f_equal; [etransitivity; [exact E1|]|etransitivity; [exact E2|]]; ring.
Qed.

Lemma cis_inj : forall a b, cis a = cis b -> exists k, a = b + 2 * IZR k * PI.
Proof.
  intros a b H. unfold cis in H. injection H as Hc Hs.
  assert (C1 : cos (a - b) = 1).
  { rewrite cos_minus. rewrite Hc, Hs. pose proof (sin2_cos2 b). unfold Rsqr in *. lra. }
  assert (S0 : sin ((a - b) / 2) = 0).
  { replace (a - b) with (2 * ((a - b) / 2)) in C1 by field. rewrite cos_2a_sin in C1. nra. }
  apply sin_eq_0_0 in S0. destruct S0 as [k E]. exists k. lra.
Qed.

(** orientations are unique up to half turns *)
Lemma orientation_unique : forall z a b, z <> RtoC 0 -> orientation z a -> orientation z b -> same_angle a b.
Proof.
  intros z a b Hz (r & Hr & E1) (q & Hq & E2).
  assert (r = Cmod z) as Er by (rewrite E1, Cmod_mult, Cmod_cis, Cmod_R, Rabs_pos_eq by lra; lra).
  assert (q = Cmod z) as Eq by (rewrite E2, Cmod_mult, Cmod_cis, Cmod_R, Rabs_pos_eq by lra; lra).
  assert (0 < Cmod z) by (apply Cmod_gt_0, Hz).
  assert (cis (2 * (a * PI / 180)) = cis (2 * (b * PI / 180))) as E.
  { assert (E0 : (RtoC r * cis (2 * (a * PI / 180)) = RtoC q * cis (2 * (b * PI / 180)))%C) by congruence.
    rewrite Er, Eq in E0. clear E1 E2 Er Eq. rename E0 into E1.
    apply (f_equal (Cmult (Cinv (RtoC (Cmod z))))) in E1. rewrite !Cmult_assoc, !Cinv_l, !Cmult_1_l in E1; auto; intros HH; apply RtoC_inj in HH; lra. }
  apply cis_inj in E. destruct E as [k E]. exists k. pose proof PI_RGT_0.
  apply (Rmult_eq_reg_r (PI / 90)); [|lra]. lra.
Qed.
