(** QU-fitting models: reductions, superposition, periodicity, bounds. *)
From Coq Require Import Reals List Arith ZArith Bool String Lra Lia.
Set Warnings "-ambiguous-paths".
From Coquelicot Require Import Coquelicot.
From Verif Require Import CBase PyRes PyList PyStr PyStr_Proofs CleanTop_Model Measure_Model Measure_Spec Measure_Proofs Synth_Spec QU_Model QU_Spec.
Import ListNotations.
Local Open Scope R_scope.

(** ** dictionaries *)
Lemma pget_app : forall d k v k', pget (d ++ [(k, v)]) k' = if str_eqb k k' then POk v else pget d k'.
Proof.
  induction d as [|[k0 v0] d IH]; intros k v k'; cbn [app pget].
  - destruct (str_eqb k k'); reflexivity.
  - rewrite IH. destruct (str_eqb k k'); [reflexivity|]. destruct (pget d k'); reflexivity.
Qed.
Lemma pget_set : forall d k v k', pget (pset d k v) k' = if str_eqb k k' then POk v else pget d k'.
Proof. intros. apply pget_app. Qed.

(** ** complex facts *)
Lemma e2j_thin : forall p psi RM l, (RtoC p * e2j (radians psi + RM * l))%C = thin p (rad psi) RM l.
Proof. intros. unfold e2j, thin, radians, rad. reflexivity. Qed.

Lemma thin_mod : forall p psi RM l, Cmod (thin p psi RM l) = Rabs p.
Proof. intros. unfold thin. rewrite Cmod_mult, Cmod_cis, Rmult_1_r. apply Cmod_R. Qed.

Lemma thin_period : forall p a RM l n, thin p (rad (a + 180 * IZR n)) RM l = thin p (rad a) RM l.
Proof.
  intros. unfold thin, rad. f_equal. rewrite <- (cis_period_Z n (2 * (a * PI / 180 + RM * l))). f_equal. field.
Qed.

Lemma Cmod_exp_le : forall z x, 0 <= x -> Cmod (z * RtoC (exp (- x)))%C <= Cmod z.
Proof.
  intros z x Hx. rewrite Cmod_mult, Cmod_R, Rabs_pos_eq by (left; apply exp_pos).
  assert (exp (- x) <= 1) by (rewrite <- exp_0; destruct Hx as [Hx| <-]; [left; apply exp_increasing; lra|rewrite Ropp_0; lra]).
  pose proof (Cmod_ge_0 z). nra.
Qed.
Lemma burn_mod : forall z a l, Cmod (z * RtoC (exp (-2 * a ^ 2 * l ^ 2)))%C <= Cmod z.
Proof.
  intros. replace (-2 * a ^ 2 * l ^ 2) with (- (2 * (a * l) ^ 2)) by ring. apply Cmod_exp_le.
  pose proof (pow2_ge_0 (a * l)). lra.
Qed.

Lemma sin_abs_le : forall x, Rabs (sin x) <= Rabs x.
Proof.
  intros x.
  assert (P : forall y, 0 <= y -> sin y <= y).
  { intros y [Hy| <-]; [left; apply sin_lt_x; auto|rewrite sin_0; lra]. }
  assert (N : forall y, 0 <= y -> - y <= sin y).
  { intros y Hy. destruct (Rle_lt_dec y PI) as [L|G].
    - pose proof (sin_ge_0 y Hy L). lra.
    - pose proof (SIN_bound y). pose proof PI2_3_2. unfold PI2 in *. lra. }
  destruct (Rle_dec 0 x) as [H|H].
  - rewrite (Rabs_pos_eq x) by auto. apply Rabs_le. split; [apply N|apply P]; auto.
  - rewrite (Rabs_left x) by lra. replace (sin x) with (- sin (- x)) by (rewrite sin_neg; ring). rewrite Rabs_Ropp.
    apply Rabs_le. split; [apply N|apply P]; lra.
Qed.

Lemma cdivr_mod : forall z x y, cdivr (z * RtoC (sin x))%C x = Some y -> Cmod y <= Cmod z.
Proof.
  intros z x y H. unfold cdivr in H. destruct (Req_EM_T x 0) as [|N]; [discriminate|]. injection H as <-.
  unfold Cdiv. rewrite !Cmod_mult, Cmod_inv by (intros E; apply N; injection E; auto). rewrite !Cmod_R.
  assert (0 < Rabs x) by (apply Rabs_pos_lt; auto). pose proof (sin_abs_le x). pose proof (Cmod_ge_0 z).
  apply (Rmult_le_reg_r (Rabs x)); [auto|]. replace (Cmod z * Rabs (sin x) * / Rabs x * Rabs x) with (Cmod z * Rabs (sin x)) by (field; lra). nra.
Qed.

Lemma one_minus_cos : forall b, 2 * (1 - cos b) <= b ^ 2.
Proof.
  intros b. replace b with (2 * (b / 2)) at 1 by field. rewrite cos_2a_sin.
  pose proof (sin_abs_le (b / 2)) as H. pose proof (Rabs_pos (sin (b / 2))).
  assert (sin (b / 2) ^ 2 <= (b / 2) ^ 2).
  { rewrite <- (pow2_abs (sin (b / 2))), <- (pow2_abs (b / 2)). apply pow_incr. split; auto. }
  nra.
Qed.

Lemma exp_ge_1_plus : forall x, 1 + x <= exp x.
Proof. intros x. destruct (Req_dec x 0) as [->|H]; [rewrite exp_0; lra|]. left. apply exp_ineq1; auto. Qed.

Lemma internal_mod : forall (S : C) q, 0 <= fst S -> cdiv (RtoC 1 - cexp (- S))%C S = Some q -> Cmod q <= 1.
Proof.
  intros [a b] q Ha H. cbn in Ha. unfold cdiv in H. destruct (Ceq_dec _ _) as [|N]; [discriminate|]. injection H as <-.
  rewrite Cmod_div by auto. assert (P : 0 < Cmod (a, b)).
  { apply Cmod_gt_0. auto. }
  apply (Rmult_le_reg_r (Cmod (a, b))); [auto|]. unfold Rdiv. rewrite Rmult_assoc, Rinv_l, Rmult_1_r, Rmult_1_l by lra.
  unfold cexp, Cmod. apply sqrt_le_1_alt. unfold cis. simpl.
  rewrite cos_neg, sin_neg. set (e := exp (- a)).
  assert (E : e <= 1) by (unfold e; rewrite <- exp_0; destruct Ha as [Ha| <-]; [left; apply exp_increasing; lra|rewrite Ropp_0; lra]).
  assert (E0 : 0 < e) by apply exp_pos. assert (E1 : 1 - a <= e) by (unfold e; pose proof (exp_ge_1_plus (- a)); lra).
  pose proof (one_minus_cos b) as Cb. pose proof (sin2_cos2 b) as SC. unfold Rsqr in SC.
  assert (Q : (1 - e) ^ 2 <= a ^ 2) by (apply pow_incr; split; lra).
  assert (e * (2 * (1 - cos b)) <= b ^ 2).
  { assert (0 <= 2 * (1 - cos b)) by (pose proof (COS_bound b); lra). nra. }
  replace ((1 + - (e * cos b - 0 * - sin b)) * ((1 + - (e * cos b - 0 * - sin b)) * 1) + (0 + - (e * - sin b + 0 * cos b)) * ((0 + - (e * - sin b + 0 * cos b)) * 1))
    with ((1 - e) ^ 2 + e * (2 * (1 - cos b)) + e ^ 2 * (sin b * sin b + cos b * cos b - 1)) by ring.
  rewrite SC. lra.
Qed.

(** ** reading the parameters *)
Ltac keys := unfold m1, m2, m3, m4, m5, m6, m7, m11, m12, m111 in *.
Ltac bindget := repeat match goal with
  | |- context [pget ?d ?k] => destruct (pget d k) eqn:?; cbn [pybind]
  end.

Lemma POk_inj' : forall {A} (a b : A), POk a = POk b -> a = b.
Proof. intros A a b H. injection H; auto. Qed.

(** ** reductions *)
Theorem m2_m1 : forall d l2, pget d (s "sigmaRM_radm2") = POk 0 -> m2 d l2 = m1 d l2.
Proof.
  intros d l2 H. keys. bindget; try discriminate; auto. apply POk_inj' in H. subst. f_equal. apply map_ext. intros l. f_equal.
  replace (-2 * 0 ^ 2 * l ^ 2) with 0 by ring. rewrite exp_0. ring.
Qed.
Theorem m3_m11 : forall d l2, pget d (s "sigmaRM_radm2") = POk 0 -> m3 d l2 = m11 d l2.
Proof.
  intros d l2 H. keys. bindget; try discriminate; auto. apply POk_inj' in H. subst. f_equal. apply map_ext. intros l. f_equal.
  replace (-2 * 0 ^ 2 * l ^ 2) with 0 by ring. rewrite exp_0. ring.
Qed.
Theorem m4_m3 : forall d l2 sg, pget d (s "sigmaRM1_radm2") = POk sg -> pget d (s "sigmaRM2_radm2") = POk sg -> pget d (s "sigmaRM_radm2") = POk sg ->
  m4 d l2 = m3 d l2.
Proof.
  intros d l2 sg H1 H2 H. keys. rewrite H1, H2, H. bindget; try discriminate; auto. f_equal. apply map_ext. intros l. f_equal. ring.
Qed.
Theorem m111_m11 : forall d l2 a r, pget d (s "fracPol3") = POk 0 -> pget d (s "psi03_deg") = POk a -> pget d (s "RM3_radm2") = POk r ->
  m111 d l2 = m11 d l2.
Proof.
  intros d l2 a r H1 H2 H. keys. rewrite H1, H2, H. bindget; try discriminate; auto. f_equal. apply map_ext. intros l. f_equal. ring.
Qed.
Theorem m12_m7 : forall d l2, pget d (s "sigmaRM_radm2_FG") = POk 0 -> pget d (s "RM_screen") = pget d (s "RM_radm2") ->
  m12 d l2 = m7 d l2.
Proof.
  intros d l2 H1 H. keys. rewrite H1, H. bindget; try discriminate; auto. f_equal. apply map_ext. intros l. cbv zeta. unfold cdiv.
  destruct (Ceq_dec _ _); [reflexivity|]. f_equal. replace (-2 * 0 ^ 2 * l ^ 2) with 0 by ring. rewrite exp_0. unfold Cdiv. ring.
Qed.
Theorem m7_m5 : forall d l2, pget d (s "sigmaRM_radm2") = POk 0 -> m7 d l2 = m5 d l2.
Proof.
  intros d l2 H. keys. rewrite H. bindget; try discriminate; auto. f_equal. apply map_ext. intros l. cbv zeta.
  clear H. rename a into p, a0 into dRM, a1 into psi, a2 into RM. unfold cdiv, cdivr.
  set (x := dRM * l).
  replace ((2 * l ^ 2 * 0 ^ 2, - (2 * l * dRM)) : C) with ((0, - (2 * x)) : C) by (unfold x; f_equal; ring).
  destruct (Req_EM_T x 0) as [E|E].
  - rewrite E. destruct (Ceq_dec _ _) as [|N]; [reflexivity|]. exfalso. apply N. unfold RtoC. f_equal. ring.
  - destruct (Ceq_dec _ _) as [E'|N]; [exfalso; injection E'; intros; lra|]. f_equal.
    replace (radians psi + (/ 2 * dRM + RM) * l) with (radians psi + RM * l + x / 2) by (unfold x; field).
    unfold e2j. replace (2 * (radians psi + RM * l + x / 2)) with (2 * (radians psi + RM * l) + x) by field. rewrite cis_plus.
    set (t := 2 * (radians psi + RM * l)). unfold cexp, Cdiv. cbn [fst snd Copp]. rewrite Ropp_0, exp_0, Ropp_involutive.
    replace (2 * x) with (x + x) by ring. rewrite cis_plus.
    transitivity (RtoC p * cis t * ((RtoC 1 - RtoC 1 * (cis x * cis x)) * / ((0, (- (x + x))%R) : C)))%C; [ring|].
    transitivity (RtoC p * cis t * (cis x * RtoC (sin x) * / RtoC x))%C; [|ring]. f_equal.
    unfold cis, Cminus, Cplus, Copp, Cmult, Cinv, RtoC. cbn [fst snd].
    pose proof (sin2_cos2 x) as SC. unfold Rsqr in SC.
    f_equal.
    + replace (0 ^ 2 + (- (x + x)) ^ 2) with (4 * x * x) by ring. replace (x ^ 2 + 0 ^ 2) with (x * x) by ring. field_simplify; [|lra..]. 
      apply (Rmult_eq_reg_r x); [|auto]. field_simplify; [|lra..]. ring.
    + replace (0 ^ 2 + (- (x + x)) ^ 2) with (4 * x * x) by ring. replace (x ^ 2 + 0 ^ 2) with (x * x) by ring.
      apply (Rmult_eq_reg_r x); [|auto]. field_simplify; [|lra..]. 
      replace (cos x ^ 2) with (1 - sin x ^ 2) by (rewrite <- SC; ring). field. auto.
Qed.

Lemma combine_map2 : forall {A B D} (f : A -> B) (g : A -> D) l, combine (map f l) (map g l) = map (fun x => (f x, g x)) l.
Proof. intros A B D f g. induction l as [|x l IH]; [reflexivity|]. cbn. f_equal. exact IH. Qed.

(** ** superposition *)
Ltac comp H k1 k2 := let E := fresh "K" in assert (E := H k1 k2 ltac:(cbn; auto 10)); cbn in E.
Ltac comp_thin H := comp H "fracPol"%string ""%string; comp H "psi0"%string "_deg"%string; comp H "RM"%string "_radm2"%string.
Ltac add_up := rewrite ?combine_map2, ?map_map; f_equal; apply map_ext; intros l.

Theorem m11_sum : forall d d1 d2 l2, component d "1" thin_keys d1 -> component d "2" thin_keys d2 ->
  m11 d l2 = add_spectra (m1 d1 l2) (m1 d2 l2).
Proof.
  intros d d1 d2 l2 H1 H2. comp_thin H1. comp_thin H2. keys. cbn [s list_ascii_of_string] in *. rewrite K, K0, K1, K2, K3, K4.
  bindget; try reflexivity. cbn [add_spectra]. add_up; try reflexivity.
Qed.

Theorem m111_sum : forall d d1 d2 d3 l2, component d "1" thin_keys d1 -> component d "2" thin_keys d2 -> component d "3" thin_keys d3 ->
  m111 d l2 = add_spectra (add_spectra (m1 d1 l2) (m1 d2 l2)) (m1 d3 l2).
Proof.
  intros d d1 d2 d3 l2 H1 H2 H3. comp_thin H1. comp_thin H2. comp_thin H3. keys. cbn [s list_ascii_of_string] in *. rewrite K, K0, K1, K2, K3, K4, K5, K6, K7.
  bindget; try reflexivity. cbn [add_spectra]. rewrite combine_map2, map_map. rewrite combine_map2, map_map. f_equal.
Qed.

Theorem m4_sum : forall d d1 d2 l2, component d "1" burn_keys d1 -> component d "2" burn_keys d2 ->
  m4 d l2 = add_spectra (m2 d1 l2) (m2 d2 l2).
Proof.
  intros d d1 d2 l2 H1 H2. comp_thin H1. comp_thin H2. comp H1 "sigmaRM"%string "_radm2"%string. comp H2 "sigmaRM"%string "_radm2"%string.
  keys. cbn [s list_ascii_of_string] in *. rewrite K, K0, K1, K2, K3, K4, K5, K6.
  bindget; try reflexivity. cbn [add_spectra]. add_up; try reflexivity.
Qed.

Theorem m3_sum : forall d d1 d2 l2, component d "1" thin_keys d1 -> component d "2" thin_keys d2 ->
  pget d1 (s "sigmaRM_radm2") = pget d (s "sigmaRM_radm2") -> pget d2 (s "sigmaRM_radm2") = pget d (s "sigmaRM_radm2") ->
  m3 d l2 = add_spectra (m2 d1 l2) (m2 d2 l2).
Proof.
  intros d d1 d2 l2 H1 H2 S1 S2. comp_thin H1. comp_thin H2.
  keys. cbn [s list_ascii_of_string] in *. rewrite K, K0, K1, K2, K3, K4, S1, S2.
  bindget; try reflexivity. cbn [add_spectra]. add_up. f_equal. ring.
Qed.

Theorem m6_sum : forall d d1 d2 l2, component d "1" slab_keys d1 -> component d "2" slab_keys d2 ->
  m6 d l2 = add_spectra (m5 d1 l2) (m5 d2 l2).
Proof.
  intros d d1 d2 l2 H1 H2. comp_thin H1. comp_thin H2. comp H1 "deltaRM"%string "_radm2"%string. comp H2 "deltaRM"%string "_radm2"%string.
  keys. cbn [s list_ascii_of_string] in *. rewrite K, K0, K1, K2, K3, K4, K5, K6.
  bindget; try reflexivity. cbn [add_spectra]. add_up; try reflexivity.
Qed.

(** exchanging the components changes nothing *)
Lemma add_spectra_comm : forall a b, add_spectra a b = add_spectra b a.
Proof.
  intros [a|] [b|]; try reflexivity. cbn. f_equal. revert b. induction a as [|x a IH]; intros [|y b]; try reflexivity.
  cbn. rewrite IH. f_equal. destruct x, y; try reflexivity. f_equal. ring.
Qed.

(** ** the periodicity *)
Lemma e2j_period : forall a n x, e2j (radians (a + 180 * IZR n) + x) = e2j (radians a + x).
Proof.
  intros. unfold e2j, radians. rewrite <- (cis_period_Z n (2 * (a * PI / 180 + x))). f_equal. field.
Qed.

Theorem angles_periodic : forall m ks k d a n l2, In (m, ks) angle_keys -> In k ks -> pget d (s k) = POk a ->
  m (pset d (s k) (a + 180 * IZR n)) l2 = m d l2.
Proof.
  intros m ks k d a n l2 Hm Hk E.
  repeat (destruct Hm as [Hm|Hm]; [injection Hm as <- <-; repeat (destruct Hk as [<- |Hk]; [keys; rewrite !pget_set; cbn [str_eqb s list_ascii_of_string ch_eqb Ascii.eqb Bool.eqb andb] in *;
     rewrite !E; bindget; try reflexivity; f_equal; apply map_ext; intros l; rewrite !e2j_period; reflexivity|]); destruct Hk|]).
  destruct Hm.
Qed.
