(** QU-fitting models: limits, depth averages, bounds, priors. *)
From Coq Require Import Reals List Arith ZArith Bool String Lra Lia.
Set Warnings "-ambiguous-paths".
From Coquelicot Require Import Coquelicot.
From Verif Require Import CBase PyRes PyList PyStr PyStr_Proofs CleanTop_Model Measure_Model Measure_Spec Measure_Proofs Synth_Spec QU_Model QU_Spec QU_Proofs.
Import ListNotations.
Local Open Scope R_scope.

(** ** second component without polarisation *)
Theorem m11_m1 : forall d d1 l2 a r, component d "1" thin_keys d1 -> pget d (s "fracPol2") = POk 0 ->
  pget d (s "psi02_deg") = POk a -> pget d (s "RM2_radm2") = POk r -> m11 d l2 = m1 d1 l2.
Proof.
  intros d d1 l2 a r H1 P A Rm. comp_thin H1. keys. rewrite P, A, Rm. cbn [s list_ascii_of_string] in *. rewrite K, K0, K1.
  bindget; try reflexivity. f_equal. apply map_ext. intros l. f_equal. ring.
Qed.
Theorem m4_m2 : forall d d1 l2 a r g, component d "1" burn_keys d1 -> pget d (s "fracPol2") = POk 0 ->
  pget d (s "psi02_deg") = POk a -> pget d (s "RM2_radm2") = POk r -> pget d (s "sigmaRM2_radm2") = POk g -> m4 d l2 = m2 d1 l2.
Proof.
  intros d d1 l2 a r g H1 P A Rm G. comp_thin H1. comp H1 "sigmaRM"%string "_radm2"%string. keys. rewrite P, A, Rm, G. cbn [s list_ascii_of_string] in *. rewrite K, K0, K1, K2.
  bindget; try reflexivity. f_equal. apply map_ext. intros l. f_equal. ring.
Qed.
Theorem m6_m5 : forall d d1 l2 a r g, component d "1" slab_keys d1 -> pget d (s "fracPol2") = POk 0 ->
  pget d (s "psi02_deg") = POk a -> pget d (s "RM2_radm2") = POk r -> pget d (s "deltaRM2_radm2") = POk g -> g <> 0 -> (forall l, In l l2 -> l <> 0) ->
  m6 d l2 = m5 d1 l2.
Proof.
  intros d d1 l2 a r g H1 P A Rm G Hg Hl. comp_thin H1. comp H1 "deltaRM"%string "_radm2"%string. keys. rewrite P, A, Rm, G. cbn [s list_ascii_of_string] in *. rewrite K, K0, K1, K2.
  bindget; try reflexivity. f_equal. apply map_ext_in. intros l Hin. unfold cdivr at 2.
  destruct (Req_EM_T (g * l) 0) as [E|_]; [apply Rmult_integral in E; destruct E; [contradiction|exfalso; exact (Hl l Hin H)]|].
  unfold ocadd. destruct (cdivr _ _); [|reflexivity]. f_equal. unfold Cdiv. ring.
Qed.

(** ** averages over depth *)
Lemma is_average_ext : forall f g z, (forall t, f t = g t) -> is_average f z -> is_average g z.
Proof.
  intros f g z H [A B]. split; (eapply is_RInt_ext; [|eassumption]); intros; cbn; rewrite H; reflexivity.
Qed.

(** real derivative of the primitive of exp(-S t) *)
Lemma exp_average : forall S : C, S <> RtoC 0 -> is_average (fun t => cexp (- (RtoC t * S)))%C ((RtoC 1 - cexp (- S)) / S)%C.
Proof.
  intros [a b] N. assert (D : a ^ 2 + b ^ 2 <> 0).
  { intros E. apply N. unfold RtoC. assert (a = 0) by nra. assert (b = 0) by nra. subst. reflexivity. }
  split.
  - set (F := fun t => - (exp (- a * t) * (a * cos (b * t) - b * sin (b * t))) / (a ^ 2 + b ^ 2)).
    replace (fst ((RtoC 1 - cexp (- (a, b))) / (a, b))%C) with (minus (F 1) (F 0)).
    + apply (is_RInt_ext (fun t => exp (- a * t) * cos (b * t))).
      * intros t _. unfold cexp, cis, RtoC. cbn. replace (- (t * a - 0 * b)) with (- a * t) by ring. replace (- (t * b + 0 * a)) with (- (b * t)) by ring.
        rewrite cos_neg. ring.
      * apply (is_RInt_derive F).
        -- intros t _. unfold F. auto_derive; auto. field. lra.
        -- intros t _. apply (ex_derive_continuous (V := R_NormedModule)). auto_derive; auto.
    + unfold F, minus, plus, opp, cexp, cis, RtoC. cbn. rewrite !Rmult_0_r, exp_0, cos_0, sin_0, !Rmult_1_r, cos_neg, sin_neg. field. lra.
  - set (F := fun t => (exp (- a * t) * (a * sin (b * t) + b * cos (b * t))) / (a ^ 2 + b ^ 2)).
    replace (snd ((RtoC 1 - cexp (- (a, b))) / (a, b))%C) with (minus (F 1) (F 0)).
    + apply (is_RInt_ext (fun t => - (exp (- a * t) * sin (b * t)))).
      * intros t _. unfold cexp, cis, RtoC. cbn. replace (- (t * a - 0 * b)) with (- a * t) by ring. replace (- (t * b + 0 * a)) with (- (b * t)) by ring.
        rewrite sin_neg. ring.
      * apply (is_RInt_derive F).
        -- intros t _. unfold F. auto_derive; auto. field. lra.
        -- intros t _. apply (ex_derive_continuous (V := R_NormedModule)). auto_derive; auto.
    + unfold F, minus, plus, opp, cexp, cis, RtoC. cbn. rewrite !Rmult_0_r, exp_0, cos_0, sin_0, !Rmult_1_r, cos_neg, sin_neg. field. lra.
Qed.

Lemma average_scal : forall f z c, is_average f z -> is_average (fun t => c * f t)%C (c * z)%C.
Proof.
  intros f z [c1 c2] [A B]. split; cbn.
  - apply (is_RInt_minus (V := R_NormedModule)); apply (is_RInt_scal (V := R_NormedModule)); auto.
  - apply (is_RInt_plus (V := R_NormedModule)); apply (is_RInt_scal (V := R_NormedModule)); auto.
Qed.

Lemma cexp_real_imag : forall a b, cexp (a, b) = (RtoC (exp a) * cis b)%C.
Proof. reflexivity. Qed.

Theorem m7_average : forall d l2 p sg dRM psi RM k, pget d (s "fracPol") = POk p -> pget d (s "sigmaRM_radm2") = POk sg ->
  pget d (s "deltaRM_radm2") = POk dRM -> pget d (s "psi0_deg") = POk psi -> pget d (s "RM_radm2") = POk RM ->
  (k < List.length l2)%nat -> nth k l2 0 <> 0 -> (sg <> 0 \/ dRM <> 0) ->
  exists sp z, m7 d l2 = POk sp /\ nth k sp None = Some z /\ is_average (slab_layer p (rad psi) RM dRM sg (nth k l2 0)) z.
Proof.
  intros d l2 p sg dRM psi RM k Hp Hs Hd Ha Hr Hk Hl Hn. keys. rewrite Hp, Hs, Hd, Ha, Hr. cbn [pybind]. eexists. 
  set (l := nth k l2 0) in *. set (S := (2 * l ^ 2 * sg ^ 2, - (2 * l * dRM)) : C).
  assert (N : S <> RtoC 0).
  { intros E. unfold S, RtoC in E. injection E as E1 E2. assert (L2 : 0 < l ^ 2) by (simpl; nra).
    destruct Hn as [Hn|Hn]; apply Hn; [|nra]. assert (sg ^ 2 = 0) by (destruct (Rmult_integral _ _ E1); lra). simpl in *. nra. }
  exists (thin p (rad psi) RM l * ((RtoC 1 - cexp (- S)) / S))%C. split; [reflexivity|]. split.
  - match goal with |- nth k (map ?f l2) None = _ => rewrite (nth_indep _ None (f 0)) by (rewrite map_length; auto); rewrite (map_nth f) end.
    fold l. fold S. unfold cdiv. destruct (Ceq_dec S (RtoC 0)); [contradiction|]. f_equal. rewrite e2j_thin. unfold Cdiv. ring.
  - apply (is_average_ext (fun t => thin p (rad psi) RM l * cexp (- (RtoC t * S)))%C); [|apply average_scal, exp_average, N].
    intros t. unfold slab_layer, thin, S. replace (2 * (rad psi + (RM + t * dRM) * l)) with (2 * (rad psi + RM * l) + 2 * t * dRM * l) by ring.
    rewrite cis_plus. unfold cexp. cbn [fst snd Cmult Copp RtoC].
    replace (- (t * (2 * l ^ 2 * sg ^ 2) - 0 * - (2 * l * dRM))) with (- (2 * sg ^ 2 * l ^ 2 * t)) by ring.
    replace (- (t * - (2 * l * dRM) + 0 * (2 * l ^ 2 * sg ^ 2))) with (2 * t * dRM * l) by ring.
    fold (RtoC p). fold (RtoC (exp (- (2 * sg ^ 2 * l ^ 2 * t)))). ring.
Qed.

Theorem m5_average : forall d l2 p dRM psi RM k, pget d (s "fracPol") = POk p ->
  pget d (s "deltaRM_radm2") = POk dRM -> pget d (s "psi0_deg") = POk psi -> pget d (s "RM_radm2") = POk RM ->
  (k < List.length l2)%nat -> nth k l2 0 <> 0 -> dRM <> 0 ->
  exists sp z, m5 d l2 = POk sp /\ nth k sp None = Some z /\ is_average (fun t => thin p (rad psi) (RM + t * dRM) (nth k l2 0)) z.
Proof.
  intros d l2 p dRM psi RM k Hp Hd Ha Hr Hk Hl Hn.
  set (d' := pset d (s "sigmaRM_radm2") 0).
  destruct (m7_average d' l2 p 0 dRM psi RM k) as (sp & z & E & Ez & A); auto; try (unfold d'; rewrite pget_set; cbn; assumption).
  { unfold d'. rewrite pget_set. reflexivity. }
  exists sp, z. split.
  - rewrite <- E. rewrite m7_m5 by (unfold d'; rewrite pget_set; reflexivity). unfold m5, d'. rewrite !pget_set. reflexivity.
  - split; [auto|]. eapply is_average_ext; [|exact A]. intros t. unfold slab_layer.
    replace (- (2 * 0 ^ 2 * nth k l2 0 ^ 2 * t)) with 0 by ring. rewrite exp_0. ring.
Qed.

Theorem m12_average : forall d l2 p sg sF dRM psi RM k, pget d (s "fracPol") = POk p -> pget d (s "sigmaRM_radm2") = POk sg ->
  pget d (s "deltaRM_radm2") = POk dRM -> pget d (s "psi0_deg") = POk psi -> pget d (s "RM_screen") = POk RM -> pget d (s "sigmaRM_radm2_FG") = POk sF ->
  (k < List.length l2)%nat -> nth k l2 0 <> 0 -> (sg <> 0 \/ dRM <> 0) ->
  exists sp z, m12 d l2 = POk sp /\ nth k sp None = Some (z * RtoC (exp (-2 * sF ^ 2 * nth k l2 0 ^ 2)))%C /\
    is_average (slab_layer p (rad psi) RM dRM sg (nth k l2 0)) z.
Proof.
  intros d l2 p sg sF dRM psi RM k Hp Hs Hd Ha Hr HF Hk Hl Hn.
  set (d' := pset d (s "RM_radm2") RM).
  destruct (m7_average d' l2 p sg dRM psi RM k) as (sp & z & E & Ez & A); auto; try (unfold d'; rewrite pget_set; cbn; assumption).
  { unfold d'. rewrite pget_set. reflexivity. }
  unfold m12. rewrite Hp, Hs, Hd, Ha, Hr, HF. cbn [pybind]. eexists. exists z. split; [reflexivity|]. split; [|exact A].
  match goal with |- nth k (map ?f l2) None = _ => rewrite (nth_indep _ None (f 0)) by (rewrite map_length; auto); rewrite (map_nth f) end.
  unfold m7, d' in E. rewrite !pget_set in E. cbn [str_eqb s list_ascii_of_string ch_eqb Ascii.eqb Bool.eqb andb] in E, Hp, Hs, Hd, Ha. rewrite Hp, Hs, Hd, Ha in E. cbn [pybind] in E.
  apply POk_inj' in E. rewrite <- E in Ez.
  match goal with _ : nth k (map ?f l2) None = _ |- _ => rewrite (nth_indep _ None (f 0)) in Ez by (rewrite map_length; auto); rewrite (map_nth f) in Ez end.
  cbv zeta in *. unfold cdiv in *. destruct (Ceq_dec _ _); [discriminate|]. injection Ez as <-. f_equal. unfold Cdiv. cbn [pow]. ring.
Qed.

(** ** a thin slab is a thin source *)
Lemma sinc_near_1 : forall y, y <> 0 -> Rabs (sin y / y - 1) <= y ^ 2 / 2.
Proof.
  intros y Hy. destruct (MVT_gen sin 0 y cos) as (c & Hc & E).
  - intros x _. apply is_derive_sin.
  - intros x _. apply continuity_pt_filterlim. apply continuous_sin.
  - rewrite sin_0, !Rminus_0_r in E. rewrite E. replace (cos c * y / y - 1) with (- (1 - cos c)) by (field; auto).
    rewrite Rabs_Ropp, Rabs_pos_eq by (pose proof (COS_bound c); lra).
    pose proof (one_minus_cos c). assert (c ^ 2 <= y ^ 2); [|lra].
    rewrite <- (pow2_abs c), <- (pow2_abs y). apply pow_incr. split; [apply Rabs_pos|].
    unfold Rmin, Rmax in Hc. destruct (Rle_dec 0 y); [rewrite !Rabs_pos_eq by lra; lra|]. rewrite !Rabs_left1 by lra. lra.
Qed.

Theorem m5_near_m1 : forall d l2 p dRM psi RM k, pget d (s "fracPol") = POk p ->
  pget d (s "deltaRM_radm2") = POk dRM -> pget d (s "psi0_deg") = POk psi -> pget d (s "RM_radm2") = POk RM ->
  (k < List.length l2)%nat -> nth k l2 0 <> 0 -> dRM <> 0 ->
  exists sp z sp1 z1, m5 d l2 = POk sp /\ nth k sp None = Some z /\ m1 d l2 = POk sp1 /\ nth k sp1 None = Some z1 /\
    Cmod (z - z1)%C <= Rabs p * (Rabs (dRM * nth k l2 0) + 2 * (dRM * nth k l2 0) ^ 2).
Proof.
  intros d l2 p dRM psi RM k Hp Hd Ha Hr Hk Hl Hn. keys. rewrite Hp, Hd, Ha, Hr. cbn [pybind].
  set (l := nth k l2 0) in *. set (x := dRM * l). assert (X : x <> 0) by (intros E; apply Rmult_integral in E; tauto).
  eexists. exists (RtoC p * e2j (radians psi + (/ 2 * dRM + RM) * l) * RtoC (sin x) / RtoC x)%C. eexists. exists (thin p (rad psi) RM l).
  split; [reflexivity|]. split.
  { match goal with |- nth k (map ?f l2) None = _ => rewrite (nth_indep _ None (f 0)) by (rewrite map_length; auto); rewrite (map_nth f) end.
    fold l. fold x. unfold cdivr. destruct (Req_EM_T x 0); [contradiction|reflexivity]. }
  split; [reflexivity|]. split.
  { match goal with |- nth k (map ?f l2) None = _ => rewrite (nth_indep _ None (f 0)) by (rewrite map_length; auto); rewrite (map_nth f) end.
    fold l. rewrite e2j_thin. reflexivity. }
  replace (RtoC p * e2j (radians psi + (/ 2 * dRM + RM) * l) * RtoC (sin x) / RtoC x - thin p (rad psi) RM l)%C
    with (thin p (rad psi) RM l * (cis x * RtoC (sin x) / RtoC x - RtoC 1))%C.
  2:{ rewrite <- e2j_thin. unfold e2j. replace (2 * (radians psi + (/ 2 * dRM + RM) * l)) with (2 * (radians psi + RM * l) + x) by (unfold x; field).
      rewrite cis_plus. unfold Cdiv. ring. }
  rewrite Cmod_mult, thin_mod. apply Rmult_le_compat_l; [apply Rabs_pos|].
  replace (cis x * RtoC (sin x) / RtoC x - RtoC 1)%C with ((sin (2 * x) / (2 * x) - 1, sin x * sin x / x) : C).
  2:{ rewrite sin_2a. unfold cis, Cdiv, Cminus, Cplus, Copp, Cmult, Cinv, RtoC. cbn. f_equal; field; auto. }
  assert (T : forall a b : R, Cmod (a, b) <= Rabs a + Rabs b).
  { intros a b. replace ((a, b) : C) with (RtoC a + (0, b))%C by (unfold Cplus, RtoC; cbn; f_equal; ring). eapply Rle_trans; [apply Cmod_triangle|].
    rewrite Cmod_R. apply Rplus_le_compat_l. unfold Cmod. cbn. replace (0 * (0 * 1) + b * (b * 1)) with (Rsqr b) by (unfold Rsqr; ring). rewrite sqrt_Rsqr_abs. lra. }
  eapply Rle_trans; [apply T|]. rewrite Rplus_comm. apply Rplus_le_compat.
  - unfold Rdiv. rewrite !Rabs_mult, Rabs_inv. pose proof (sin_abs_le x). pose proof (Rabs_pos_lt x X). pose proof (Rabs_pos (sin x)).
    apply (Rmult_le_reg_r (Rabs x)); [auto|]. replace (Rabs (sin x) * Rabs (sin x) * / Rabs x * Rabs x) with (Rabs (sin x) * Rabs (sin x)) by (field; lra). nra.
  - eapply Rle_trans; [apply sinc_near_1; lra|]. apply Req_le. field.
Qed.
