(** The channel rotation operator is the mean rotation over the channel. *)
From Coq Require Import Reals List Arith ZArith Bool Lra Lia.
Set Warnings "-ambiguous-paths".
From Coquelicot Require Import Coquelicot.
From Verif Require Import CBase NdArray PyRes PyList CleanTop_Model Measure_Model Bw_Model Bw_Spec.
Import ListNotations.
Local Open Scope R_scope.

(** Fresnel integrals *)
Definition Fc (k x : R) : R := RInt (fun t => cos (k * t ^ 2)) 0 x.
Definition Fs (k x : R) : R := RInt (fun t => sin (k * t ^ 2)) 0 x.

Lemma cont_c : forall k x, continuous (fun t => cos (k * t ^ 2)) x.
Proof. intros. apply (ex_derive_continuous (V := R_NormedModule)). auto_derive. auto. Qed.
Lemma cont_s : forall k x, continuous (fun t => sin (k * t ^ 2)) x.
Proof. intros. apply (ex_derive_continuous (V := R_NormedModule)). auto_derive. auto. Qed.

Lemma Fc_derive : forall k x, is_derive (Fc k) x (cos (k * x ^ 2)).
Proof.
  intros. unfold Fc. apply (is_derive_RInt (V := R_NormedModule) (fun t => cos (k * t ^ 2)) _ 0).
  - exists (mkposreal 1 Rlt_0_1). intros y _. apply (RInt_correct (V := R_CompleteNormedModule)). apply (ex_RInt_continuous (V := R_CompleteNormedModule)). intros; apply cont_c.
  - apply cont_c.
Qed.
Lemma Fs_derive : forall k x, is_derive (Fs k) x (sin (k * x ^ 2)).
Proof.
  intros. unfold Fs. apply (is_derive_RInt (V := R_NormedModule) (fun t => sin (k * t ^ 2)) _ 0).
  - exists (mkposreal 1 Rlt_0_1). intros y _. apply (RInt_correct (V := R_CompleteNormedModule)). apply (ex_RInt_continuous (V := R_CompleteNormedModule)). intros; apply cont_s.
  - apply cont_s.
Qed.

Lemma scale_c : forall k x, x * RInt (fun t => cos (k * (t * x) ^ 2)) 0 1 = Fc k x.
Proof.
  intros k x. unfold Fc. pose proof (RInt_comp_lin (V := R_CompleteNormedModule) (fun t => cos (k * t ^ 2)) x 0 0 1) as H.
  replace (x * 0 + 0) with 0 in H by ring. replace (x * 1 + 0) with x in H by ring. rewrite <- H.
  - match goal with |- x * ?a = _ => change (x * a) with (scal x a : R_CompleteNormedModule) end. rewrite <- (RInt_scal (V := R_CompleteNormedModule)).
    + apply RInt_ext. intros t _. unfold scal; cbn; unfold mult; cbn. do 2 f_equal. ring.
    + apply (ex_RInt_continuous (V := R_CompleteNormedModule)). intros t _. apply (ex_derive_continuous (V := R_NormedModule)). auto_derive. auto.
  - apply (ex_RInt_continuous (V := R_CompleteNormedModule)). intros; apply cont_c.
Qed.
Lemma scale_s : forall k x, x * RInt (fun t => sin (k * (t * x) ^ 2)) 0 1 = Fs k x.
Proof.
  intros k x. unfold Fs. pose proof (RInt_comp_lin (V := R_CompleteNormedModule) (fun t => sin (k * t ^ 2)) x 0 0 1) as H.
  replace (x * 0 + 0) with 0 in H by ring. replace (x * 1 + 0) with x in H by ring. rewrite <- H.
  - match goal with |- x * ?a = _ => change (x * a) with (scal x a : R_CompleteNormedModule) end. rewrite <- (RInt_scal (V := R_CompleteNormedModule)).
    + apply RInt_ext. intros t _. unfold scal; cbn; unfold mult; cbn. do 2 f_equal. ring.
    + apply (ex_RInt_continuous (V := R_CompleteNormedModule)). intros t _. apply (ex_derive_continuous (V := R_NormedModule)). auto_derive. auto.
  - apply (ex_RInt_continuous (V := R_CompleteNormedModule)). intros; apply cont_s.
Qed.

(** the error function on the diagonals *)
Lemma cerf_diag : forall x sg, sg = 1 \/ sg = -1 ->
  cerf (RtoC x * (sg, -1)%R)%C = (RtoC (2 / sqrt PI) * (sg, -1)%R * (Fc (2 * sg) x, Fs (2 * sg) x)%R)%C.
Proof.
  intros x sg Hs. unfold cerf. cbv zeta.
  assert (E : forall t, (- (RtoC t * (RtoC x * (sg, -1)%R) * (RtoC t * (RtoC x * (sg, -1)%R))))%C = (0, 2 * sg * (t * x) ^ 2)%R).
  { intros t. assert (sg * sg = 1) by (destruct Hs; subst; ring). unfold Copp, Cmult, RtoC. cbn [fst snd]. f_equal; [|ring].
    transitivity ((1 - sg * sg) * (t * x) ^ 2); [ring|rewrite H; ring]. }
  rewrite <- scale_c, <- scale_s.
  rewrite (RInt_ext (V := R_CompleteNormedModule) _ (fun t => cos (2 * sg * (t * x) ^ 2))) by (intros t _; rewrite E; unfold c_exp, cis, Cmult, RtoC; cbn [fst snd]; rewrite exp_0; rewrite ?Rmult_1_l, ?Rmult_0_l, ?Rminus_0_r, ?Rplus_0_r; reflexivity).
  rewrite (RInt_ext (V := R_CompleteNormedModule) (fun t => snd _) (fun t => sin (2 * sg * (t * x) ^ 2))) by (intros t _; rewrite E; unfold c_exp, cis, Cmult, RtoC; cbn [fst snd]; rewrite exp_0; rewrite ?Rmult_1_l, ?Rmult_0_l, ?Rminus_0_r, ?Rplus_0_r; reflexivity).
  set (a := RInt _ 0 1). set (b := RInt (fun t => sin _) 0 1). unfold Cmult, RtoC. cbn [fst snd]. f_equal; ring.
Qed.

(** the primitive, in real and imaginary parts *)
Lemma limit_parts : forall phi nu, phi <> 0 -> 
  rotation_integral_limit nu phi =
  (nu * cos (2 * phi * (c_light / nu) ^ 2) + 4 * c_light * np_sign phi * sqrt (Rabs phi) * Fs (2 * np_sign phi) (sqrt (Rabs phi) * (c_light / nu)),
   nu * sin (2 * phi * (c_light / nu) ^ 2) - 4 * c_light * np_sign phi * sqrt (Rabs phi) * Fc (2 * np_sign phi) (sqrt (Rabs phi) * (c_light / nu))).
Proof.
  intros phi nu Hp. assert (Hs : np_sign phi = 1 \/ np_sign phi = -1).
  { unfold np_sign. destruct (Rlt_dec 0 phi); [auto|]. destruct (Rlt_dec phi 0); [auto|lra]. }
  unfold rotation_integral_limit. cbv zeta. rewrite cerf_diag by auto. set (sg := np_sign phi) in *. set (x := sqrt (Rabs phi) * (c_light / nu)).
  assert (S2 : sg * sg = 1) by (destruct Hs as [-> | ->]; ring).
  rewrite sqrt_mult by (try apply Rabs_pos; pose proof PI_RGT_0; lra). pose proof (sqrt_lt_R0 PI PI_RGT_0) as SP.
  set (fc := Fc _ _). set (fs := Fs _ _). unfold c_exp, cis, Cplus, Cmult, RtoC. cbn [fst snd]. rewrite exp_0.
  f_equal.
  - replace (4 * c_light * sg * sqrt (Rabs phi) * fs) with (2 * c_light * sqrt (Rabs phi) * ((sg * sg - 1) * fc + 2 * sg * fs)) by (rewrite S2; ring). field. lra.
  - replace (- (4 * c_light * sg * sqrt (Rabs phi) * fc)) with (2 * c_light * sqrt (Rabs phi) * ((sg * sg - 1) * fs - 2 * sg * fc)) by (rewrite S2; ring).
    replace (nu * sin (2 * phi * (c_light / nu) ^ 2) - 4 * c_light * sg * sqrt (Rabs phi) * fc) with
      (nu * sin (2 * phi * (c_light / nu) ^ 2) + 2 * c_light * sqrt (Rabs phi) * ((sg * sg - 1) * fs - 2 * sg * fc)) by (rewrite S2; ring). field. lra.
Qed.

Lemma sign_abs : forall x, np_sign x * Rabs x = x.
Proof.
  intros x. unfold np_sign. destruct (Rlt_dec 0 x); [rewrite Rabs_pos_eq; lra|]. destruct (Rlt_dec x 0); [rewrite Rabs_left; lra|].
  replace x with 0 by lra. rewrite Rabs_R0. ring.
Qed.

Lemma limit_zero : forall nu, rotation_integral_limit nu 0 = RtoC nu.
Proof.
  intros nu. unfold rotation_integral_limit. cbv zeta. rewrite Rabs_R0, Rmult_0_l, sqrt_0, Rmult_0_r. 
  unfold c_exp. cbn [fst snd]. rewrite !Rmult_0_r, Rmult_0_l, exp_0. unfold cis. rewrite cos_0, sin_0. unfold Cplus, Cmult, RtoC; cbn [fst snd]. f_equal; ring.
Qed.

Lemma dxcos : forall phi c nu, nu <> 0 ->
  is_derive (fun x => x * cos (2 * phi * (c / x) ^ 2)) nu (cos (2 * phi * (c / nu) ^ 2) + 4 * phi * c ^ 2 / nu ^ 2 * sin (2 * phi * (c / nu) ^ 2)).
Proof. intros. auto_derive; [auto|]. set (a := sin _). set (b := cos _). field; auto. Qed.
Lemma dxsin : forall phi c nu, nu <> 0 ->
  is_derive (fun x => x * sin (2 * phi * (c / x) ^ 2)) nu (sin (2 * phi * (c / nu) ^ 2) - 4 * phi * c ^ 2 / nu ^ 2 * cos (2 * phi * (c / nu) ^ 2)).
Proof. intros. auto_derive; [auto|]. set (a := sin _). set (b := cos _). field; auto. Qed.

Lemma limit_derive : forall phi nu, nu <> 0 ->
  is_derive (fun x => fst (rotation_integral_limit x phi)) nu (fst (rotation phi nu)) /\
  is_derive (fun x => snd (rotation_integral_limit x phi)) nu (snd (rotation phi nu)).
Proof.
  intros phi nu Hn. unfold rotation. change 299792458 with c_light. destruct (Req_dec phi 0) as [->|Hp].
  - split.
    + apply (is_derive_ext (fun x => x)); [intros t; rewrite limit_zero; reflexivity|]. rewrite Rmult_0_r, Rmult_0_l. cbn [cis fst]. rewrite cos_0. auto_derive; auto.
    + apply (is_derive_ext (fun x => 0)); [intros t; rewrite limit_zero; reflexivity|]. rewrite Rmult_0_r, Rmult_0_l. cbn [cis snd]. rewrite sin_0. auto_derive; auto.
  - pose proof (sign_abs phi) as SA. set (sg := np_sign phi) in *. assert (Q : sqrt (Rabs phi) * sqrt (Rabs phi) = Rabs phi) by (apply sqrt_sqrt, Rabs_pos). set (r := sqrt (Rabs phi)) in *.
    assert (A : forall x, 2 * sg * (r * (c_light / x)) ^ 2 = 2 * phi * (c_light / x) ^ 2).
    { intros x. rewrite <- SA. rewrite <- Q. ring. }
    assert (DX : is_derive (fun x => r * (c_light / x)) nu (- (r * c_light / nu ^ 2))) by (auto_derive; [auto|field; auto]).
    assert (F4 : 4 * phi * c_light ^ 2 / nu ^ 2 = 4 * c_light * sg * r * (r * c_light / nu ^ 2)).
    { rewrite <- SA, <- Q. field. auto. }
    split.
    + apply (is_derive_ext (fun x => x * cos (2 * phi * (c_light / x) ^ 2) + 4 * c_light * sg * r * Fs (2 * sg) (r * (c_light / x)))); [intros t; rewrite limit_parts by auto; reflexivity|].
      assert (D1 : is_derive (fun x => Fs (2 * sg) (r * (c_light / x))) nu (- (r * c_light / nu ^ 2) * sin (2 * phi * (c_light / nu) ^ 2))).
      { rewrite <- A. apply (is_derive_comp (K := R_AbsRing) (V := R_NormedModule) (Fs (2 * sg)) (fun x => r * (c_light / x))); [apply Fs_derive|exact DX]. }
      assert (D2 : is_derive (fun x => x * cos (2 * phi * (c_light / x) ^ 2)) nu (cos (2 * phi * (c_light / nu) ^ 2) + 4 * phi * c_light ^ 2 / nu ^ 2 * sin (2 * phi * (c_light / nu) ^ 2))) by (apply dxcos; auto).
      pose proof (is_derive_plus (K := R_AbsRing) (V := R_NormedModule) _ _ _ _ _ D2 (is_derive_scal _ _ (4 * c_light * sg * r) _ D1)) as D.
      match type of D with is_derive _ _ ?l => replace l with (fst (cis (2 * phi * (c_light / nu) ^ 2))) in D end; [exact D|].
      unfold plus, scal; cbn -[pow]; unfold mult; cbn -[pow]. rewrite F4. ring.
    + apply (is_derive_ext (fun x => x * sin (2 * phi * (c_light / x) ^ 2) - 4 * c_light * sg * r * Fc (2 * sg) (r * (c_light / x)))); [intros t; rewrite limit_parts by auto; reflexivity|].
      assert (D1 : is_derive (fun x => Fc (2 * sg) (r * (c_light / x))) nu (- (r * c_light / nu ^ 2) * cos (2 * phi * (c_light / nu) ^ 2))).
      { rewrite <- A. apply (is_derive_comp (K := R_AbsRing) (V := R_NormedModule) (Fc (2 * sg)) (fun x => r * (c_light / x))); [apply Fc_derive|exact DX]. }
      pose proof (is_derive_minus (K := R_AbsRing) (V := R_NormedModule) _ _ _ _ _ (dxsin phi c_light nu Hn) (is_derive_scal _ _ (4 * c_light * sg * r) _ D1)) as D.
      match type of D with is_derive _ _ ?l => replace l with (snd (cis (2 * phi * (c_light / nu) ^ 2))) in D end; [exact D|].
      unfold minus, plus, opp, scal; cbn -[pow]; unfold mult; cbn -[pow]. rewrite F4. ring.
Qed.

(** between two positive frequencies *)
Lemma limit_integral : forall phi a b, 0 < a -> 0 < b ->
  is_RInt (fun x => fst (rotation phi x)) a b (fst (rotation_integral_limit b phi) - fst (rotation_integral_limit a phi)) /\
  is_RInt (fun x => snd (rotation phi x)) a b (snd (rotation_integral_limit b phi) - snd (rotation_integral_limit a phi)).
Proof.
  intros phi a b Ha Hb. split.
  - apply (is_RInt_derive (V := R_CompleteNormedModule) (fun x => fst (rotation_integral_limit x phi)) (fun x => fst (rotation phi x))).
    + intros x [Hx _]. apply limit_derive. unfold Rmin in Hx. destruct (Rle_dec a b); lra.
    + intros x [Hx _]. unfold rotation. cbn [cis fst]. apply (ex_derive_continuous (V := R_NormedModule)). auto_derive. unfold Rmin in Hx. destruct (Rle_dec a b); lra.
  - apply (is_RInt_derive (V := R_CompleteNormedModule) (fun x => snd (rotation_integral_limit x phi)) (fun x => snd (rotation phi x))).
    + intros x [Hx _]. apply limit_derive. unfold Rmin in Hx. destruct (Rle_dec a b); lra.
    + intros x [Hx _]. unfold rotation. cbn [cis snd]. apply (ex_derive_continuous (V := R_NormedModule)). auto_derive. unfold Rmin in Hx. destruct (Rle_dec a b); lra.
Qed.

Lemma rotation_operator_mean : forall width center phi, channel_ok width center ->
  is_mean (rotation phi) (center - width / 2) (center + width / 2) (rotation_operator width center phi).
Proof.
  intros w c phi (Hw & Ha & Hb). unfold is_mean, rotation_operator. cbv zeta.
  replace (c - 1 / 2 * w) with (c - w / 2) by field. replace (c + 1 / 2 * w) with (c + w / 2) by field.
  destruct (limit_integral phi (c - w / 2) (c + w / 2) Ha Hb) as [I1 I2].
  set (A := rotation_integral_limit (c - w / 2) phi) in *. set (B := rotation_integral_limit (c + w / 2) phi) in *. split.
  - replace ((c + w / 2 - (c - w / 2)) * _) with (fst B - fst A); [exact I1|]. unfold Cmult, Cminus, Cplus, Copp, RtoC; cbn [fst snd]. field. auto.
  - replace ((c + w / 2 - (c - w / 2)) * _) with (snd B - snd A); [exact I2|]. unfold Cmult, Cminus, Cplus, Copp, RtoC; cbn [fst snd]. field. auto.
Qed.

Lemma is_mean_unique : forall f a b z z', a <> b -> is_mean f a b z -> is_mean f a b z' -> z = z'.
Proof.
  intros f a b z z' Hab [H1 H2] [H3 H4]. pose proof (is_RInt_unique _ _ _ _ H1) as E1. pose proof (is_RInt_unique _ _ _ _ H2) as E2.
  rewrite (is_RInt_unique _ _ _ _ H3) in E1. rewrite (is_RInt_unique _ _ _ _ H4) in E2.
  destruct z, z'; cbn [fst snd] in *. f_equal; [apply (Rmult_eq_reg_l (b - a)); [symmetry; exact E1|lra]|apply (Rmult_eq_reg_l (b - a)); [symmetry; exact E2|lra]].
Qed.

Lemma is_mean_ext : forall f g a b z, (forall x, Rmin a b < x < Rmax a b -> f x = g x) -> is_mean f a b z -> is_mean g a b z.
Proof.
  intros f g a b z E [H1 H2]. split; [eapply is_RInt_ext; [|exact H1]|eapply is_RInt_ext; [|exact H2]]; intros x Hx; cbv beta; rewrite E by auto; reflexivity.
Qed.

(** swapping the edges does not change the mean *)
Lemma is_mean_swap : forall f a b z, is_mean f a b z -> is_mean f b a z.
Proof.
  intros f a b z [H1 H2]. split.
  - apply is_RInt_swap in H1. replace ((a - b) * fst z) with (opp ((b - a) * fst z)); [exact H1|]. unfold opp; cbn. ring.
  - apply is_RInt_swap in H2. replace ((a - b) * snd z) with (opp ((b - a) * snd z)); [exact H2|]. unfold opp; cbn. ring.
Qed.

Lemma is_mean_conj : forall f a b z, is_mean f a b z -> is_mean (fun x => Cconj (f x)) a b (Cconj z).
Proof.
  intros f a b z [H1 H2]. split; [exact H1|]. cbn [Cconj snd]. replace ((b - a) * - snd z) with (opp ((b - a) * snd z)) by (unfold opp; cbn; ring).
  apply (is_RInt_opp (V := R_NormedModule)). exact H2.
Qed.

Lemma dot_le : forall z w : C, fst z * fst w + snd z * snd w <= Cmod z * Cmod w.
Proof.
  intros [a b] [c d]. unfold Cmod. cbn [fst snd]. 
  assert (0 <= a ^ 2 + b ^ 2) by (pose proof (pow2_ge_0 a); pose proof (pow2_ge_0 b); lra).
  assert (0 <= c ^ 2 + d ^ 2) by (pose proof (pow2_ge_0 c); pose proof (pow2_ge_0 d); lra).
  rewrite <- sqrt_mult by auto. eapply Rle_trans; [apply Rle_abs|]. rewrite <- sqrt_Rsqr_abs. apply sqrt_le_1_alt.
  unfold Rsqr. pose proof (pow2_ge_0 (a * d - b * c)). lra.
Qed.
Lemma is_RInt_val : forall (f : R -> R) a b v v', v = v' -> is_RInt f a b v -> is_RInt f a b v'.
Proof. intros; subst; auto. Qed.

(** the modulus of a mean is bounded by a bound of the moduli *)
Lemma is_mean_bound_lt : forall f a b z M, a < b -> (forall x, a < x < b -> Cmod (f x) <= M) -> is_mean f a b z -> Cmod z <= M.
Proof.
  intros f a b z M Hab B [H1 H2]. destruct (Req_dec (Cmod z) 0) as [Z|Z].
  { rewrite Z. eapply Rle_trans; [apply Cmod_ge_0|apply (B ((a + b) / 2)); lra]. }
  pose proof (Cmod_ge_0 z) as Zp. assert (ZZ : fst z * fst z + snd z * snd z = Cmod z * Cmod z).
  { unfold Cmod. rewrite sqrt_sqrt; [ring|]. pose proof (Rle_0_sqr (fst z)). pose proof (Rle_0_sqr (snd z)). unfold Rsqr in *. cbn [pow]. lra. }
  pose proof (is_RInt_plus (V := R_NormedModule) _ _ _ _ _ _ (is_RInt_scal (V := R_NormedModule) _ _ _ (fst z) _ H1) (is_RInt_scal (V := R_NormedModule) _ _ _ (snd z) _ H2)) as H3.
  assert (E : plus (scal (fst z) ((b - a) * fst z)) (scal (snd z) ((b - a) * snd z)) = (b - a) * (Cmod z * Cmod z)).
  { unfold plus, scal; cbn; unfold mult; cbn. rewrite <- ZZ. ring. }
  apply (is_RInt_val _ _ _ _ _ E) in H3. clear E.
  assert (L : (b - a) * (Cmod z * Cmod z) <= (b - a) * (Cmod z * M)).
  { eapply (is_RInt_le _ (fun _ => Cmod z * M) a b); [lra|exact H3| |].
    - pose proof (is_RInt_const (V := R_NormedModule) a b (Cmod z * M)) as K. unfold scal in K; cbn in K; unfold mult in K; cbn in K. exact K.
    - intros x Hx. unfold plus, scal; cbn; unfold mult; cbn. 
      assert (CS : fst z * fst (f x) + snd z * snd (f x) <= Cmod z * Cmod (f x)).
      { apply dot_le. }
      eapply Rle_trans; [exact CS|]. apply Rmult_le_compat_l; auto. }
  apply (Rmult_le_reg_l ((b - a) * Cmod z)); [apply Rmult_lt_0_compat; lra|]. nra.
Qed.

Lemma is_mean_bound : forall f a b z M, a <> b -> (forall x, Rmin a b < x < Rmax a b -> Cmod (f x) <= M) -> is_mean f a b z -> Cmod z <= M.
Proof.
  intros f a b z M Hab B H. destruct (Rlt_dec a b) as [L|L].
  - apply (is_mean_bound_lt f a b); auto. intros x Hx. apply B. rewrite Rmin_left, Rmax_right by lra. auto.
  - apply (is_mean_bound_lt f b a); [lra| |apply is_mean_swap; auto]. intros x Hx. apply B. rewrite Rmin_right, Rmax_left by lra. auto.
Qed.

Lemma edges_ne : forall w c, w <> 0 -> c - w / 2 <> c + w / 2.
Proof. intros. lra. Qed.

Lemma rotation_operator_bound : forall width center phi, channel_ok width center -> Cmod (rotation_operator width center phi) <= 1.
Proof.
  intros w c phi H. apply (is_mean_bound (rotation phi) (c - w / 2) (c + w / 2)); [apply edges_ne, H| |apply rotation_operator_mean; auto].
  intros x _. unfold rotation. rewrite Cmod_cis. lra.
Qed.

Lemma rotation_operator_zero : forall width center, width <> 0 -> rotation_operator width center 0 = RtoC 1.
Proof.
  intros w c Hw. unfold rotation_operator. cbv zeta. rewrite !limit_zero. unfold Cmult, Cminus, Cplus, Copp, RtoC; cbn [fst snd]. f_equal; field; auto.
Qed.

Lemma rotation_operator_conj : forall width center phi, channel_ok width center ->
  rotation_operator width center (- phi) = Cconj (rotation_operator width center phi).
Proof.
  intros w c phi H. apply (is_mean_unique (rotation (- phi)) (c - w / 2) (c + w / 2)); [apply edges_ne, H|apply rotation_operator_mean; auto|].
  eapply is_mean_ext; [|apply is_mean_conj, rotation_operator_mean; exact H]. intros x _. unfold rotation, cis, Cconj. cbn [fst snd].
  replace (2 * - phi * (299792458 / x) ^ 2) with (- (2 * phi * (299792458 / x) ^ 2)) by ring. rewrite cos_neg, sin_neg. reflexivity.
Qed.

Lemma rotation_operator_even : forall width center phi, channel_ok width center -> rotation_operator (- width) center phi = rotation_operator width center phi.
Proof.
  intros w c phi H. apply (is_mean_unique (rotation phi) (c - w / 2) (c + w / 2)); [apply edges_ne, H| |apply rotation_operator_mean; auto].
  apply is_mean_swap. replace (c + w / 2) with (c - - w / 2) by field. replace (c - w / 2) with (c + - w / 2) by field. apply rotation_operator_mean.
  unfold channel_ok in *. lra.
Qed.
