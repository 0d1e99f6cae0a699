(** QU-fitting: likelihood, information criteria, angles. *)
From Coq Require Import Reals List Arith ZArith Bool String Lra Lia Permutation Sorting.
Set Warnings "-ambiguous-paths".
From Coquelicot Require Import Coquelicot.
From Verif Require Import CBase PyRes PyList PyList_Proofs PyStr PyStr_Proofs CleanTop_Model Measure_Model Measure_Spec Measure_Proofs Median_Proofs Peak_Proofs Synth_Spec QU_Model QU_Spec QU_Proofs.
Import ListNotations.
Local Open Scope R_scope.
Local Notation length := List.length.

Definition val0 (x : option (option R)) : R := match x with Some (Some v) => v | _ => 0 end.
Lemma nansum_ok : forall l, ~ In None l -> nansum l = Some (rsum (map val0 l)).
Proof.
  induction l as [|[x|] l IH]; intros H; [reflexivity| |exfalso; apply H; left; reflexivity].
  cbn [nansum map]. rewrite IH by (intros Hi; apply H; right; exact Hi). rewrite rsum_cons. destruct x; cbn [val0]; f_equal; ring.
Qed.

Lemma chi2_terms_sum : forall d m e, errors_ok e -> nansum (chi2_terms d m e) = Some (chi2 d m e).
Proof.
  intros d m e He. unfold chi2_terms, zip3.
  assert (G : forall x, In x (combine (combine d m) e) -> exists v, resid2 (fst (fst x)) (snd (fst x)) (snd x) = Some v /\
     match v with Some y => y | None => 0 end = match x with (Some a, Some b, Some c) => ((a - b) / c) ^ 2 | _ => 0 end).
  { intros [[a b] c] Hin. cbn [fst snd]. destruct a as [a|], b as [b|]; cbn; try (eexists; split; reflexivity). destruct c as [c|]; [|eexists; split; reflexivity].
    apply in_combine_r in Hin. specialize (He c Hin). destruct (Req_EM_T c 0); [lra|]. eexists. split; reflexivity. }
  rewrite nansum_ok.
  - f_equal. unfold chi2. rewrite map_map. apply rsum_map_ext. intros x Hx. destruct (G x Hx) as (v & E & Ev). rewrite E, <- Ev. destruct v; reflexivity.
  - intros Hin. apply in_map_iff in Hin. destruct Hin as (x & E & Hx). destruct (G x Hx) as (v & E' & _). rewrite E' in E. discriminate.
Qed.

(** the part of the likelihood that does not depend on the model *)
Definition norm_term (dq du : list (option R)) : R :=
  rsum (map (fun ab => match ab with (Some a, Some b) => ln (sqrt (a ^ 2 + b ^ 2)) | _ => 0 end) (combine dq du)).

Lemma loglike_value : forall model d sp l2 q dq u du, model d l2 = POk sp -> errors_ok dq -> errors_ok du ->
  log_likelihood model d l2 q dq u du =
  POk (Some (- INR (length (combine dq du)) * ln (2 * PI) - 2 * norm_term dq du - chi2 q (map re_of sp) dq / 2 - chi2 u (map im_of sp) du / 2)).
Proof.
  intros model d sp l2 q dq u du E H1 H2. unfold log_likelihood. rewrite E. cbn [pybind]. cbv zeta.
  rewrite !chi2_terms_sum by auto. rewrite map_length, nansum_ok.
  - do 2 f_equal. unfold norm_term. rewrite !map_map. replace (rsum _) with (norm_term dq du); [reflexivity|]. unfold norm_term. apply rsum_map_ext.
    intros [[a|] [b|]] Hin; try reflexivity. assert (0 < a) by (apply H1; apply in_combine_l in Hin; auto). 
    assert (0 < sqrt (a ^ 2 + b ^ 2)) by (apply sqrt_lt_R0; nra). destruct (Req_EM_T _ 0); [lra|reflexivity].
  - intros Hin. rewrite map_map in Hin. apply in_map_iff in Hin. destruct Hin as ([a b] & Eab & Hin).
    destruct a as [a|]; [|discriminate]. destruct b as [b|]; [|discriminate]. assert (0 < a) by (apply H1; apply in_combine_l in Hin; auto). 
    assert (0 < sqrt (a ^ 2 + b ^ 2)) by (apply sqrt_lt_R0; nra). destruct (Req_EM_T _ 0); [lra|discriminate].
Qed.

(** C35: differences are minus half the chi-squared differences *)
Theorem loglike_difference : forall model d1 d2 sp1 sp2 l2 q dq u du, model d1 l2 = POk sp1 -> model d2 l2 = POk sp2 -> errors_ok dq -> errors_ok du ->
  exists L1 L2, log_likelihood model d1 l2 q dq u du = POk (Some L1) /\ log_likelihood model d2 l2 q dq u du = POk (Some L2) /\
    L1 - L2 = - (chi2 q (map re_of sp1) dq + chi2 u (map im_of sp1) du - (chi2 q (map re_of sp2) dq + chi2 u (map im_of sp2) du)) / 2.
Proof.
  intros. eexists _, _. split; [eapply loglike_value; eassumption|]. split; [eapply loglike_value; eassumption|]. field.
Qed.

Lemma chi2_nonneg : forall d m e, 0 <= chi2 d m e.
Proof.
  intros. unfold chi2. apply rsum_nonneg. intros x Hx. apply in_map_iff in Hx. destruct Hx as ([[[a|] [b|]] [c|]] & <- & _); try lra. apply pow2_ge_0.
Qed.

(** a model that is NaN everywhere has the largest likelihood of all *)
Lemma chi2_blank : forall d n e, chi2 d (map re_of (repeat None n)) e = 0 /\ chi2 d (map im_of (repeat None n)) e = 0.
Proof.
  intros d n e.
  assert (G : forall m, (forall x, In x m -> x = None) -> chi2 d m e = 0).
  { intros m Hm. unfold chi2. apply rsum_zero. intros [[a b] c] Hin. apply in_combine_l, in_combine_r in Hin. rewrite (Hm b Hin). destruct a; reflexivity. }
  split; apply G; intros x Hx; apply in_map_iff in Hx; destruct Hx as (y & <- & Hy); apply repeat_spec in Hy; subst; reflexivity.
Qed.
Theorem blank_model_wins : forall model d d0 sp n l2 q dq u du, model d l2 = POk sp -> model d0 l2 = POk (repeat None n) -> errors_ok dq -> errors_ok du ->
  exists L L0, log_likelihood model d l2 q dq u du = POk (Some L) /\ log_likelihood model d0 l2 q dq u du = POk (Some L0) /\ L <= L0.
Proof.
  intros model d d0 sp n l2 q dq u du H H0 E1 E2. destruct (loglike_difference model d d0 sp (repeat None n) l2 q dq u du H H0 E1 E2) as (L & L0 & EL & EL0 & D).
  exists L, L0. repeat split; auto. rewrite (proj1 (chi2_blank q n dq)), (proj2 (chi2_blank u n du)) in D.
  pose proof (chi2_nonneg q (map re_of sp) dq). pose proof (chi2_nonneg u (map im_of sp) du). lra.
Qed.

(** ** against the Gaussian likelihood *)
Lemma ln_sqrt : forall x, 0 < x -> ln (sqrt x) = ln x / 2.
Proof.
  intros x Hx. pose proof (sqrt_lt_R0 x Hx). rewrite <- (sqrt_sqrt x) at 2 by lra. rewrite ln_mult by auto. field.
Qed.
Lemma ln_gauss : forall r e, 0 < e -> ln (gauss r (e ^ 2)) = - (r / e) ^ 2 / 2 - ln (2 * PI) / 2 - ln e.
Proof.
  intros r e He. unfold gauss, Rdiv at 1. pose proof PI_RGT_0. assert (E2 : 0 < e ^ 2) by (apply pow_lt; auto).
  assert (P2 : 0 < 2 * PI) by lra. assert (V : 0 < 2 * PI * e ^ 2) by (apply Rmult_lt_0_compat; auto).
  assert (0 < sqrt (2 * PI * e ^ 2)) by (apply sqrt_lt_R0; auto).
  rewrite ln_mult by (try apply exp_pos; apply Rinv_0_lt_compat; auto). rewrite ln_exp, ln_Rinv by auto.
  rewrite ln_sqrt by auto. rewrite ln_mult by auto. replace (e ^ 2) with (e * e) by ring. rewrite (ln_mult e e) by auto. field. lra.
Qed.

Lemma map_some_combine : forall (a b : list R), combine (map Some a) (map Some b) = map (fun x => (Some (fst x), Some (snd x))) (combine a b).
Proof. induction a as [|x a IH]; intros [|y b]; try reflexivity. cbn. f_equal. apply IH. Qed.
Lemma map_some_combine3 : forall (a b c : list R), combine (combine (map Some a) (map Some b)) (map Some c) =
  map (fun x => (Some (fst (fst x)), Some (snd (fst x)), Some (snd x))) (combine (combine a b) c).
Proof. induction a as [|x a IH]; intros [|y b] [|z c]; try reflexivity. cbn. f_equal. apply IH. Qed.

Lemma gauss_chi2 : forall d m e, length m = length d -> length e = length d -> (forall x, In x e -> 0 < x) ->
  gauss_loglike d m e = - chi2 (map Some d) (map Some m) (map Some e) / 2 - INR (length d) * (ln (2 * PI) / 2) - rsum (map ln e).
Proof.
  intros d m e Hm He Hp. unfold gauss_loglike, chi2. rewrite map_some_combine3, map_map. revert m e Hm He Hp.
  induction d as [|x d IH]; intros [|y m] [|z e] Hm He Hp; cbn [length] in *; try discriminate.
  - cbn [combine map length]. rewrite !rsum_nil. cbn [INR]. lra.
  - cbn [combine map]. rewrite !rsum_cons. rewrite IH by (try lia; intros w Hw; apply Hp; right; auto).
    cbn [fst snd]. rewrite ln_gauss by (apply Hp; left; auto). rewrite S_INR. field. pose proof (Hp z (or_introl eq_refl)). lra.
Qed.

Lemma re_some : forall sp, map re_of (map Some sp) = map Some (map fst sp).
Proof. intros. rewrite !map_map. reflexivity. Qed.
Lemma im_some : forall sp, map im_of (map Some sp) = map Some (map snd sp).
Proof. intros. rewrite !map_map. reflexivity. Qed.

(** C35: the value against the Gaussian one *)
Theorem loglike_gauss : forall model d sp l2 q dq u du, model d l2 = POk (map Some sp) ->
  length sp = length q -> length dq = length q -> length u = length q -> length du = length q ->
  (forall x, In x dq -> 0 < x) -> (forall x, In x du -> 0 < x) ->
  exists L, log_likelihood model d l2 (map Some q) (map Some dq) (map Some u) (map Some du) = POk (Some L) /\
    L = gauss_loglike q (map fst sp) dq + gauss_loglike u (map snd sp) du
        - rsum (map (fun ab => ln ((fst ab ^ 2 + snd ab ^ 2) / (fst ab * snd ab))) (combine dq du)) /\
    L <= gauss_loglike q (map fst sp) dq + gauss_loglike u (map snd sp) du - INR (length q) * ln 2.
Proof.
  intros model d sp l2 q dq u du E Ls Ld Lu Ldu Hq Hu.
  assert (EQ : errors_ok (map Some dq)) by (intros x Hx; apply in_map_iff in Hx; destruct Hx as (y & Ey & Hy); injection Ey as <-; auto).
  assert (EU : errors_ok (map Some du)) by (intros x Hx; apply in_map_iff in Hx; destruct Hx as (y & Ey & Hy); injection Ey as <-; auto).
  eexists. split; [eapply loglike_value; eassumption|]. rewrite re_some, im_some.
  assert (LC : length (combine (map Some dq) (map Some du)) = length q) by (rewrite combine_length, !map_length; lia).
  rewrite LC. assert (Ls1 : length (map fst sp) = length q) by (rewrite map_length; exact Ls).
  assert (Ls2 : length (map snd sp) = length u) by (rewrite map_length; etransitivity; [exact Ls|symmetry; exact Lu]).
  assert (Ldu' : length du = length u) by lia.
  rewrite (gauss_chi2 q _ _ Ls1 Ld Hq), (gauss_chi2 u _ _ Ls2 Ldu' Hu). rewrite Lu.
  set (G := rsum (map (fun ab => ln ((fst ab ^ 2 + snd ab ^ 2) / (fst ab * snd ab))) (combine dq du))).
  assert (NT : 2 * norm_term (map Some dq) (map Some du) = rsum (map ln dq) + rsum (map ln du) + G /\ INR (length q) * ln 2 <= G).
  { unfold norm_term, G. rewrite map_some_combine, map_map. rewrite <- Ld. assert (LL : length du = length dq) by lia. clear - Hq Hu LL.
    revert du LL Hu. induction dq as [|a dq IH]; intros [|b du] LL Hu; cbn [length] in *; try discriminate.
    - cbn [combine map length]. rewrite !rsum_nil. cbn [INR]. lra.
    - cbn [combine map]. rewrite !rsum_cons. destruct (IH (fun x Hx => Hq x (or_intror Hx)) du ltac:(lia) (fun x Hx => Hu x (or_intror Hx))) as [I1 I2].
      assert (A : 0 < a) by (apply Hq; left; auto). assert (B : 0 < b) by (apply Hu; left; auto). cbn [fst snd].
      assert (P : 0 < a ^ 2 + b ^ 2) by nra.
      assert (E : 2 * ln (sqrt (a ^ 2 + b ^ 2)) = ln a + ln b + ln ((a ^ 2 + b ^ 2) / (a * b))).
      { rewrite ln_sqrt by auto. unfold Rdiv. rewrite ln_mult by (auto; apply Rinv_0_lt_compat; nra). rewrite ln_Rinv by nra. rewrite ln_mult by auto. field. }
      split; [lra|]. rewrite S_INR. assert (ln 2 <= ln ((a ^ 2 + b ^ 2) / (a * b))); [|lra].
      assert (Q2 : 2 <= (a ^ 2 + b ^ 2) / (a * b)).
      { apply (Rmult_le_reg_r (a * b)); [nra|]. replace ((a ^ 2 + b ^ 2) / (a * b) * (a * b)) with (a ^ 2 + b ^ 2) by (field; split; lra).
        pose proof (pow2_ge_0 (a - b)). nra. }
      destruct Q2 as [Q2|Q2]; [left; apply ln_increasing; lra|rewrite <- Q2; lra]. }
  destruct NT as [NT NG]. split; [|]; lra.
Qed.

(** ** goodness of fit and information criteria *)
Lemma chisq_value : forall model d sp l2 q dq u du, model d l2 = POk sp -> errors_ok dq -> errors_ok du ->
  chisq_model model d l2 q dq u du = POk (Some (chi2_both q (map re_of sp) dq u (map im_of sp) du)).
Proof.
  intros model d sp l2 q dq u du E H1 H2. unfold chisq_model. rewrite E. cbn [pybind]. f_equal.
  set (mq := map re_of sp). set (mu := map im_of sp). unfold chi2_terms, zip3, chi2_both.
  revert H1 H2. generalize dq du. clear. revert q mq u mu.
  assert (G : forall A B, (forall x, In x A -> match snd x with Some c => 0 < c | None => True end) -> (forall x, In x B -> match snd x with Some c => 0 < c | None => True end) ->
     nansum (map (fun ab => match ab with (Some (Some x), Some (Some y)) => Some (Some (x + y)) | (Some None, _) | (_, Some None) => Some None | _ => None end)
       (combine (map (fun x : option R * option R * option R => resid2 (fst (fst x)) (snd (fst x)) (snd x)) A)
                (map (fun x : option R * option R * option R => resid2 (fst (fst x)) (snd (fst x)) (snd x)) B)))
     = Some (rsum (map (fun x => match x with (Some a, Some b, Some c, (Some a', Some b', Some c')) => ((a - b) / c) ^ 2 + ((a' - b') / c') ^ 2 | _ => 0 end) (combine A B)))).
  { induction A as [|[[a b] c] A IH]; intros [|[[a' b'] c'] B] HA HB; try reflexivity.
    cbn [map combine nansum fst snd].
    pose proof (HA _ (or_introl eq_refl)) as C1. pose proof (HB _ (or_introl eq_refl)) as C2. cbn [snd] in C1, C2.
    specialize (IH B (fun x Hx => HA x (or_intror Hx)) (fun x Hx => HB x (or_intror Hx))).
    assert (R1 : exists v, resid2 a b c = Some v /\ (match a, b, c with Some a, Some b, Some c => v = Some (((a - b) / c) ^ 2) | _, _, _ => v = None end)).
    { destruct a, b; cbn; try (eexists; split; reflexivity). destruct c; [|eexists; split; reflexivity]. destruct (Req_EM_T r1 0); [lra|]. eexists; split; reflexivity. }
    assert (R2 : exists v, resid2 a' b' c' = Some v /\ (match a', b', c' with Some a, Some b, Some c => v = Some (((a - b) / c) ^ 2) | _, _, _ => v = None end)).
    { destruct a', b'; cbn; try (eexists; split; reflexivity). destruct c'; [|eexists; split; reflexivity]. destruct (Req_EM_T r1 0); [lra|]. eexists; split; reflexivity. }
    destruct R1 as (v1 & -> & V1), R2 as (v2 & -> & V2). rewrite rsum_cons.
    destruct a, b, c, a', b', c'; subst v1 v2; cbn [nansum]; rewrite IH; f_equal; ring. }
  intros q mq u mu dq du H1 H2. apply G; intros [[a b] [c|]] Hin; cbn; auto; [apply H1|apply H2]; apply in_combine_r in Hin; auto.
Qed.

Theorem criteria : forall model l lnL l2 q dq u du r, postprocess model l lnL l2 q dq u du = POk r ->
  let k := INR (length (filter (fun a => negb (pa_delta a)) l)) in let n := 2 * INR (length l2) in
  q_AIC r = 2 * k - 2 * lnL /\ q_BIC r = k * ln n - 2 * lnL /\
  (n - k - 1 <> 0 -> exists c, q_AICc r = Some c /\ c = (2 * k - 2 * lnL + 2 * k * (k + 1) / (n - k - 1)) - 2 * k) /\
  q_dof r = n - k - 1.
Proof.
  intros model l lnL l2 q dq u du r H k n. unfold postprocess in H. destruct (chisq_model _ _ _ _ _ _ _) as [chi|]; [|discriminate].
  cbn [pybind] in H. apply POk_inj' in H. subst r. cbn [q_AIC q_BIC q_AICc q_dof]. fold k. fold n. repeat split; auto.
  intros N. unfold odiv. destruct (Req_EM_T (n - k - 1) 0); [contradiction|]. eexists. split; [reflexivity|]. field. auto.
Qed.

Theorem fit_chisq : forall model l lnL l2 q dq u du r sp, postprocess model l lnL l2 q dq u du = POk r ->
  model (combine (map pa_name l) (q_values r)) l2 = POk sp -> errors_ok dq -> errors_ok du ->
  exists x, q_chiSq r = Some x /\ x = chi2_both q (map re_of sp) dq u (map im_of sp) du /\
    (q_dof r <> 0 -> q_chiSqRed r = Some (x / q_dof r)).
Proof.
  intros model l lnL l2 q dq u du r sp H Hm H1 H2. unfold postprocess in H. destruct (chisq_model _ _ _ _ _ _ _) as [chi|] eqn:E; [|discriminate].
  cbn [pybind] in H. apply POk_inj' in H. subst r. cbn [q_chiSq q_chiSqRed q_dof q_values] in *.
  rewrite (chisq_value _ _ sp) in E by auto. apply POk_inj' in E. subst chi. eexists. split; [reflexivity|]. split; [reflexivity|].
  intros N. unfold odiv. destruct (Req_EM_T _ 0); [contradiction|reflexivity].
Qed.

(** ** angles *)
Lemma quantile_half : forall v, v <> [] -> median v = Some (quantile (/ 2) v).
Proof.
  intros v Hv. rewrite median_is_mid by auto. f_equal. unfold mid, quantile. pose proof (rsort_perm v) as P.
  rewrite <- (Permutation_length P). set (w := rsort v). set (n := length v).
  assert (N : (0 < n)%nat) by (unfold n; destruct v; [contradiction|simpl; lia]).
  destruct (Nat.even n) eqn:Ev.
  - pose proof (even_half n Ev) as E. set (k := (n / 2)%nat) in *. assert (K : (1 <= k)%nat) by lia.
    replace (Rfloor (/ 2 * INR (n - 1))) with (Z.of_nat (k - 1)).
    + rewrite Nat2Z.id. replace (S (k - 1)) with k by lia. replace (/ 2 * INR (n - 1) - INR (k - 1)) with (/ 2); [field|].
      rewrite !minus_INR by lia. rewrite E at 1. rewrite mult_INR. simpl. field.
    + symmetry. apply Rfloor_unique. rewrite <- INR_IZR_INZ. rewrite !minus_INR by lia. rewrite E. rewrite mult_INR. simpl. split; lra.
  - pose proof (odd_half n Ev) as E. set (k := (n / 2)%nat) in *.
    assert (HK : / 2 * INR (n - 1) = INR k) by (replace (n - 1)%nat with (2 * k)%nat by lia; rewrite mult_INR; simpl; field).
    rewrite HK. replace (Rfloor (INR k)) with (Z.of_nat k).
    + rewrite Nat2Z.id. ring.
    + symmetry. apply Rfloor_unique. rewrite <- INR_IZR_INZ. lra.
Qed.

Lemma median_odd_in : forall v m, Nat.even (length v) = false -> median v = Some m -> In m v.
Proof.
  intros v m Ev H. assert (Hv : v <> []) by (intros ->; discriminate). rewrite median_is_mid in H by auto. injection H as <-.
  unfold mid. pose proof (rsort_perm v) as P. rewrite <- (Permutation_length P), Ev. eapply Permutation_in; [apply Permutation_sym, P|].
  apply nth_In. rewrite <- (Permutation_length P). apply Nat.div_lt; [|lia]. destruct v; [contradiction|simpl; lia].
Qed.

Lemma rotate90_spec : forall x, 0 <= x < 180 -> 0 <= rotate90 x < 180 /\ same_angle (rotate90 x) (x - 90).
Proof.
  intros x Hx. unfold rotate90. unfold Rleb. destruct (Rle_dec 180 (x + 90)).
  - split; [lra|]. exists 0%Z. ring.
  - split; [lra|]. exists 1%Z. ring.
Qed.

Lemma in_rotated : forall l a, NoDup (map pa_name l) -> In a l -> in_names (pa_name a) (rotated_names l) = to_rotate a.
Proof.
  intros l a ND Ha. unfold in_names, rotated_names. destruct (to_rotate a) eqn:E.
  - apply existsb_exists. exists (pa_name a). split; [|apply str_eqb_refl]. apply in_map, filter_In. auto.
  - apply not_true_is_false. intros H. apply existsb_exists in H. destruct H as (k & Hk & Ek). apply str_eqb_eq in Ek. subst k.
    apply in_map_iff in Hk. destruct Hk as (b & Eb & Hb). apply filter_In in Hb. destruct Hb as [Hb Tb].
    assert (a = b); [|subst; congruence]. clear -ND Ha Hb Eb. induction l as [|x l IH]; [destruct Ha|]. cbn in ND. inversion ND as [|? ? N1 N2]; subst.
    destruct Ha as [->|Ha], Hb as [->|Hb]; auto.
    + exfalso. apply N1. rewrite <- Eb. apply in_map, Hb.
    + exfalso. apply N1. rewrite Eb. apply in_map, Ha.
Qed.

Lemma to_rotate_spec : forall a m, is_angle a -> median (pa_col a) = Some m -> to_rotate a = true <-> (m < 45 \/ 135 <= m).
Proof.
  intros a m ((x & En) & El & Eh & Ew) Em. unfold to_rotate. rewrite El, Eh, Ew, En.
  assert (Hc : pa_col a <> []) by (intros E; rewrite E in Em; discriminate).
  rewrite quantile_half in Em by auto. injection Em as Em. rewrite Em.
  replace (skipn (length (x ++ s "deg") - 3) (x ++ s "deg")) with (s "deg").
  2:{ rewrite app_length. replace (length x + length (s "deg") - 3)%nat with (length x) by (cbn; lia). rewrite skipn_app, skipn_all, Nat.sub_diag. reflexivity. }
  rewrite str_eqb_refl. destruct (Req_EM_T 0 0); [|lra]. destruct (Req_EM_T 180 180); [|lra]. cbv zeta. cbn [andb].
  rewrite str_eqb_refl. cbn [andb]. rewrite orb_true_iff. unfold Rltb, Rleb. destruct (Rlt_dec m 45), (Rle_dec 135 m); split; intros H; auto; destruct H; auto; try discriminate; lra.
Qed.

(** C36: the reported angle *)
Theorem angle_reported : forall l a m0, NoDup (map pa_name l) -> In a l -> is_angle a -> (forall x, In x (pa_col a) -> 0 <= x < 180) ->
  median (pa_col a) = Some m0 ->
  let v := fst (fst (summary l a)) in
  exists o offs m, (o = 0 /\ 45 <= m0 < 135 \/ o = 90 /\ (m0 < 45 \/ 135 <= m0)) /\
    Forall2 (fun x y => 0 <= y < 180 /\ same_angle y (x - o)) (pa_col a) offs /\ median offs = Some m /\
    0 <= v < 180 /\ same_angle v (m + o) /\ (Nat.even (length (pa_col a)) = false -> In v (pa_col a)).
Proof.
  intros l a m0 ND Ha Han Hr Hm v. pose proof (to_rotate_spec a m0 Han Hm) as TR. pose proof (in_rotated l a ND Ha) as IR.
  unfold v, summary, posterior. cbv zeta. cbn [fst]. rewrite IR.
  assert (Hc : pa_col a <> []) by (intros E; rewrite E in Hm; discriminate).
  destruct (to_rotate a) eqn:ET.
  - assert (Hc' : map rotate90 (pa_col a) <> []) by (intros E; apply map_eq_nil in E; contradiction).
    exists 90, (map rotate90 (pa_col a)), (quantile (/ 2) (map rotate90 (pa_col a))). pose proof (quantile_half _ Hc') as Q.
    set (m := quantile (/ 2) (map rotate90 (pa_col a))) in *.
    assert (B : forall x, In x (map rotate90 (pa_col a)) -> 0 <= x < 180).
    { intros x Hx. apply in_map_iff in Hx. destruct Hx as (y & <- & Hy). apply rotate90_spec. auto. }
    assert (M : 0 <= m < 180).
    { unfold median in Q. destruct (median_bounds _ _ 0 180 Q) as [M1 M2]; [intros x Hx; specialize (B x Hx); lra|].
      split; [auto|]. destruct M2 as [M2|M2]; [auto|exfalso].
      destruct (median_halves _ _ Q) as [_ H2]. rewrite M2 in H2.
      assert (Z0 : forall t, (forall x, In x t -> 0 <= x < 180) -> count (fun x => Rleb 180 x) t = 0%nat).
      { induction t as [|y t IH]; intros Bt; [reflexivity|]. unfold count in *. cbn [filter].
        assert (0 <= y < 180) by (apply Bt; left; auto). unfold Rleb at 1. destruct (Rle_dec 180 y); [lra|]. apply IH. intros x Hx. apply Bt. right. auto. }
      rewrite (Z0 _ B) in H2. rewrite map_length in H2. destruct (pa_col a); [contradiction|cbn in H2; lia]. }
    split; [right; split; [reflexivity|apply TR; reflexivity]|]. split.
    { clear -Hr. induction (pa_col a) as [|x t IH]; [constructor|]. cbn [map]. constructor; [apply rotate90_spec, Hr; left; auto|]. apply IH. intros y Hy. apply Hr. right. auto. }
    split; [exact Q|].
    assert (V : (let w := m - 90 * 1 + 180 * (if Rltb (m - 90 * 1) 0 then 1 else 0) * 1 in 0 <= w < 180 /\ same_angle w (m + 90))).
    { cbv zeta. unfold Rltb. destruct (Rlt_dec (m - 90 * 1) 0); (split; [lra|]); [exists 0%Z|exists (-1)%Z]; ring. }
    cbv zeta in V. destruct V as [V1 V2]. split; [exact V1|]. split; [exact V2|].
    intros Od. assert (I : In m (map rotate90 (pa_col a))) by (apply median_odd_in; [rewrite map_length|]; auto).
    apply in_map_iff in I. destruct I as (y & Ey & Hy). pose proof (Hr y Hy) as Yr. pose proof (rotate90_spec y Yr) as (_ & SA). rewrite Ey in SA.
    match goal with |- In ?w _ => replace w with y; [exact Hy|] end.
    apply same_angle_unique; [|exact Yr|exact V1]. apply same_angle_sym. eapply same_angle_trans; [exact V2|].
    eapply same_angle_trans; [apply same_angle_plus, SA|]. exists 0%Z. ring.
  - pose proof (quantile_half _ Hc) as Q. rewrite Hm in Q. injection Q as Q. rewrite <- Q. exists 0, (pa_col a), m0.
    assert (N : ~ (m0 < 45 \/ 135 <= m0)) by (intros H; apply TR in H; discriminate).
    split; [left; split; [reflexivity|lra]|]. split.
    { clear -Hr. induction (pa_col a) as [|x t IH]; [constructor|]. constructor; [split; [apply Hr; left; auto|exists 0%Z; ring]|]. apply IH. intros y Hy. apply Hr. right. auto. }
    split; [exact Hm|]. rewrite !Rmult_0_r.
    split; [lra|]. split; [exists 0%Z; ring|]. intros Od. replace (m0 - 0 + 0) with m0 by ring. apply median_odd_in; auto.
Qed.

(** C36: with an even number of samples split across 0 the median is 90 degrees off *)
Theorem angle_split_refuted : exists a, is_angle a /\ (forall x, In x (pa_col a) -> 0 <= x < 180) /\
  (forall x, In x (pa_col a) -> exists y, same_angle x y /\ -1 <= y <= 1) /\ fst (fst (summary [a] a)) = 90.
Proof.
  exists (mk_param (s "psi0_deg") 0 180 (Some (s "periodic")) false [1; 179]). split; [|split; [|split]].
  - split; [exists (s "psi0_"); reflexivity|]. repeat split; reflexivity.
  - intros x [<- |[<- |[]]]; lra.
  - intros x [<- |[<- |[]]]; [exists 1; split; [apply same_angle_refl|lra]|exists (-1); split; [exists 1%Z; ring|lra]].
  - assert (Q : quantile (/ 2) [1; 179] = 90).
    { assert (E : median [1; 179] = Some 90).
      { rewrite (median_of_sorted [1; 179] [1; 179]); [|discriminate|reflexivity|repeat constructor; lra]. unfold mid. cbn. f_equal. field. }
      rewrite quantile_half in E by discriminate. injection E; auto. }
    assert (T : to_rotate (mk_param (s "psi0_deg") 0 180 (Some (s "periodic")) false [1; 179]) = false).
    { unfold to_rotate. cbn [pa_col]. cbv zeta. rewrite Q. unfold Rltb, Rleb. destruct (Rlt_dec 90 45); [lra|]. destruct (Rle_dec 135 90); [lra|]. cbn [orb]. apply andb_false_r. }
    unfold summary, posterior, in_names, rotated_names. cbn [filter]. rewrite T. cbn [map existsb pa_col]. cbv zeta. cbn [fst]. rewrite Q.
    unfold Rltb. destruct (Rlt_dec _ 0); lra.
Qed.

(** ** wrap_chains *)
Theorem wrap_chains_spec : forall cols wraps bounds p i lo hi, (i < length cols)%nat -> nth i bounds (0, 0) = (lo, hi) -> lo < hi ->
  (forall n, nth i wraps (WInt 0) = WInt n -> n = 0%Z -> nth i (wrap_chains cols wraps bounds p) [] = nth i cols []) /\
  (forall w, nth i wraps (WInt 0) = w -> w <> WInt 0 ->
     Forall2 (fun x y => (exists k : Z, y = x + IZR k * (hi - lo)) /\ nth i p 0 - (hi - lo) / 2 <= y < nth i p 0 + (hi - lo) / 2)
       (nth i cols []) (nth i (wrap_chains cols wraps bounds p) [])).
Proof.
  intros cols wraps bounds p i lo hi Hi Hb Hl. unfold wrap_chains.
  match goal with |- context [map ?g (seq 0 (length cols))] => set (f := g) end.
  assert (E : nth i (map f (seq 0 (length cols))) [] = f i).
  { rewrite (nth_indep _ [] (f 0%nat)) by (rewrite map_length, seq_length; auto). rewrite map_nth, seq_nth by auto. reflexivity. }
  rewrite E. unfold f. cbv zeta. split.
  - intros n Hn ->. rewrite Hn. reflexivity.
  - intros w Hw Nw. rewrite Hw, Hb. assert (wraps_it w = true) as ->.
    { destruct w as [n| |]; try reflexivity. cbn. destruct (Z.eqb_spec n 0); [subst; contradiction|reflexivity]. }
    cbn [fst snd]. unfold wrap_col. cbv zeta. induction (nth i cols []) as [|x t IH]; [constructor|]. cbn [map]. constructor; [|exact IH].
    set (c := lo + (nth i p 0 - (lo + (hi - lo) / 2))).
    pose proof (fmod_range (x - c) (hi - lo) ltac:(lra)) as FR. split; [|unfold c in *; lra].
    unfold fmod. exists (- Rfloor ((x - c) / (hi - lo)))%Z. rewrite opp_IZR. unfold c. ring.
Qed.

(** the values of prior.boundary wrap the parameters that are not periodic too *)
Theorem wrap_not_periodic_refuted : exists cols wraps bounds p i, nth i wraps (WInt 0) = WNone /\ nth i (wrap_chains cols wraps bounds p) [] <> nth i cols [].
Proof.
  exists [[9]], [WNone], [(0, 10)], [1], 0%nat. split; [reflexivity|]. unfold wrap_chains. cbn [length seq map nth wraps_it fst snd]. unfold wrap_col. cbn [map]. cbv zeta.
  unfold fmod. replace (Rfloor _) with 1%Z; [|symmetry; apply Rfloor_unique; lra]. intros E. injection E. lra.
Qed.
