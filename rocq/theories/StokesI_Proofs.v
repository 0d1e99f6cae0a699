(** Proofs about renormalisation of Stokes I models. *)
From Coq Require Import Reals List Arith ZArith Bool Lra Lia.
Set Warnings "-ambiguous-paths".
From Coquelicot Require Import Coquelicot.
From Verif Require Import PyRes CBase PyList StokesI_Model StokesI_Spec.
Import ListNotations.
Local Open Scope R_scope.

Lemma cons_eq : forall (x y : R) l l', x = y -> l = l' -> x :: l = y :: l'.
Proof. congruence. Qed.

Lemma len6 : forall p : list R, length p = 6%nat -> exists a b c d f g, p = [a; b; c; d; f; g].
Proof.
  intros p H. do 6 (destruct p as [|? p]; [discriminate|]). destruct p; [|discriminate].
  repeat eexists.
Qed.

Lemma poly5_lin : forall p ref f, poly5 p (f / ref) = lin_model p ref f.
Proof.
  intros. unfold poly5, lin_model. cbn [seq map]. rewrite !rsum_cons, rsum_nil. cbn [Nat.sub]. ring.
Qed.

Lemma ln10_pos : 0 < ln 10.
Proof. rewrite <- ln_1. apply ln_increasing; lra. Qed.

Lemma power_log : forall p ref f, powerlaw_poly5 p (f / ref) = log_model p ref f.
Proof.
  intros. unfold powerlaw_poly5, log_model, log10. cbn [seq map]. rewrite !rsum_cons, rsum_nil. cbn [Nat.sub].
  f_equal. unfold Rpower. f_equal. pose proof ln10_pos.
  set (L := ln (f / ref) / ln 10). replace (ln (f / ref)) with (L * ln 10) by (unfold L; field; lra). ring.
Qed.

Lemma calc_spec : forall fr freq, length (params fr) = 6%nat -> fit_function fr <> OtherFun ->
  calculate_StokesI_model fr freq = POk (map (model_at fr) freq).
Proof.
  intros fr freq H E. unfold calculate_StokesI_model, pad6. rewrite H. cbn [Nat.ltb Nat.leb Nat.sub repeat app pybind].
  unfold model_at. destruct (fit_function fr); [| |congruence]; f_equal; apply map_ext; intros;
    [apply poly5_lin|apply power_log].
Qed.

Lemma renorm_ok : forall fr new, good_fit fr ->
  exists fr', renormalize_StokesI_model fr new = POk fr' /\ length (params fr') = 6%nat /\
    fit_function fr' = fit_function fr /\ ref_freq fr' = new /\ pcov fr' = pcov fr.
Proof.
  intros fr new (H & (cov & Hc) & E & Hr). destruct (len6 _ H) as (a & b & c & d & f & g & Hp).
  unfold renormalize_StokesI_model. rewrite Hp, Hc.
  destruct (fit_function fr); [| |congruence]; eexists; (split; [reflexivity|]); cbn; auto.
Qed.

Lemma renorm_model : forall fr new fr' f, good_fit fr -> 0 < new -> 0 < f ->
  renormalize_StokesI_model fr new = POk fr' -> model_at fr' f = model_at fr f.
Proof.
  intros fr new fr' f (H & (cov & Hc) & E & Hr) Hn Hf R. destruct (len6 _ H) as (a & b & c & d & e & g & Hp).
  unfold renormalize_StokesI_model in R. rewrite Hp, Hc in R. unfold model_at.
  destruct (fit_function fr) eqn:Ef; [| |congruence]; injection R as <-; cbn [fit_function params ref_freq];
    rewrite Hp.
  - unfold lin_model. cbn [seq map]. rewrite !rsum_cons, !rsum_nil. cbn [Nat.sub nth]. field. lra.
  - unfold log_model. cbn [seq map]. rewrite !rsum_cons, !rsum_nil. cbn [Nat.sub nth].
    unfold log10. pose proof ln10_pos.
    assert (HL : ln (f / ref_freq fr) / ln 10 = ln (f / new) / ln 10 + ln (new / ref_freq fr) / ln 10).
    { rewrite <- Rdiv_plus_distr. f_equal. rewrite <- ln_mult.
      - f_equal. field. lra.
      - now apply Rdiv_lt_0_compat.
      - now apply Rdiv_lt_0_compat. }
    rewrite HL. set (M := ln (f / new) / ln 10). set (l := ln (new / ref_freq fr) / ln 10).
    rewrite Rmult_assoc. f_equal. rewrite <- Rpower_plus. f_equal. ring.
Qed.

Theorem renormalize_same_model : forall fr new freq, good_fit fr -> 0 < new -> (forall f, In f freq -> 0 < f) ->
  exists fr', renormalize_StokesI_model fr new = POk fr' /\ ref_freq fr' = new /\
    calculate_StokesI_model fr' freq = calculate_StokesI_model fr freq /\
    calculate_StokesI_model fr freq = POk (map (model_at fr) freq).
Proof.
  intros fr new freq G Hn Hf. destruct (renorm_ok fr new G) as (fr' & R & H6 & Ef & Er & Ec).
  pose proof G as (H & _ & E & _).
  exists fr'. split; [exact R|]. split; [exact Er|]. rewrite !calc_spec; auto; [|congruence].
  split; [|reflexivity]. f_equal. apply map_ext_in. intros f I. eapply renorm_model; eauto.
Qed.

Theorem renormalize_twice : forall fr new1 new2, good_fit fr -> 0 < new1 -> 0 < new2 ->
  exists fr1 fr2 fr', renormalize_StokesI_model fr new1 = POk fr1 /\
    renormalize_StokesI_model fr1 new2 = POk fr2 /\
    renormalize_StokesI_model fr new2 = POk fr' /\
    params fr2 = params fr' /\ ref_freq fr2 = ref_freq fr'.
Proof.
  intros fr n1 n2 (H & (cov & Hc) & E & Hr) H1 H2. destruct (len6 _ H) as (a & b & c & d & e & g & Hp).
  unfold renormalize_StokesI_model. rewrite Hp, Hc.
  destruct (fit_function fr) eqn:Ef; [| |congruence];
    (eexists; eexists; eexists); (split; [reflexivity|]); cbn [params fit_function pcov ref_freq];
    (split; [rewrite ?Hc; reflexivity|]); (split; [reflexivity|]); cbn [params ref_freq]; (split; [|reflexivity]).
  - repeat apply cons_eq; try reflexivity; field; lra.
  - unfold log10. pose proof ln10_pos.
    assert (HL : ln (n2 / ref_freq fr) / ln 10 = ln (n2 / n1) / ln 10 + ln (n1 / ref_freq fr) / ln 10).
    { rewrite <- Rdiv_plus_distr. f_equal. rewrite <- ln_mult.
      - f_equal. field. lra.
      - now apply Rdiv_lt_0_compat.
      - now apply Rdiv_lt_0_compat. }
    rewrite HL. set (M := ln (n2 / n1) / ln 10). set (l := ln (n1 / ref_freq fr) / ln 10).
    repeat apply cons_eq; try reflexivity; try ring.
    rewrite Rmult_assoc. f_equal. rewrite <- Rpower_plus. f_equal. ring.
Qed.

(** Same reference frequency: nothing changes. *)
Theorem renormalize_same_ref : forall fr, good_fit fr ->
  exists fr', renormalize_StokesI_model fr (ref_freq fr) = POk fr' /\ params fr' = params fr /\ ref_freq fr' = ref_freq fr.
Proof.
  intros fr (H & (cov & Hc) & E & Hr). destruct (len6 _ H) as (a & b & c & d & e & g & Hp).
  unfold renormalize_StokesI_model. rewrite Hp, Hc.
  replace (ref_freq fr / ref_freq fr) with 1 by (field; lra).
  unfold log10. rewrite ln_1. replace (0 / ln 10) with 0 by (pose proof ln10_pos; field; lra).
  destruct (fit_function fr) eqn:Ef; [| |congruence]; eexists; (split; [reflexivity|]); cbn [params ref_freq];
    (split; [|reflexivity]); repeat apply cons_eq; try reflexivity; try ring.
  replace (a * 0 ^ 5 + b * 0 ^ 4 + c * 0 ^ 3 + d * 0 ^ 2 + e * 0) with 0 by ring.
  rewrite Rpower_O; lra.
Qed.

(* ---------------------------------------------------------- errors *)

Lemma prop_var_eq : forall J cov, prop_var J cov =
  rsum (map (fun k => rsum (map (fun l => J k * J l * cov k l) (seq 0 6))) (seq 0 6)).
Proof. reflexivity. Qed.


Lemma np_sqrt_pv : forall J cov v, psd cov -> v = prop_var J cov -> np_sqrt v = Some (sqrt (prop_var J cov)).
Proof.
  intros J cov v (S & P) ->. unfold np_sqrt. destruct (Rle_dec 0 (prop_var J cov)) as [|n]; [reflexivity|].
  exfalso. apply n, P.
Qed.

Ltac expand_pv :=
  unfold prop_var; cbn [seq map]; rewrite !rsum_cons, !rsum_nil; cbn [nth].

Theorem linear_errors_propagated : forall fr new i, good_fit fr -> fit_function fr = Linear ->
  (forall cov, pcov fr = Some cov -> psd cov) -> (i < 6)%nat ->
  error_propagated (fun r => renormalize_StokesI_model r new) fr i.
Proof.
  intros fr new i (H & (cov & Hc) & E & Hr) Ef P Hi fr' cov' R Hc'.
  rewrite Hc in Hc'. injection Hc' as <-. specialize (P cov Hc).
  destruct (len6 _ H) as (a & b & c & d & f & g & Hp).
  unfold renormalize_StokesI_model in R. rewrite Hp, Hc, Ef in R. injection R as <-. cbn [perror].
  exists (fun k => if Nat.eqb k i then (new / ref_freq fr) ^ (5 - i) else 0). rewrite Hp.
  split.
  - intros k Hk. unfold param_after, renormalize_StokesI_model. 
    destruct i as [|[|[|[|[|[|i]]]]]]; try lia; 
    destruct k as [|[|[|[|[|[|k]]]]]]; try lia; cbn [Nat.eqb firstn skipn app nth Nat.sub with_params params ref_freq fit_function pcov];
    rewrite Ef, Hc; cbn [params nth]; auto_derive; auto; ring.
  - destruct i as [|[|[|[|[|[|i]]]]]]; try lia; cbn [nth]; apply np_sqrt_pv; auto;
    expand_pv; cbn [Nat.eqb Nat.sub]; ring.
Qed.

Theorem log_errors_propagated_partial : forall fr new i, good_fit fr -> fit_function fr = Log ->
  (forall cov, pcov fr = Some cov -> psd cov) -> (i < 4)%nat ->
  error_propagated (fun r => renormalize_StokesI_model r new) fr i.
Proof.
  intros fr new i (H & (cov & Hc) & E & Hr) Ef P Hi fr' cov' R Hc'.
  rewrite Hc in Hc'. injection Hc' as <-. specialize (P cov Hc).
  destruct (len6 _ H) as (a & b & c & d & f & g & Hp).
  unfold renormalize_StokesI_model in R. rewrite Hp, Hc, Ef in R. injection R as <-. cbn [perror].
  set (l := log10 (new / ref_freq fr)).
  exists (fun k => nth k (nth i [[1; 0; 0; 0; 0; 0]; [5 * l; 1; 0; 0; 0; 0]; [10 * l ^ 2; 4 * l; 1; 0; 0; 0];
                             [10 * l ^ 3; 6 * l ^ 2; 3 * l; 1; 0; 0]] []) 0).
  rewrite Hp. pose proof P as (S & _).
  split.
  - intros k Hk. unfold param_after, renormalize_StokesI_model.
    destruct i as [|[|[|[|i]]]]; try lia;
    destruct k as [|[|[|[|[|[|k]]]]]]; try lia; cbn [Nat.eqb firstn skipn app nth Nat.sub with_params params ref_freq fit_function pcov];
    rewrite Ef, Hc; cbn [params nth]; fold l; auto_derive; auto; ring.
  - destruct i as [|[|[|[|i]]]]; try lia; cbn [nth]; apply np_sqrt_pv; auto;
    expand_pv; rewrite ?(S 1%nat 0%nat), ?(S 2%nat 0%nat), ?(S 2%nat 1%nat), ?(S 3%nat 0%nat), ?(S 3%nat 1%nat), ?(S 3%nat 2%nat); ring.
Qed.

Lemma gradient_unique : forall F p J J', gradient F p J -> gradient F p J' -> forall k, (k < 6)%nat -> J k = J' k.
Proof.
  intros F p J J' G G' k Hk. specialize (G k Hk). specialize (G' k Hk).
  apply is_derive_unique in G. apply is_derive_unique in G'. congruence.
Qed.

Definition unit_cov (m : nat) (i j : nat) : R := if andb (Nat.eqb i m) (Nat.eqb j m) then 1 else 0.

Lemma unit_cov_pv : forall m J, (m < 6)%nat -> prop_var J (unit_cov m) = J m ^ 2.
Proof.
  intros m J Hm. destruct m as [|[|[|[|[|[|m]]]]]]; try lia; expand_pv; unfold unit_cov; cbn [Nat.eqb andb]; ring.
Qed.

Lemma unit_cov_psd : forall m, (m < 6)%nat -> psd (unit_cov m).
Proof.
  intros m Hm. split.
  - intros i j. unfold unit_cov. destruct (Nat.eqb i m), (Nat.eqb j m); reflexivity.
  - intros J. rewrite unit_cov_pv by auto. apply pow2_ge_0.
Qed.

(** A log fit whose covariance has a single unit entry. *)
Definition unit_fit (m : nat) (ff : fit_fun) : FitResult :=
  mk_fit [0; 0; 0; 0; 0; 1] 0 0 None 0 1 1 1 (Some (unit_cov m)) [] ff.

Lemma unit_fit_good : forall m ff, ff <> OtherFun -> good_fit (unit_fit m ff).
Proof. intros m ff E. repeat split; cbn; auto; [eexists; reflexivity|lra]. Qed.

Lemma log10_10 : log10 (10 / 1) = 1.
Proof. unfold log10. replace (10 / 1) with 10 by field. pose proof ln10_pos. field. lra. Qed.

Theorem log_error_5_refuted :
  good_fit (unit_fit 1 Log) /\ psd (unit_cov 1) /\
  ~ error_propagated (fun r => renormalize_StokesI_model r 10) (unit_fit 1 Log) 4.
Proof.
  split; [apply unit_fit_good; discriminate|]. split; [apply unit_cov_psd; lia|].
  intros H. destruct (H _ (unit_cov 1) eq_refl eq_refl) as (J & G & V).
  cbn [perror nth ref_freq unit_fit] in V. rewrite log10_10 in V.
  assert (J1 : J 1%nat = 4).
  { specialize (G 1%nat ltac:(lia)). apply is_derive_unique in G. rewrite <- G. apply is_derive_unique.
    unfold param_after, renormalize_StokesI_model. cbn [Nat.eqb firstn skipn app nth Nat.sub with_params params ref_freq fit_function pcov unit_fit].
    rewrite log10_10. auto_derive; auto. ring. }
  rewrite unit_cov_pv, J1 in V by lia. unfold unit_cov in V. cbn [Nat.eqb andb] in V.
  unfold np_sqrt in V. 
  match type of V with (if Rle_dec 0 ?e then _ else _) = _ => replace e with 0 in V by ring end.
  destruct (Rle_dec 0 0); [|lra]. assert (V' : sqrt 0 = sqrt (4 ^ 2)) by congruence. rewrite sqrt_0, sqrt_pow2 in V'; lra.
Qed.

Lemma ln10_gt1 : 1 < ln 10.
Proof.
  rewrite <- (ln_exp 1). apply ln_increasing; [apply exp_pos|].
  apply Rle_lt_trans with 3; [apply exp_le_3|lra].
Qed.

Theorem log_error_6_refuted :
  good_fit (unit_fit 4 Log) /\ psd (unit_cov 4) /\
  ~ error_propagated (fun r => renormalize_StokesI_model r 10) (unit_fit 4 Log) 5.
Proof.
  split; [apply unit_fit_good; discriminate|]. split; [apply unit_cov_psd; lia|].
  intros H. destruct (H _ (unit_cov 4) eq_refl eq_refl) as (J & G & V).
  cbn [perror nth ref_freq unit_fit] in V. rewrite log10_10 in V.
  assert (J1 : J 4%nat = ln 10).
  { specialize (G 4%nat ltac:(lia)). apply is_derive_unique in G. rewrite <- G. apply is_derive_unique.
    unfold param_after, renormalize_StokesI_model. cbn [Nat.eqb firstn skipn app nth Nat.sub with_params params ref_freq fit_function pcov unit_fit].
    rewrite log10_10. unfold Rpower. auto_derive; auto.
    match goal with |- context[exp ?e] => replace e with 0 by ring end. rewrite exp_0. ring. }
  rewrite unit_cov_pv, J1 in V by lia. unfold unit_cov in V. cbn [Nat.eqb andb] in V.
  destruct (Req_EM_T 1 0); [lra|]. unfold np_sqrt in V.
  match type of V with omult _ (if Rle_dec 0 ?e then _ else _) = _ => replace e with 1 in V by field end.
  destruct (Rle_dec 0 1); [|lra]. cbn [omult option_map] in V.
  assert (V' : forall a b : R, Some a = Some b -> a = b) by congruence. apply V' in V. clear V'. rewrite sqrt_1 in V.
  replace (0 * 1 ^ 5 + 0 * 1 ^ 4 + 0 * 1 ^ 3 + 0 * 1 ^ 2 + 0 * 1) with 0 in V by ring.
  rewrite Rpower_O in V by lra. replace (1 * 1) with 1 in V by ring. rewrite Rabs_R1 in V.
  pose proof ln10_gt1. rewrite sqrt_pow2 in V; lra.
Qed.

(** Errors are right for the amplitude when only the amplitude is uncertain. *)
Theorem log_error_6_amplitude_partial : forall fr new s2, good_fit fr -> fit_function fr = Log ->
  0 <= s2 -> pcov fr = Some (fun i j => s2 * unit_cov 5 i j) -> nth 5 (params fr) 0 <> 0 ->
  error_propagated (fun r => renormalize_StokesI_model r new) fr 5.
Proof.
  intros fr new s2 (H & (cov & Hc) & E & Hr) Ef Hs Hcov Hg fr' cov' R Hc'.
  rewrite Hcov in Hc'. injection Hc' as <-.
  destruct (len6 _ H) as (a & b & c & d & f & g & Hp). rewrite Hp in Hg. cbn [nth] in Hg.
  unfold renormalize_StokesI_model in R. rewrite Hp, Hcov, Ef in R. injection R as <-. cbn [perror].
  set (l := log10 (new / ref_freq fr)).
  set (E0 := a * l ^ 5 + b * l ^ 4 + c * l ^ 3 + d * l ^ 2 + f * l).
  set (P0 := Rpower 10 E0).
  exists (fun k => nth k [g * P0 * (l ^ 5 * ln 10); g * P0 * (l ^ 4 * ln 10); g * P0 * (l ^ 3 * ln 10); g * P0 * (l ^ 2 * ln 10); g * P0 * (l * ln 10); P0] 0).
  rewrite Hp. split.
  - intros k Hk. unfold param_after, renormalize_StokesI_model.
    destruct k as [|[|[|[|[|[|k]]]]]]; try lia; cbn [Nat.eqb firstn skipn app nth Nat.sub with_params params ref_freq fit_function pcov];
    rewrite Ef, Hcov; cbn [params nth]; fold l; unfold P0, Rpower; auto_derive; auto;
    (match goal with |- _ = ?rhs => set (RHS := rhs) end);
    (match goal with |- context[exp ?e] => replace e with (E0 * ln 10) by (unfold E0; ring) end); unfold RHS; ring.
  - cbn [nth]. fold l. fold E0. fold P0.
    destruct (Req_EM_T g 0); [contradiction|].
    match goal with |- omult _ (np_sqrt ?e) = _ => replace e with (s2 / g ^ 2) by (unfold unit_cov; cbn [Nat.eqb andb]; field; auto) end.
    match goal with |- _ = Some (sqrt ?e) => replace e with (s2 * P0 ^ 2) by (expand_pv; unfold unit_cov; cbn [Nat.eqb andb]; ring) end.
    unfold np_sqrt.
    assert (0 <= s2 / g ^ 2). { apply Rdiv_le_0_compat; auto. apply pow2_gt_0; auto. }
    destruct (Rle_dec 0 (s2 / g ^ 2)); [|contradiction]. cbn [omult option_map]. f_equal.
    assert (0 < P0) by apply exp_pos.
    rewrite sqrt_mult_alt by auto. rewrite sqrt_pow2 by lra.
    unfold Rdiv. rewrite sqrt_mult_alt by auto.
    replace (/ g ^ 2) with (Rsqr (/ g)) by (unfold Rsqr; field; auto).
    match goal with |- Rabs (g * ?e) * _ = _ => change e with P0 end.
    rewrite sqrt_Rsqr_abs, Rabs_mult, Rabs_inv. rewrite (Rabs_pos_eq P0) by lra. field. apply Rabs_no_R0; auto.
Qed.

(** The covariance is not updated, so a second renormalisation quotes other
    errors than a direct one. *)
Theorem renormalize_twice_errors_refuted :
  good_fit (unit_fit 4 Linear) /\
  exists fr1 fr2 fr', renormalize_StokesI_model (unit_fit 4 Linear) 2 = POk fr1 /\
    renormalize_StokesI_model fr1 4 = POk fr2 /\
    renormalize_StokesI_model (unit_fit 4 Linear) 4 = POk fr' /\
    nth 4 (perror fr') None = Some 4 /\ nth 4 (perror fr2) None = Some 2.
Proof.
  split; [apply unit_fit_good; discriminate|].
  eexists; eexists; eexists. split; [reflexivity|]. split; [reflexivity|]. split; [reflexivity|].
  cbn [perror nth ref_freq params unit_fit]. unfold unit_cov, np_sqrt; cbn [Nat.eqb andb].
  replace ((4 / 1) ^ 2 * 1) with (4 * 4) by field. replace ((4 / 2) ^ 2 * 1) with (2 * 2) by field.
  destruct (Rle_dec 0 (4 * 4)); [|lra]. destruct (Rle_dec 0 (2 * 2)); [|lra].
  rewrite !sqrt_square by lra. auto.
Qed.
