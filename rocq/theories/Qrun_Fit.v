(** From the data to the sampler, and the endings of a run. *)
From Coq Require Import Reals List Arith ZArith Bool Lra Lia Psatz String Ascii Permutation.
Set Warnings "-ambiguous-paths".
From Coquelicot Require Import Coquelicot.
From Verif Require Import CBase PyRes PyList PyStr PyList_Proofs PyStr_Proofs Synth_Model StokesI_Model StokesI_Spec StokesI_Proofs MpI_Model MpI_Spec Measure_Model Measure_Spec Median_Proofs
  Setup_Spec Setup_Proofs Run1D_Model Run1D_Spec CleanTop_Model QU_Model QU_Spec QU_Proofs QU_Like QU_Extra Qrun_Flat Qrun_Model Qrun_Spec Qrun_Proofs Qrun_Report.
Import ListNotations.
Local Open Scope R_scope.
Local Notation length := List.length.

(** C79: whatever is reported comes from the samples drawn for the fractions *)
Theorem run_reports : forall mpfit sampler cwd inst d num po noI ff r m, run_qufit mpfit sampler cwd inst d num po noI ff = QuDone r ->
  model_found cwd inst num m -> sampler_ok sampler -> proper_priors (f_priors m) -> angles_first (f_priors m) ->
  exists freq iA Q U dI dQ dU IMod q u dq du fr x, input_columns d noI freq iA Q U dI dQ dU /\
    create_frac_spectra mpfit freq iA Q U dI dQ dU po ff None = Some (IMod, q, u, dq, du, fr) /\ u_I r = fr /\
    sampler (fun d => log_likelihood (f_model m) d (map lsq freq) q dq u du) (f_priors m) = Some x /\
    reports (f_priors m) x r /\ goodness m (map lsq freq) q u dq du x r.
Proof.
  intros mpfit sampler cwd inst d num po noI ff r m H Fm So Pp Af.
  destruct (run_done _ _ _ _ _ _ _ _ _ _ H) as (freq & iA & Q & U & dI & dQ & dU & IMod & q & u & dq & du & fr & m' & IC & _ & CF & Fm' & Hf).
  assert (m' = m) by (destruct Fm as [F1|[F1 F2]], Fm' as [G1|[G1 G2]]; congruence). subst m'.
  destruct (fit_done _ _ _ _ _ _ _ _ _ So Pp Af Hf) as (x & lnL & cols & chi & corner & Sx & _).
  destruct (fit_reports _ _ _ _ _ _ _ _ _ _ So Pp Af Hf Sx) as (R1 & R2 & R3).
  exists freq, iA, Q, U, dI, dQ, dU, IMod, q, u, dq, du, fr, x. auto 10.
Qed.

Lemma fit_completes : forall sampler m l2 q u dq du fr x, sampler_ok sampler -> proper_priors (f_priors m) -> angles_first (f_priors m) -> computable m l2 ->
  sampler (fun d => log_likelihood (f_model m) d l2 q dq u du) (f_priors m) = Some x ->
  exists r, fit_fractions sampler m l2 q u dq du fr = QuDone r.
Proof.
  intros sampler m l2 q u dq du fr x So Pp Af Co Sx. destruct (So _ _ _ Sx) as (Lc & Nl & _). unfold fit_fractions. cbv zeta. rewrite Sx, parameters_filter.
  destruct (rmax_list (s_lnl x)) as [lnL|] eqn:El; [|destruct (s_lnl x); [congruence|discriminate]].
  destruct (rotate_columns _ _ _) as [cols|] eqn:Er; [|rewrite rotate_done in Er by auto; discriminate].
  pose proof (rotate_length _ _ _ Pp Af Lc Er) as Lr. rewrite corner_done by auto.
  match goal with |- context [combine (map k_key (parameters (f_priors m))) ?p] => destruct (Co p) as (sp & Hs); [now rewrite !map_length|] end.
  unfold chisq_model. rewrite Hs. cbn [pybind]. eexists. reflexivity.
Qed.

Lemma run_completes : forall mpfit sampler cwd inst d num po noI ff m freq iA Q U dI dQ dU IMod q u dq du fr x,
  parse_data d noI = Some (freq, (iA, dI), (Q, U), (dQ, dU)) -> freq <> [] ->
  create_frac_spectra mpfit freq iA Q U dI dQ dU po ff None = Some (IMod, q, u, dq, du, fr) -> length (params fr) = 6%nat -> fit_function fr <> OtherFun ->
  model_found cwd inst num m -> sampler_ok sampler -> proper_priors (f_priors m) -> angles_first (f_priors m) -> computable m (map lsq freq) ->
  sampler (fun d => log_likelihood (f_model m) d (map lsq freq) q dq u du) (f_priors m) = Some x ->
  exists r, run_qufit mpfit sampler cwd inst d num po noI ff = QuDone r /\ reports (f_priors m) x r /\ goodness m (map lsq freq) q u dq du x r /\ u_I r = fr.
Proof.
  intros mpfit sampler cwd inst d num po noI ff m freq iA Q U dI dQ dU IMod q u dq du fr x P Nf CF P6 Fo Fm So Pp Af Co Sx.
  destruct (fit_completes sampler m (map lsq freq) q u dq du fr x So Pp Af Co Sx) as (r & Hr).
  exists r. split; [|eapply fit_reports; eauto].
  unfold run_qufit. rewrite P. cbv zeta. rewrite CF. destruct freq as [|f0 ft]; [congruence|]. rewrite calc_spec by auto. unfold load_model.
  destruct Fm as [->|[-> ->]]; exact Hr.
Qed.

(** C79: fractional data are fitted as they are *)
Theorem fractional_fit : forall fuel rest sampler cwd inst d num po noI ff m freq Q U dQ dU x,
  fractional_input d noI freq Q U dQ dU -> ff <> OtherFun ->
  model_found cwd inst num m -> sampler_ok sampler -> proper_priors (f_priors m) -> angles_first (f_priors m) -> computable m (map lsq freq) ->
  sampler (fun d => log_likelihood (f_model m) d (map lsq freq) Q dQ U dU) (f_priors m) = Some x ->
  exists r, run_qufit (mpfit_code (S fuel) rest) sampler cwd inst d num po noI ff = QuDone r /\ reports (f_priors m) x r /\ goodness m (map lsq freq) Q U dQ dU x r /\
    params (u_I r) = [0; 0; 0; 0; 0; 1].
Proof.
  intros fuel rest sampler cwd inst d num po noI ff m freq Q U dQ dU x (Hd & Nf & LQ & LU & LdQ & LdU) F Fm So Pp Af Co Sx.
  destruct (fractional_data fuel rest freq Q U dQ dU po ff Nf LQ LU LdQ LdU F) as (fr & CF & P & FF).
  assert (Pd : parse_data d noI = Some (freq, (repeat (Some 1) (length freq), repeat (Some 0) (length freq)), (Q, U), (dQ, dU))).
  { unfold parse_data. destruct Hd as [->|[(I0 & dI0 & ->) ->]]; rewrite LQ; reflexivity. }
  destruct (run_completes _ sampler cwd inst d num po noI ff m freq _ Q U _ dQ dU _ _ _ _ _ fr x Pd Nf CF) as (r & A & B & C & D); auto; try (now rewrite P); try congruence.
  exists r. rewrite D. auto.
Qed.

(** C79: a flat Stokes I divides the data by its level *)
Theorem flat_fit_run : forall fuel rest sampler cwd inst d num po noI ff m freq c Q U dQ dU x,
  flat_input d noI freq c Q U dQ dU -> ff <> OtherFun ->
  model_found cwd inst num m -> sampler_ok sampler -> proper_priors (f_priors m) -> angles_first (f_priors m) -> computable m (map lsq freq) ->
  sampler (fun d => log_likelihood (f_model m) d (map lsq freq) (over c Q) (over c dQ) (over c U) (over c dU)) (f_priors m) = Some x ->
  exists r, run_qufit (mpfit_code (S fuel) rest) sampler cwd inst d num po noI ff = QuDone r /\ reports (f_priors m) x r /\
    goodness m (map lsq freq) (over c Q) (over c U) (over c dQ) (over c dU) x r /\ params (u_I r) = [0; 0; 0; 0; 0; c].
Proof.
  intros fuel rest sampler cwd inst d num po noI ff m freq c Q U dQ dU x (iA & dI & -> & -> & Nc & LI & LdI & LQ & LU & LdQ & LdU & Ng & Us & Hc) F Fm So Pp Af Co Sx.
  destruct (flat_fractions fuel rest freq iA Q U dI dQ dU po ff c LI LdI LQ LU LdQ LdU F Ng Us Hc Nc) as (fr & CF & P & FF).
  assert (Nf : freq <> []) by (intros ->; now apply Ng).
  destruct (run_completes _ sampler cwd inst (Data7 freq iA Q U dI dQ dU) num po false ff m freq iA Q U dI dQ dU _ _ _ _ _ fr x eq_refl Nf CF) as (r & A & B & C & D); auto; try (now rewrite P); try congruence.
  exists r. rewrite D. auto.
Qed.

(** C79: data that the model explains exactly *)
Lemma chi2_zero : forall (d m e : list (option R)), (forall j v, nth_error d j = Some (Some v) -> nth_error m j = Some (Some v)) -> chi2 d m e = 0.
Proof.
  induction d as [|x d IH]; intros m e H; [reflexivity|]. destruct m as [|y m]; [reflexivity|]. destruct e as [|z e]; [reflexivity|].
  unfold chi2 in *. cbn [combine map]. rewrite rsum_cons, IH by (intros j v Hj; apply (H (S j) v Hj)).
  destruct x as [x|]; [|lra]. specialize (H 0%nat x eq_refl). cbn in H. injection H as ->. destruct z as [z|]; [|lra]. unfold Rdiv. rewrite Rminus_diag_eq by reflexivity. ring.
Qed.
Theorem exact_best : forall model d0 sp l2 q u dq du, model d0 l2 = POk sp -> generated sp q u -> errors_ok dq -> errors_ok du ->
  best (fun d => log_likelihood model d l2 q dq u du) d0.
Proof.
  intros model d0 sp l2 q u dq du Hm [Gq Gu] O1 O2.
  assert (Z1 : chi2 q (map re_of sp) dq = 0).
  { apply chi2_zero. intros j v Hj. destruct (Gq j v Hj) as (z & Hz & ->). now rewrite (map_nth_error re_of _ _ Hz). }
  assert (Z2 : chi2 u (map im_of sp) du = 0).
  { apply chi2_zero. intros j v Hj. destruct (Gu j v Hj) as (z & Hz & ->). now rewrite (map_nth_error im_of _ _ Hz). }
  destruct (loglike_difference model d0 d0 sp sp l2 q dq u du Hm Hm O1 O2) as (y0 & _ & E0 & _). exists y0. split; [exact E0|].
  intros d y Hy. destruct (model d l2) as [sp'|] eqn:Hd; [|unfold log_likelihood in Hy; rewrite Hd in Hy; discriminate].
  destruct (loglike_difference model d0 d sp sp' l2 q dq u du Hm Hd O1 O2) as (a & b & Ea & Eb & Df). rewrite Z1, Z2 in Df.
  pose proof (chi2_nonneg q (map re_of sp') dq). pose proof (chi2_nonneg u (map im_of sp') du).
  assert (a = y0) by congruence. assert (b = y) by congruence. subst. lra.
Qed.

Theorem exact_run : forall fuel rest sampler cwd inst d num po noI ff m freq c Q U dQ dU r d0 sp,
  flat_input d noI freq c Q U dQ dU -> ff <> OtherFun -> model_found cwd inst num m -> sampler_ok sampler -> proper_priors (f_priors m) -> angles_first (f_priors m) ->
  run_qufit (mpfit_code (S fuel) rest) sampler cwd inst d num po noI ff = QuDone r ->
  f_model m d0 (map lsq freq) = POk sp -> generated sp (over c Q) (over c U) -> 0 < c -> errors_ok dQ -> errors_ok dU ->
  exists L x, best L d0 /\ sampler L (f_priors m) = Some x /\ reports (f_priors m) x r.
Proof.
  intros fuel rest sampler cwd inst d num po noI ff m freq c Q U dQ dU r d0 sp Fi F Fm So Pp Af H Hm G Cp O1 O2.
  destruct (run_reports _ _ _ _ _ _ _ _ _ _ _ H Fm So Pp Af) as (freq' & iA' & Q' & U' & dI' & dQ' & dU' & IMod & q & u & dq & du & fr & x & IC & CF & _ & Sx & Rp & _).
  destruct Fi as (iA & dI & -> & -> & Nc & LI & LdI & LQ & LU & LdQ & LdU & Ng & Us & Hc).
  assert (E : freq' = freq /\ iA' = iA /\ Q' = Q /\ U' = U /\ dI' = dI /\ dQ' = dQ /\ dU' = dU).
  { destruct IC as [(I0 & dI0 & E & E1 & E2)|[E _]]; [|discriminate]. injection E; intros; subst. auto 10. }
  destruct E as (-> & -> & -> & -> & -> & -> & ->).
  destruct (flat_fractions fuel rest freq iA Q U dI dQ dU po ff c LI LdI LQ LU LdQ LdU F Ng Us Hc Nc) as (fr' & CF' & _).
  rewrite CF in CF'. injection CF' as _ -> -> -> -> _.
  exists (fun d => log_likelihood (f_model m) d (map lsq freq) (over c Q) (over c dQ) (over c U) (over c dU)), x. split; [|auto].
  assert (OK : forall e, errors_ok e -> errors_ok (over c e)).
  { intros e He y Hy. apply in_map_iff in Hy. destruct Hy as ([w|] & Ew & Hw); [|discriminate]. cbn in Ew. injection Ew as <-. apply Rdiv_lt_0_compat; auto. }
  apply (exact_best _ _ sp); auto.
Qed.

(** C79: how a run can end without a result *)
Theorem endings : forall mpfit sampler cwd inst d num po noI ff, let e := run_qufit mpfit sampler cwd inst d num po noI ff in
  (e = QuReturn <-> d = DataOther) /\
  (e = QuExit -> cwd num = Missing /\ forall m, inst num <> Found m) /\
  (forall m inst', cwd num = Found m -> run_qufit mpfit sampler cwd inst' d num po noI ff = e).
Proof.
  intros mpfit sampler cwd inst d num po noI ff e.
  assert (FF : forall m l2 q u dq du fr, fit_fractions sampler m l2 q u dq du fr <> QuReturn /\ fit_fractions sampler m l2 q u dq du fr <> QuExit).
  { intros. unfold fit_fractions. cbv zeta. destruct (sampler _ _); [|split; discriminate]. destruct (rmax_list _); [|split; discriminate]. destruct (rotate_columns _ _ _); [|split; discriminate].
    destruct (chisq_model _ _ _ _ _ _ _); [|split; discriminate]. destruct (corner_columns _ _ _ _); split; discriminate. }
  unfold e, run_qufit. split; [|split].
  - split; [|now intros ->]. destruct (parse_data d noI) as [[[[freq [iA dI]] [Q U]] [dQ dU]]|] eqn:P.
    + intros H. exfalso. cbv zeta in H. destruct (create_frac_spectra _ _ _ _ _ _ _ _ _ _ _) as [[[[[[? ?] ?] ?] ?] ?]|]; [|discriminate].
      destruct freq; [discriminate|]. destruct (calculate_StokesI_model _ _); [|discriminate]. destruct (load_model _ _ _); try discriminate. now apply FF in H.
    + intros _. unfold parse_data in P. destruct d; [destruct noI; discriminate|discriminate|reflexivity].
  - destruct (parse_data d noI) as [[[[freq [iA dI]] [Q U]] [dQ dU]]|]; [|discriminate]. cbv zeta. 
    destruct (create_frac_spectra _ _ _ _ _ _ _ _ _ _ _) as [[[[[[? ?] ?] ?] ?] ?]|]; [|discriminate].
    destruct freq; [discriminate|]. destruct (calculate_StokesI_model _ _); [|discriminate]. unfold load_model.
    destruct (cwd num) eqn:E1; [intros H; exfalso; now apply FF in H| |discriminate]. destruct (inst num) eqn:E2; [intros H; exfalso; now apply FF in H| |]; intros _; split; auto; discriminate.
  - intros m inst' E. unfold load_model. rewrite E. reflexivity.
Qed.

Theorem no_model : forall fuel rest sampler cwd inst d num po noI ff freq Q U dQ dU, fractional_input d noI freq Q U dQ dU -> ff <> OtherFun ->
  let e := run_qufit (mpfit_code (S fuel) rest) sampler cwd inst d num po noI ff in
  (cwd num = Missing -> (forall m, inst num <> Found m) -> e = QuExit) /\ (cwd num = Broken -> e = QuRaise).
Proof.
  intros fuel rest sampler cwd inst d num po noI ff freq Q U dQ dU (Hd & Nf & LQ & LU & LdQ & LdU) F e.
  destruct (fractional_data fuel rest freq Q U dQ dU po ff Nf LQ LU LdQ LdU F) as (fr & CF & P & FF).
  assert (Pd : parse_data d noI = Some (freq, (repeat (Some 1) (length freq), repeat (Some 0) (length freq)), (Q, U), (dQ, dU))).
  { unfold parse_data. destruct Hd as [->|[(I0 & dI0 & ->) ->]]; rewrite LQ; reflexivity. }
  unfold e, run_qufit. rewrite Pd. cbv zeta. rewrite CF. destruct freq as [|f0 ft]; [congruence|]. rewrite calc_spec by (rewrite ?P; congruence || reflexivity). unfold load_model.
  split; [|now intros ->]. intros -> N. destruct (inst num) as [m| |]; [now destruct (N m)| |]; reflexivity.
Qed.
