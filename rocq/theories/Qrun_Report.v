(** What the QU-fitting tool reports: values, errors, criteria, corner plot. *)
From Coq Require Import Reals List Arith ZArith Bool Lra Lia Psatz String Ascii Permutation.
Set Warnings "-ambiguous-paths".
From Coquelicot Require Import Coquelicot.
From Verif Require Import CBase PyRes PyList PyStr PyList_Proofs PyStr_Proofs Synth_Model StokesI_Model Measure_Model Measure_Spec Median_Proofs Setup_Spec Setup_Proofs
  Run1D_Model Run1D_Spec CleanTop_Model QU_Model QU_Spec QU_Proofs QU_Like QU_Extra Qrun_Model Qrun_Spec Qrun_Proofs.
Import ListNotations.
Local Open Scope R_scope.
Local Notation length := List.length.

Lemma run_done : forall mpfit sampler cwd inst d num po noI ff r, run_qufit mpfit sampler cwd inst d num po noI ff = QuDone r ->
  exists freq iA Q U dI dQ dU IMod q u dq du fr m, input_columns d noI freq iA Q U dI dQ dU /\ freq <> [] /\
    create_frac_spectra mpfit freq iA Q U dI dQ dU po ff None = Some (IMod, q, u, dq, du, fr) /\ model_found cwd inst num m /\
    fit_fractions sampler m (map lsq freq) q u dq du fr = QuDone r.
Proof.
  intros mpfit sampler cwd inst d num po noI ff r H. unfold run_qufit in H.
  destruct (parse_data d noI) as [[[[freq [iA dI]] [Q U]] [dQ dU]]|] eqn:P; [|discriminate].
  destruct (create_frac_spectra _ _ _ _ _ _ _ _ _ _ _) as [[[[[[IMod q] u] dq] du] fr]|] eqn:F; [|discriminate].
  assert (IC : input_columns d noI freq iA Q U dI dQ dU).
  { unfold parse_data in P. destruct d as [f i0 Q0 U0 dI0 dQ0 dU0|f Q0 U0 dQ0 dU0|]; [|right; injection P; intros; subst; auto|discriminate].
    left. exists i0, dI0. destruct noI; injection P; intros; subst; auto. }
  destruct freq as [|f0 ft]; [discriminate|]. set (freq := f0 :: ft) in *.
  destruct (calculate_StokesI_model fr freq) as [x|] eqn:C; [|discriminate]. unfold load_model in H.
  exists freq, iA, Q, U, dI, dQ, dU, IMod, q, u, dq, du, fr.
  destruct (cwd num) as [m| |] eqn:E1; [| |discriminate].
  - exists m. split; [exact IC|]. split; [discriminate|]. split; [exact F|]. split; [now left|]. exact H.
  - destruct (inst num) as [m| |] eqn:E2; try discriminate.
    exists m. split; [exact IC|]. split; [discriminate|]. split; [exact F|]. split; [right; auto|]. exact H.
Qed.

(** the inner part, opened *)
Lemma fit_done : forall sampler m l2 q u dq du fr r, sampler_ok sampler -> proper_priors (f_priors m) -> angles_first (f_priors m) ->
  fit_fractions sampler m l2 q u dq du fr = QuDone r ->
  exists x lnL cols chi corner, sampler (fun d => log_likelihood (f_model m) d l2 q dq u du) (f_priors m) = Some x /\ rmax_list (s_lnl x) = Some lnL /\
    let ks := f_priors m in let ps := parameters ks in
    let sm := map (fun k => summary [as_param k (post ks (s_cols x) k)] (as_param k (post ks (s_cols x) k))) ps in
    let p := map (fun y => fst (fst y)) sm in
    let nFree := INR (length (varied ks)) in let nData := 2 * INR (length l2) in let dof := nData - nFree - 1 in
    rotate_columns ks ps (s_cols x) = POk cols /\
    chisq_model (f_model m) (combine (map k_key ps) p) l2 q dq u du = POk chi /\
    corner_columns ps (rotated ks ps (s_cols x)) p cols = POk corner /\
    r = mk_qu (map k_key ps) (map k_class ps) (map (fun k => (k_min k, k_max k)) ps)
          (mk_qufit p (map (fun y => snd (fst y)) sm) (map snd sm) dof chi
            (match chi with Some c => odiv (Some c) (Some dof) | None => None end) (2 * nFree - 2 * lnL)
            (match odiv (Some (2 * nFree * (nFree + 1))) (Some (nData - nFree - 1)) with Some y => Some (y - 2 * lnL) | None => None end)
            (nFree * ln nData - 2 * lnL)) (length (varied ks)) (s_lnZ x) (s_dlnZ x) fr corner.
Proof.
  intros sampler m l2 q u dq du fr r So Pp Af H. unfold fit_fractions in H. cbv zeta in H.
  destruct (sampler _ (f_priors m)) as [x|] eqn:Sx; [|discriminate]. destruct (So _ _ _ Sx) as (Lc & _ & _).
  rewrite parameters_filter in H. destruct (rmax_list (s_lnl x)) as [lnL|] eqn:El; [|discriminate].
  destruct (rotate_columns _ _ _) as [cols|] eqn:Er; [|discriminate].
  rewrite free_varied in H.
  assert (Esm : map (fun k => reported (in_names (k_key k) (rotated (f_priors m) (parameters (f_priors m)) (s_cols x))) (post (f_priors m) cols k)) (parameters (f_priors m)) =
    map (fun k => summary [as_param k (post (f_priors m) (s_cols x) k)] (as_param k (post (f_priors m) (s_cols x) k))) (parameters (f_priors m))).
  { apply map_ext_in. intros k Hk. rewrite in_rotated' by (auto; apply Pp). rewrite (post_after _ (s_cols x) cols k Pp Af Lc Er Hk). apply reported_summary. }
  rewrite Esm in H.
  destruct (chisq_model _ _ _ _ _ _ _) as [chi|] eqn:Ec; [|discriminate].
  destruct (corner_columns _ _ _ _) as [corner|] eqn:Eo; [|discriminate].
  injection H as H. exists x, lnL, cols, chi, corner. split; [reflexivity|]. split; [exact El|]. cbv zeta.
  split; [exact Er|]. split; [exact Ec|]. split; [exact Eo|]. symmetry. exact H.
Qed.

Lemma quantile_single : forall f v, 0 <= f <= 1 -> quantile f [v] = v.
Proof.
  intros f v Hf. unfold quantile. cbn [length Nat.sub INR]. rewrite Rmult_0_r.
  assert (Rfloor 0 = 0%Z) as -> by (apply Rfloor_unique; cbn; lra). cbn. ring.
Qed.

Lemma nth_error_map3 : forall {A B} (f : A -> B) l i a, nth_error l i = Some a -> nth_error (map f l) i = Some (f a).
Proof. intros. now apply map_nth_error. Qed.


Lemma Rleb_t : forall a b, Rleb a b = true <-> a <= b.
Proof. intros. unfold Rleb. destruct (Rle_dec a b); split; intros; auto; try discriminate; try contradiction. Qed.

Lemma count_or : forall (P Q : R -> bool) l, (forall y, In y l -> P y = true -> Q y = true -> False) -> (count P l + count Q l <= length l)%nat.
Proof.
  induction l as [|y l IH]; intros H; [cbn; lia|]. unfold count in *. cbn [filter length].
  assert (IHl : (length (filter P l) + length (filter Q l) <= length l)%nat) by (apply IH; intros z Hz; apply H; now right).
  specialize (H y (or_introl eq_refl)). destruct (P y), (Q y); cbn [length]; try lia; exfalso; auto.
Qed.
Lemma count_map : forall (P : R -> bool) f l, count P (map f l) = count (fun y => P (f y)) l.
Proof. induction l as [|y l IH]; [reflexivity|]. unfold count in *. cbn [map filter]. destruct (P (f y)); cbn [length]; rewrite IH; reflexivity. Qed.

(** the reported angle is the median of the samples as plotted *)
Lemma corner_median : forall col m0, (forall y, In y col -> 0 <= y < 180) -> Nat.even (length col) = false -> median col = Some m0 -> (m0 < 45 \/ 135 <= m0) ->
  let m := quantile (/ 2) (map rotate90 col) in let v := m - 90 * 1 + 180 * (if Rltb (m - 90 * 1) 0 then 1 else 0) * 1 in
  v <> 135 -> median (map (fun y => if Rltb 135 v then y - 90 + 180 else y - 90) (map rotate90 col)) = Some v.
Proof.
  intros col m0 Rg Od Hm Hm0 m v Nv.
  assert (Nc : col <> []) by (intros ->; discriminate). assert (Nr : map rotate90 col <> []) by (intros E; apply map_eq_nil in E; contradiction).
  pose proof (quantile_half _ Nr) as Qm. fold m in Qm.
  assert (Mb : 0 <= m <= 180).
  { apply (median_bounds (map rotate90 col)); [exact Qm|]. intros y Hy. apply in_map_iff in Hy. destruct Hy as (z & <- & Hz). destruct (rotate90_spec z (Rg z Hz)). lra. }
  assert (Mv : forall c, median (map (fun y => y - 90 + c) (map rotate90 col)) = Some (m - 90 + c)).
  { intros c. rewrite (map_ext (fun y => y - 90 + c) (fun y => 1 * y + (c - 90))) by (intros; ring). rewrite median_affine, Qm. cbn. f_equal. ring. }
  unfold Rltb. destruct (Rlt_dec 135 v) as [B|B].
  - rewrite Mv. f_equal. unfold v, Rltb in *. destruct (Rlt_dec (m - 90 * 1) 0); lra.
  - rewrite (map_ext _ (fun y => y - 90 + 0)) by (intros; ring). rewrite Mv. f_equal. unfold v, Rltb in *. destruct (Rlt_dec (m - 90 * 1) 0) as [Lm|]; [|ring]. exfalso.
    assert (Sm : m < 45) by lra.
    destruct (median_halves _ _ Qm) as [H1 _]. rewrite map_length, count_map in H1.
    destruct (median_halves _ _ Hm) as [H2 H3]. pose proof (odd_half _ Od).
    destruct Hm0 as [Lo|Hi].
    + assert (count (fun y => Rleb (rotate90 y) m) col + count (fun y => Rleb y m0) col <= length col)%nat as K; [|lia].
      apply count_or. intros y Hy P1 P2. apply Rleb_t in P1, P2. unfold rotate90, Rleb in P1. specialize (Rg y Hy). destruct (Rle_dec 180 (y + 90)); lra.
    + assert (count (fun y => Rleb (rotate90 y) m) col + count (fun y => Rleb m0 y) col <= length col)%nat as K; [|lia].
      apply count_or. intros y Hy P1 P2. apply Rleb_t in P1, P2. unfold rotate90, Rleb in P1. specialize (Rg y Hy). destruct (Rle_dec 180 (y + 90)); lra.
Qed.

Lemma rotated_short : forall ks cols i, proper_priors ks -> angles_first ks -> length cols = length (varied ks) -> (i < length (parameters ks))%nat ->
  in_names (k_key (nth i (parameters ks) no_prior)) (rotated ks (parameters ks) cols) = true -> (i < length (varied ks))%nat.
Proof.
  intros ks cols i Pp Af L Hi T. rewrite in_rotated' in T by (try apply Pp; apply nth_In; auto). apply rotates_angle in T.
  destruct (angle_place ks i _ Pp Af (nth_error_nth' _ no_prior Hi) T) as [_ H]. apply nth_error_Some. congruence.
Qed.

Lemma rotate_length : forall ks cols cols', proper_priors ks -> angles_first ks -> length cols = length (varied ks) ->
  rotate_columns ks (parameters ks) cols = POk cols' -> length cols' = length cols.
Proof. intros ks cols cols' Pp Af L E. rewrite rotate_done in E by auto. injection E as <-. rewrite map_length, seq_length. reflexivity. Qed.

Lemma corner_done : forall ks p cols cols', proper_priors ks -> angles_first ks -> length cols = length (varied ks) -> length cols' = length cols ->
  corner_columns (parameters ks) (rotated ks (parameters ks) cols) p cols' =
  POk (map (fun j => if (Nat.ltb j (length (parameters ks)) && in_names (k_key (nth j (parameters ks) no_prior)) (rotated ks (parameters ks) cols))%bool
     then map (fun x => if Rltb 135 (nth j p 0) then x - 90 + 180 else x - 90) (nth j cols' []) else nth j cols' []) (seq 0 (length cols'))).
Proof.
  intros ks p cols cols' Pp Af L L'. unfold corner_columns.
  apply (fold_upd (fun i => in_names (k_key (nth i (parameters ks) no_prior)) (rotated ks (parameters ks) cols))
    (fun i => map (fun x => if Rltb 135 (nth i p 0) then x - 90 + 180 else x - 90))).
  intros i Hi T. rewrite L', L. now apply (rotated_short ks cols).
Qed.

(** what the corner plot shows of a varied parameter *)
Lemma corner_column : forall ks p cols cols' k i, proper_priors ks -> angles_first ks -> length cols = length (varied ks) ->
  rotate_columns ks (parameters ks) cols = POk cols' -> nth_error (varied ks) i = Some k ->
  nth i (map (fun j => if (Nat.ltb j (length (parameters ks)) && in_names (k_key (nth j (parameters ks) no_prior)) (rotated ks (parameters ks) cols))%bool
     then map (fun x => if Rltb 135 (nth j p 0) then x - 90 + 180 else x - 90) (nth j cols' []) else nth j cols' []) (seq 0 (length cols'))) [] =
  if to_rotate (as_param k (nth i cols [])) then map (fun x => if Rltb 135 (nth i p 0) then x - 90 + 180 else x - 90) (map rotate90 (nth i cols [])) else nth i cols [].
Proof.
  intros ks p cols cols' k i Pp Af L Er Hi. pose proof (rotate_length _ _ _ Pp Af L Er) as L'.
  assert (Li : (i < length (varied ks))%nat) by (apply nth_error_Some; congruence). rewrite nth_map_seq by lia.
  assert (Kp : In k (parameters ks)) by (apply nth_error_In in Hi; rewrite varied_parameters in Hi; apply filter_In in Hi; tauto).
  pose proof (post_after ks cols cols' k Pp Af L Er Kp) as PA. rewrite !(post_varied ks _ k i) in PA by auto.
  destruct (to_rotate (as_param k (nth i cols []))) eqn:T.
  - destruct (In_nth_error _ _ Kp) as (j & Hj). destruct (angle_place ks j k Pp Af Hj (rotates_angle _ _ T)) as [_ Hj'].
    assert (j = i). { assert (NoDup (varied ks)) as N2 by (apply (NoDup_map_inv k_key), NoDup_filter_map, Pp). apply (proj1 (NoDup_nth_error _) N2); [apply nth_error_Some; congruence|congruence]. }
    subst j. assert (Lp : (i < length (parameters ks))%nat) by (apply nth_error_Some; congruence). rewrite (proj2 (Nat.ltb_lt _ _) Lp).
    rewrite (nth_error_nth _ _ no_prior Hj), in_rotated' by (auto; apply Pp). rewrite (post_varied ks cols k i) by auto. rewrite T, PA. reflexivity.
  - destruct (Nat.ltb_spec i (length (parameters ks))) as [Lp|]; [|cbn [andb]; exact PA]. cbn [andb].
    destruct (in_names _ _) eqn:N; [|exact PA]. exfalso. rewrite in_rotated' in N by (try apply Pp; apply nth_In; auto). pose proof (rotates_angle _ _ N) as An.
    destruct (angle_place ks i _ Pp Af (nth_error_nth' _ no_prior Lp) An) as [_ H]. assert (nth i (parameters ks) no_prior = k) as Ek by congruence.
    rewrite Ek, (post_varied ks cols k i) in N by auto. congruence.
Qed.

(** C79: the report by the samples *)
Lemma fit_reports : forall sampler m l2 q u dq du fr r x, sampler_ok sampler -> proper_priors (f_priors m) -> angles_first (f_priors m) ->
  fit_fractions sampler m l2 q u dq du fr = QuDone r ->
  sampler (fun d => log_likelihood (f_model m) d l2 q dq u du) (f_priors m) = Some x ->
  reports (f_priors m) x r /\ goodness m l2 q u dq du x r /\ u_I r = fr.
Proof.
  intros sampler m l2 q u dq du fr r x So Pp Af Hf Sx.
  destruct (fit_done _ _ _ _ _ _ _ _ _ So Pp Af Hf) as (x' & lnL & cols & chi & corner & Sx' & El & E). rewrite Sx in Sx'. injection Sx' as <-.
  cbv zeta in E. destruct E as (Er & Ec & Eo & ->).
  destruct (So _ _ _ Sx) as (Lc & _ & Ne). pose proof (rotate_length _ _ _ Pp Af Lc Er) as Lr. rewrite corner_done in Eo by auto. apply POk_inj' in Eo.
  split; [|split; [|reflexivity]].
  - unfold reports. cbn [u_names u_nFree u_lnZ u_dlnZ u_corner]. do 4 (split; [reflexivity|]). split; [rewrite <- Eo, map_length, seq_length; lia|].
    intros k Hk. destruct (In_nth_error _ _ Hk) as (i & Hi).
    set (a := as_param k (post (f_priors m) (s_cols x) k)).
    assert (Hs : nth_error (map (fun k => summary [as_param k (post (f_priors m) (s_cols x) k)] (as_param k (post (f_priors m) (s_cols x) k))) (parameters (f_priors m))) i = Some (summary [a] a)).
    { apply (nth_error_map3 (fun k => summary [as_param k (post (f_priors m) (s_cols x) k)] (as_param k (post (f_priors m) (s_cols x) k)))). exact Hi. }
    exists (fst (fst (summary [a] a))), (snd (fst (summary [a] a))), (snd (summary [a] a)). split; [|split].
    + exists i. cbn [u_names u_fit q_values q_plus q_minus]. split; [now apply map_nth_error|].
      split; [|split]; [apply (nth_error_map3 (fun y => fst (fst y)))|apply (nth_error_map3 (fun y => snd (fst y)))|apply (nth_error_map3 snd)]; exact Hs.
    + intros Ck. assert (In k (f_priors m)) as Ik by (unfold parameters in Hk; apply filter_In in Hk; tauto).
      assert (Ecl : pa_col a = [k_min k]) by (unfold a, as_param; cbn [pa_col]; apply post_fixed; auto; congruence).
      assert (T : to_rotate a = false).
      { destruct (to_rotate a) eqn:T; [|reflexivity]. apply rotates_angle in T. destruct T as (_ & T1 & T2 & _). destruct Pp as [_ Fx]. specialize (Fx k Ik Ck). lra. }
      unfold summary, posterior. rewrite (in_rotated [a] a); [|constructor; [intros []|constructor]|now left]. rewrite T, Ecl. cbv zeta. cbn [fst snd].
      rewrite !quantile_single by lra. split; [|split]; lra.
    + intros j col Hj Hc. exists (nth j corner []). split.
      { apply nth_error_nth'. rewrite <- Eo, map_length, seq_length, Lr. apply nth_error_Some. congruence. }
      assert (Ek : nth j (s_cols x) [] = col) by (now apply nth_error_nth).
      assert (Ecl : pa_col a = col) by (unfold a, as_param; cbn [pa_col]; rewrite (post_varied _ _ _ j) by auto; exact Ek).
      assert (Nc : pa_col a <> []) by (rewrite Ecl; apply Ne; eapply nth_error_In; eauto).
      assert (ND : NoDup (map pa_name [a])) by (constructor; [intros []|constructor]).
      assert (Eb : 0 <= snd (fst (summary [a] a)) /\ 0 <= snd (summary [a] a)).
      { apply (error_bars_nonneg [a] a (fst (fst (summary [a] a))) _ _ Nc). destruct (summary [a] a) as [[? ?] ?]. reflexivity. }
      assert (Ea : as_param k (nth j (s_cols x) []) = a) by (unfold a; rewrite (post_varied _ _ _ j) by auto; reflexivity).
      rewrite <- Eo, (corner_column _ _ (s_cols x) cols k j Pp Af Lc Er Hj), Ea, Ek. split.
      * intros Na. assert (T : to_rotate a = false).
        { destruct (to_rotate a) eqn:T; [|reflexivity]. exfalso. apply Na, (rotates_angle _ _ T). }
        rewrite T. rewrite <- Ecl. split; [|split; [apply Eb|split; [apply Eb|reflexivity]]]. rewrite quantile_half by auto. f_equal. symmetry. apply plain_reported; auto; try (now left). now apply quantile_half.
      * intros An Rg. rewrite <- Ecl in *. split; [|split; [|split]].
        -- destruct (angle_reported [a] a (quantile (/ 2) (pa_col a)) ND (or_introl eq_refl) An Rg (quantile_half _ Nc)) as (o & offs & mm & A1 & A2 & A3 & A4 & A5 & A6).
           exists (quantile (/ 2) (pa_col a)), o, offs, mm. split; [now apply quantile_half|]. auto 10.
        -- destruct (error_bars_spec [a] a (fst (fst (summary [a] a))) (snd (fst (summary [a] a))) (snd (summary [a] a)) Nc Rg) as (o & pp & lo & mid & hi & B);
             [destruct (summary [a] a) as [[? ?] ?]; reflexivity|]. exists o, pp, lo, mid, hi. exact B.
        -- destruct (to_rotate a).
           ++ clear -Rg. induction (pa_col a) as [|y t IH]; [constructor|]. cbn [map]. constructor; [|apply IH; intros z Hz; apply Rg; now right].
              destruct (rotate90_spec y) as [_ (z & Ez)]; [apply Rg; now left|]. rewrite Ez. destruct (Rltb _ _); [exists z|exists (z - 1)%Z; rewrite minus_IZR]; ring.
           ++ clear. induction (pa_col a); constructor; auto. exists 0%Z. ring.
        -- intros Od Nv. destruct (angle_place _ i k Pp Af Hi An) as [_ Hi'].
           assert (i = j). { assert (NoDup (varied (f_priors m))) as N2 by (apply (NoDup_map_inv k_key), NoDup_filter_map, Pp). apply (proj1 (NoDup_nth_error _) N2); [apply nth_error_Some; congruence|congruence]. }
           subst j. unfold summary in *. rewrite (in_rotated [a] a ND (or_introl eq_refl)) in *. unfold posterior in *. cbv zeta in *. cbn [fst] in *.
           destruct (to_rotate a) eqn:T.
           ++ rewrite (nth_error_nth _ i 0 (nth_error_map3 (fun y => fst (fst y)) _ i _ Hs)). cbn [fst].
              apply (corner_median (pa_col a) (quantile (/ 2) (pa_col a)) Rg Od (quantile_half _ Nc)); [|exact Nv].
              apply (to_rotate_spec a _ An (quantile_half _ Nc)). exact T.
           ++ rewrite quantile_half by auto. f_equal. ring.
  - exists lnL. split; [now apply rmax_list_spec|]. cbn [u_fit u_names q_AIC q_BIC q_AICc q_dof q_chiSq q_chiSqRed q_values].
    do 2 (split; [reflexivity|]). split; [|split; [reflexivity|]].
    + intros N. unfold odiv. destruct (Req_EM_T _ 0); [contradiction|reflexivity].
    + intros sp Hsp O1 O2. rewrite (chisq_value _ _ sp) in Ec by auto. apply POk_inj' in Ec. subst chi. eexists. split; [reflexivity|]. split; [reflexivity|].
      intros N. unfold odiv. destruct (Req_EM_T _ 0); [contradiction|reflexivity].
Qed.
