(** The 1-D CLEAN tool. *)
From Coq Require Import Reals List Arith ZArith Bool Lra Lia.
Set Warnings "-ambiguous-paths".
From Coquelicot Require Import Coquelicot.
From Verif Require Import CBase NdArray PyRes PyList PyList_Proofs Setup_Spec Setup_Proofs Synth_Model StokesI_Model Synth_Spec Clean_Model Clean_Spec Clean_Proofs Clean_Laws Clean_Grid Clean_More Clean_Total CleanTop_Model Measure_Model Measure_Spec Measure_Proofs Measure_Laws Sigma_Proofs Run1D_Model Run1D_Spec Cl1_Model Cl1_Spec.
Import ListNotations.
Local Open Scope R_scope.

Lemma has_spec_map : forall a l, length a = length l -> has_spec 1 0 a l -> a = map Some l.
Proof.
  intros a l L H. apply nth_ext with (d := None) (d' := None); [now rewrite map_length|]. intros k Hk.
  rewrite (nth_map_lt _ _ _ _ czero) by lia. rewrite <- H by lia. f_equal. lia.
Qed.
Lemma map_has_spec : forall l, has_spec 1 0 (map Some l) l.
Proof. intros l k Hk. replace (k * 1 + 0)%nat with k by lia. now rewrite (nth_map_lt _ _ _ _ czero) by lia. Qed.

Lemma hogbom_lengths : forall dirty phi RMSF phi2 fwhm cutoff maxIter gain window r,
  do_rmclean_hogbom (mk_nd [length dirty] dirty) phi RMSF phi2 fwhm cutoff maxIter gain None None window = CRetOk r ->
  length phi = length dirty /\ length (flat (cleanFDF r)) = length phi /\ length (flat (ccArr r)) = length phi /\ length (flat (residFDF r)) = length phi.
Proof.
  intros dirty phi RMSF phi2 fwhm cutoff maxIter gain window r H. unfold do_rmclean_hogbom in H. cbn [shape nth tl] in H.
  destruct (Nat.eqb_spec (length phi) (length dirty)) as [E|]; [|discriminate H]. split; [exact E|]. cbn [negb] in H.
  repeat match type of H with (if ?b then CRetNone4 else _) = _ => destruct b; [discriminate|] end.
  destruct (run_all _ _) as [outs|]; [|discriminate]. injection H as <-. cbn [flat cleanFDF ccArr residFDF squeeze].
  rewrite map_length, combine_length, !length_tab2. cbn. repeat split; lia.
Qed.

Lemma level_o_threshold : forall noise x t, threshold noise x t -> level_o noise x = Some t.
Proof.
  intros noise x t [[H ->]|[H (n & -> & ->)]]; unfold level_o; destruct (Rlt_dec x 0); try lra; [reflexivity|].
  unfold omul, o2. rewrite Rabs_left by lra. f_equal. ring.
Qed.

Section Tool.
  Variables (i : clean_in) (d rm : list C) (fw : R) (imax : nat).
  Hypothesis G : clean_input i d rm fw imax.
  Variables (cutoff : R) (maxIter : nat) (gain : R) (window : option R).

  Let cut := match level_o (ci_dFDFth i) cutoff with Some c => c | None => maxabs (map nan_to_num (ci_FDF i)) + 1 end.
  Let win := match window with None => None | Some w => level_o (ci_dFDFth i) w end.

  Lemma tool_hogbom : exists r, do_rmclean_hogbom (mk_nd [length (ci_FDF i)] (ci_FDF i)) (ci_phi i) (mk_nd [length (ci_RMSF i)] (ci_RMSF i)) (ci_phi2 i)
          [ci_fwhm i] cut maxIter gain None None win = CRetOk r.
  Proof.
    destruct G as (E1 & E2 & E3 & _ & Ld & Lr & H3 & H2 & HP & HR). rewrite E1, E2, E3, !map_length, Ld.
    apply (rmclean_1d_total d (ci_phi i) rm (ci_phi2 i) fw cut maxIter gain win imax Ld Lr ltac:(lia) H2 HP HR).
  Qed.

  (** the output as what the CLEAN routine returns *)
  Lemma tool_inv : forall out, run_rmclean i cutoff maxIter gain window = POk out ->
    exists r, do_rmclean_hogbom (mk_nd [length (ci_FDF i)] (ci_FDF i)) (ci_phi i) (mk_nd [length (ci_RMSF i)] (ci_RMSF i)) (ci_phi2 i)
          [ci_fwhm i] cut maxIter gain None None win = CRetOk r /\
      k_clean out = flat (cleanFDF r) /\ k_cc out = flat (ccArr r) /\ k_resid out = flat (residFDF r) /\
      k_nIter out = nth 0 (flat (iterCountArr r)) 0%nat /\ k_cutoff out = level_o (ci_dFDFth i) cutoff /\
      measure_FDF_parms (k_clean out) (ci_phi i) (ci_fwhm i) (Some (ci_dFDFth i)) (map (fun f => (299792458 / f) ^ 2) (ci_freq i)) (ci_lam0 i) 5 = POk (k_parms out) /\
      ci_dFDFth i <> Some 0 /\ k_mom2 out = fdf_complexity (ci_phi i) (k_cc out) /\
      k_dAmp out = dFDFcorMAD (k_parms out) /\
      k_dPhi out = odiv (omul (dPhiPeakPIfit (k_parms out)) (dFDFcorMAD (k_parms out))) (ci_dFDFth i) /\
      k_dAngle out = odiv (omul (dPolAngleFit_deg (k_parms out)) (dFDFcorMAD (k_parms out))) (ci_dFDFth i) /\
      k_dAngle0 out = odiv (omul (dPolAngle0Fit_deg (k_parms out)) (dFDFcorMAD (k_parms out))) (ci_dFDFth i).
  Proof.
    intros out H. unfold run_rmclean in H. fold cut in H. fold win in H. destruct tool_hogbom as [r Er]. rewrite Er in H. exists r. split; [exact Er|].
    unfold c_light in H. destruct (measure_FDF_parms _ _ _ _ _ _ _) as [m|] eqn:Em; [|discriminate]. cbn [pybind] in H.
    assert (N0 : ci_dFDFth i <> Some 0) by (intros E; rewrite E in H; destruct (Req_EM_T 0 0); [discriminate|contradiction]).
    destruct (ci_dFDFth i) as [n|] eqn:En; [destruct (Req_EM_T n 0) as [->|_]; [discriminate|]|]; injection H as <-; cbn; rewrite ?Em; repeat split; auto.
  Qed.

  Lemma tool_lengths : forall r, do_rmclean_hogbom (mk_nd [length (ci_FDF i)] (ci_FDF i)) (ci_phi i) (mk_nd [length (ci_RMSF i)] (ci_RMSF i)) (ci_phi2 i)
          [ci_fwhm i] cut maxIter gain None None win = CRetOk r ->
    length (flat (cleanFDF r)) = length (ci_phi i) /\ length (flat (ccArr r)) = length (ci_phi i) /\ length (flat (residFDF r)) = length (ci_phi i).
  Proof. intros r Er. apply hogbom_lengths in Er. tauto. Qed.

  Lemma maxabs_up : 0 < maxabs (map nan_to_num (ci_FDF i)) + 1.
  Proof. pose proof (maxabs_nonneg (map nan_to_num (ci_FDF i))). lra. Qed.

  (** a sample cannot reach more than the largest one *)
  Lemma not_reached : forall c, maxabs (map nan_to_num (ci_FDF i)) < c -> reaches 1 (length (ci_phi i)) 0 (ci_FDF i) c = false.
  Proof.
    intros c Hc. apply not_true_is_false. intros H. apply existsb_exists in H. destruct H as (k & Ik & Hk). apply in_seq in Ik.
    replace (k * 1 + 0)%nat with k in Hk by lia. destruct (nth k (ci_FDF i) None) as [z|] eqn:E; [|discriminate]. destruct (Rle_dec c (Cmod z)) as [L|]; [|discriminate].
    assert (Lk : (k < length (ci_FDF i))%nat) by (destruct (Nat.lt_ge_cases k (length (ci_FDF i))); auto; rewrite nth_overflow in E by auto; discriminate).
    pose proof (maxabs_ge (map nan_to_num (ci_FDF i)) z) as M. specialize (M ltac:(apply in_map_iff; exists (Some z); split; [reflexivity|rewrite <- E; now apply nth_In])). lra.
  Qed.

  (** everything finite *)
  Lemma tool_finite : (exists t, threshold (ci_dFDFth i) cutoff t /\ 0 < t) \/ (ci_dFDFth i = None /\ cutoff < 0) ->
    forall out, run_rmclean i cutoff maxIter gain window = POk out -> exists res comp clean,
    length res = length (ci_phi i) /\ length comp = length (ci_phi i) /\ length clean = length (ci_phi i) /\
    k_resid out = map Some res /\ k_cc out = map Some comp /\ k_clean out = map Some clean /\
    forall j, (j < length (ci_phi i))%nat ->
      nth j d czero = (nth j res czero + response rm imax comp j)%C /\
      nth j clean czero = (restored fw (ci_phi i) comp j + nth j res czero)%C.
  Proof.
    intros HT out RUN. destruct (tool_inv out RUN) as (r & Er & -> & -> & -> & _).
    destruct (tool_lengths r Er) as (L1 & L2 & L3). destruct G as (E1 & E2 & E3 & Hfw & Ld & Lr & H3 & H2 & HP & HR).
    assert (HC : 0 < cut).
    { unfold cut. destruct HT as [(t & HT & Ht)|[HN Hc]]; [now rewrite (level_o_threshold _ _ _ HT)|]. unfold level_o. rewrite HN. destruct (Rlt_dec cutoff 0); [|lra]. cbn. apply maxabs_up. }
    destruct (rmclean_conserves_restores _ _ _ _ _ _ _ _ _ _ _ _ 0 d rm fw imax Er HC Logic.I ltac:(cbn; lia) Ld Lr) as (res & comp & clean & R1 & R2 & R3 & S1 & S2 & S3 & F); auto.
    - cbn. rewrite E1. apply map_has_spec.
    - cbn. rewrite E2. apply map_has_spec.
    - exists res, comp, clean. do 3 (split; [assumption|]). split; [apply has_spec_map; [lia|exact S1]|]. split; [apply has_spec_map; [lia|exact S2]|]. split; [apply has_spec_map; [lia|exact S3]|]. exact F.
  Qed.
End Tool.

(** ** The tool ends *)
Theorem clean_tool_ends : forall i d rm fw imax, clean_input i d rm fw imax -> ci_dFDFth i <> Some 0 ->
  forall cutoff maxIter gain window,
  (exists t, threshold (ci_dFDFth i) cutoff t /\ 0 < t) \/ (ci_dFDFth i = None /\ cutoff < 0) ->
  exists out, run_rmclean i cutoff maxIter gain window = POk out.
Proof.
  intros i d rm fw imax G N0 cutoff maxIter gain window HT. destruct (tool_hogbom i d rm fw imax G cutoff maxIter gain window) as [r Er].
  destruct (hogbom_lengths _ _ _ _ _ _ _ _ _ _ Er) as (_ & L1 & _).
  pose proof G as (E1 & E2 & E3 & Hfw & Ld & Lr & H3 & H2 & HP & HR). unfold run_rmclean. rewrite Er.
  destruct (measure_defined (flat (cleanFDF r)) (ci_phi i) (ci_fwhm i) (Some (ci_dFDFth i)) (map (fun f => (c_light / f) ^ 2) (ci_freq i)) (ci_lam0 i) 5 L1) as [m ->].
  - set (cut := match level_o (ci_dFDFth i) cutoff with Some c => c | None => maxabs (map nan_to_num (ci_FDF i)) + 1 end) in *.
    assert (HC : 0 < cut).
    { unfold cut. destruct HT as [(t & HT & Ht)|[HN Hc]]; [now rewrite (level_o_threshold _ _ _ HT)|]. unfold level_o. rewrite HN. destruct (Rlt_dec cutoff 0); [|lra]. cbn. apply maxabs_up. }
    destruct (rmclean_conserves_restores _ _ _ _ _ _ _ _ _ _ _ _ 0 d rm fw imax Er HC Logic.I ltac:(cbn; lia) Ld Lr) as (res & comp & clean & R1 & R2 & R3 & S1 & S2 & S3 & F); auto.
    + cbn. rewrite E1. apply map_has_spec.
    + cbn. rewrite E2. apply map_has_spec.
    + exists 1%nat, (nth 1 clean czero). split; [lia|]. exact (S3 1%nat ltac:(lia)).
  - cbn [pybind]. destruct (ci_dFDFth i) as [n|]; [destruct (Req_EM_T n 0) as [->|_]; [contradiction|]|]; eauto.
Qed.

(** ... and never without noise. *)
Theorem clean_tool_zero_noise : forall i cutoff maxIter gain window, ci_dFDFth i = Some 0 -> run_rmclean i cutoff maxIter gain window = PErr.
Proof.
  intros i cutoff maxIter gain window H. unfold run_rmclean. destruct (do_rmclean_hogbom _ _ _ _ _ _ _ _ _ _ _) as [| |r]; auto.
  destruct (measure_FDF_parms _ _ _ _ _ _ _); cbn [pybind]; auto. rewrite H. destruct (Req_EM_T 0 0); [auto|contradiction].
Qed.

(** ** The spectra *)
Theorem clean_tool_spectra : forall i d rm fw imax, clean_input i d rm fw imax ->
  forall cutoff t, threshold (ci_dFDFth i) cutoff t -> 0 < t ->
  forall maxIter gain window out, run_rmclean i cutoff maxIter gain window = POk out ->
  k_cutoff out = Some t /\ (k_nIter out <= maxIter)%nat /\
  exists res comp clean,
    length res = length (ci_phi i) /\ length comp = length (ci_phi i) /\ length clean = length (ci_phi i) /\
    k_resid out = map Some res /\ k_cc out = map Some comp /\ k_clean out = map Some clean /\
    (forall j, (j < length (ci_phi i))%nat ->
      nth j d czero = (nth j res czero + response rm imax comp j)%C /\
      nth j clean czero = (restored fw (ci_phi i) comp j + nth j res czero)%C) /\
    match window with
    | None => k_nIter out = maxIter \/ all_below t res
    | Some w => forall tw, threshold (ci_dFDFth i) w tw -> 0 < tw ->
        k_nIter out = maxIter \/ forall j, (j < length (ci_phi i))%nat -> nth j comp czero <> czero -> Cmod (nth j res czero) < tw
    end.
Proof.
  intros i d rm fw imax G cutoff t HT Ht maxIter gain window out RUN.
  destruct (tool_inv i d rm fw imax G cutoff maxIter gain window out RUN) as (r & Er & _ & EC & ER & EN & ECut & _).
  rewrite (level_o_threshold _ _ _ HT) in Er, ECut. split; [exact ECut|].
  destruct (tool_finite i d rm fw imax G cutoff maxIter gain window (or_introl (ex_intro _ t (conj HT Ht))) out RUN) as (res & comp & clean & R1 & R2 & R3 & S1 & S2 & S3 & F).
  pose proof G as (E1 & E2 & E3 & Hfw & Ld & Lr & H3 & H2 & HP & HR).
  assert (HD : has_spec 1 0 (ci_FDF i) d) by (rewrite E1; apply map_has_spec). assert (HM : has_spec 1 0 (ci_RMSF i) rm) by (rewrite E2; apply map_has_spec).
  assert (EQ : forall a b, length a = length b -> map (@Some C) a = map Some b -> a = b).
  { induction a as [|x a IH]; intros [|y b] L E; try discriminate; auto. cbn in E. injection E as -> E. f_equal. apply IH; auto. }
  assert (UN : forall a l l', length l = length l' -> has_spec 1 0 a l -> a = map Some l' -> l = l').
  { intros a l l' L HS ->. apply nth_ext with (d := czero) (d' := czero); auto. intros k Hk. specialize (HS k Hk). replace (k * 1 + 0)%nat with k in HS by lia.
    rewrite (nth_map_lt _ _ _ _ czero) in HS by lia. now injection HS. }
  destruct window as [w|].
  - assert (B : (k_nIter out <= maxIter)%nat /\ forall tw, threshold (ci_dFDFth i) w tw -> 0 < tw ->
        k_nIter out = maxIter \/ forall j, (j < length (ci_phi i))%nat -> nth j comp czero <> czero -> Cmod (nth j res czero) < tw).
    { destruct (rmclean_pixel _ _ _ _ _ _ _ _ _ _ _ _ 0 d rm fw Er Ht Logic.I ltac:(cbn; lia) Ld Lr) as [s [_ [_ [_ [_ [S4 S5]]]]]]; auto.
      split.
      - rewrite EN, S4. destruct S5 as [[_ E]|[_ ->]]; [|cbn; lia]. destruct (level_o (ci_dFDFth i) w) as [lw|]; [|exact (proj1 (clean_stops _ _ _ _ _ _ _ _ Ld Ht E))].
        destruct (cleanloop_inv _ _ _ _ _ _ _ _ _ Ld E) as [im [t1 [_ [L1 [L2' [_ [_ [W1 _]]]]]]]].
        destruct (loop1_reach _ _ _ _ _ _ _ _ _ _ (init_wf _ _ Ld) L1) as [_ [B1 _]]. cbn in B1.
        destruct (loop2_reach _ _ _ _ _ _ _ _ _ _ _ W1 (win_mask_len _ _ _ W1) L2') as [_ [C1 _]]. lia.
      - intros tw HW Htw. rewrite (level_o_threshold _ _ _ HW) in Er.
        destruct (rmclean_stops_window _ _ _ _ _ _ _ _ _ _ _ 0 d rm fw Er Ht Htw ltac:(cbn; lia) Ld Lr) as (res' & comp' & K1 & K2 & K3 & K4 & K5 & K6); auto.
        rewrite EN. destruct K6 as [K6|K6]; [now left|right].
        rewrite ER in S1. rewrite EC in S2. rewrite <- (UN _ _ _ (eq_trans K1 (eq_sym R1)) K2 S1), <- (UN _ _ _ (eq_trans K3 (eq_sym R2)) K4 S2). exact K6. }
    split; [apply B|]. exists res, comp, clean. repeat (split; [now auto|]). apply B.
  - destruct (rmclean_stops _ _ _ _ _ _ _ _ _ _ 0 d rm fw Er Ht ltac:(cbn; lia) Ld Lr) as (res' & K1 & K2 & K5 & K6); auto.
    rewrite EN. split; [exact K5|]. exists res, comp, clean. repeat (split; [now auto|]). destruct K6 as [K6|K6]; [now left|right].
    rewrite ER in S1. now rewrite <- (UN _ _ _ (eq_trans K1 (eq_sym R1)) K2 S1).
Qed.

(** ** Without a noise estimate a threshold in units of it cleans nothing *)
Theorem clean_tool_no_noise : forall i d rm fw imax, clean_input i d rm fw imax -> ci_dFDFth i = None ->
  forall cutoff maxIter gain window out, cutoff < 0 -> run_rmclean i cutoff maxIter gain window = POk out ->
  k_cutoff out = None /\ k_nIter out = 0%nat /\ k_resid out = map Some d /\ k_clean out = map Some d /\ k_cc out = map (fun _ => Some (RtoC 0)) d /\ k_mom2 out = None /\
  k_dPhi out = None /\ k_dAngle out = None /\ k_dAngle0 out = None.
Proof.
  intros i d rm fw imax G HN cutoff maxIter gain window out Hc RUN.
  destruct (tool_inv i d rm fw imax G cutoff maxIter gain window out RUN) as (r & Er & EL & EC & ER & EN & ECut & _ & _ & EM & _ & D1 & D2 & D3).
  destruct (tool_lengths i cutoff maxIter gain window r Er) as (L1 & L2 & L3).
  pose proof G as (E1 & E2 & E3 & Hfw & Ld & Lr & H3 & H2 & HP & HR).
  assert (LV : level_o (ci_dFDFth i) cutoff = None) by (unfold level_o; rewrite HN; destruct (Rlt_dec cutoff 0); [reflexivity|lra]).
  rewrite LV in Er, ECut. pose proof (maxabs_up i) as HC.
  destruct (rmclean_quiet_pixel _ _ _ _ _ _ _ _ _ _ _ _ 0 Er HC Logic.I ltac:(cbn; lia)) as (Q1 & Q2).
  { cbn. apply not_reached. lra. }
  cbn in Q2. assert (Z : k_cc out = map (fun _ => Some (RtoC 0)) d).
  { rewrite EC. apply nth_ext with (d := None) (d' := None); [rewrite map_length; lia|]. intros k Hk. destruct (Q2 k ltac:(lia)) as (_ & X & _). unfold at2 in X.
    replace (k * 1 + 0)%nat with k in X by lia. rewrite X, (nth_map_lt _ _ _ _ czero) by lia. reflexivity. }
  split; [exact ECut|]. split; [now rewrite EN|]. split; [|split; [|split; [exact Z|split]]].
  - rewrite ER, <- E1. apply nth_ext with (d := None) (d' := None); [rewrite E1, map_length; lia|]. intros k Hk. destruct (Q2 k ltac:(lia)) as (X & _). unfold at2 in X.
    now replace (k * 1 + 0)%nat with k in X by lia.
  - rewrite EL, <- E1. apply nth_ext with (d := None) (d' := None); [rewrite E1, map_length; lia|]. intros k Hk. destruct (Q2 k ltac:(lia)) as (_ & _ & X). unfold at2 in X.
    now replace (k * 1 + 0)%nat with k in X by lia.
  - rewrite EM, Z. unfold fdf_complexity. replace (map (fun _ : C => Some (RtoC 0)) d) with (map Some (map (fun _ : C => RtoC 0) d)) by apply map_map.
    rewrite all_some_map. apply mom2_zero; [now rewrite map_length|]. intros z Hz. apply in_map_iff in Hz. destruct Hz as (? & <- & _). reflexivity.
  - assert (OD : forall x, odiv x None = None) by (intros [x|]; reflexivity). rewrite D1, D2, D3, HN, !OD. auto.
Qed.

(** ** The measurements are those of the clean spectrum *)
Theorem clean_tool_measures : forall i d rm fw imax, clean_input i d rm fw imax -> 0 < fw -> increasing (ci_phi i) ->
  forall cutoff maxIter gain window out, run_rmclean i cutoff maxIter gain window = POk out ->
  let m := k_parms out in
  (exists p z, peak_channel (k_clean out) (length (ci_phi i)) p z /\
     (phiPeakPIfit m = None <-> ampPeakPIfit m = None) /\
     forall ph a, phiPeakPIfit m = Some ph -> ampPeakPIfit m = Some a ->
      exists z1 z3 qa qb qc, nth (p - 1) (k_clean out) None = Some z1 /\ nth (p + 1) (k_clean out) None = Some z3 /\ qa <> 0 /\
        through qa qb qc (nth (p - 1) (ci_phi i) 0) (Cmod z1) (nth p (ci_phi i) 0) (Cmod z) (nth (p + 1) (ci_phi i) 0) (Cmod z3) /\
        ph = - qb / (2 * qa) /\ a = quad qa qb qc ph) /\
  dAmpPeakPIfit m = ci_dFDFth i /\
  (forall a n s, ampPeakPIfit m = Some a -> 0 < a -> ci_dFDFth i = Some n -> 0 <= n -> k_dAmp out = Some s ->
     0 < n /\ dPhiPeakPIfit m = Some (fw * (n / (2 * a))) /\ k_dPhi out = Some (fw * (s / (2 * a))) /\
     dPolAngleFit_deg m = Some (180 / PI * (n / (2 * a))) /\ k_dAngle out = Some (180 / PI * (s / (2 * a))) /\
     let l2 := map lsq (ci_freq i) in let c := INR (length l2) in
     ((2 < length l2)%nat -> 0 < sample_variance l2 ->
      let spread := sqrt (c / (c - 2) * ((c - 1) / c + ci_lam0 i ^ 2 / sample_variance l2)) in
      dPolAngle0Fit_deg m = Some (180 / PI * (n / (2 * a)) * spread) /\ k_dAngle0 out = Some (180 / PI * (s / (2 * a)) * spread))) /\
  (forall comp, k_cc out = map Some comp -> (k_mom2 out = None <-> forall z, In z comp -> z = RtoC 0) /\
     forall v, k_mom2 out = Some v -> 0 <= v /\ (v = 0 <-> exists f, forall k, (k < length comp)%nat -> nth k comp (RtoC 0) <> RtoC 0 -> nth k (ci_phi i) 0 = f)).
Proof.
  intros i d rm fw imax G Hfw INC cutoff maxIter gain window out RUN m.
  destruct (tool_inv i d rm fw imax G cutoff maxIter gain window out RUN) as (r & Er & EL & EC & ER & EN & ECut & MEAS & N0 & EM & DA & D1 & D2 & D3).
  destruct (tool_lengths i cutoff maxIter gain window r Er) as (L1 & L2 & L3). rewrite <- EL in L1. rewrite <- EC in L2.
  pose proof G as (E1 & E2 & E3 & _ & Ld & Lr & H3 & H2 & HP & HR). fold m in MEAS, DA, D1, D2, D3.
  destruct (measure_noise _ _ _ _ _ _ _ L1 _ MEAS) as (MN & _). pose proof (MN _ eq_refl) as AN.
  split; [|split; [exact AN|split]].
  - destruct (measure_peak _ _ _ _ _ _ _ L1 INC _ MEAS) as (p & z & P1 & P2 & P3). exists p, z. split; [exact P1|]. split; [exact P2|]. intros ph a Hph Ha.
    destruct (P3 ph a Hph Ha) as (z1 & z3 & qa & qb & qc & B1 & B2 & B3 & B4 & B5 & B6 & _). exists z1, z3, qa, qb, qc. auto 10.
  - intros a n s Ha Pa Hn Pn Hs. rewrite Hn in AN. rewrite Hn in N0. assert (Zn : n <> 0) by (intros ->; now apply N0).
    destruct (measure_errors _ _ _ _ _ _ _ L1 m a n fw MEAS Ha AN E3 Pa Pn) as (_ & F1 & F2 & F3).
    rewrite DA in Hs. rewrite D1, D2, F1, F2, Hs, Hn. unfold omul, o2, odiv. destruct (Req_EM_T n 0) as [|_]; [contradiction|].
    split; [lra|]. split; [reflexivity|]. split; [f_equal; field; lra|]. split; [reflexivity|]. split; [f_equal; field; repeat split; try lra; try apply PI_neq0|].
    cbv zeta. intros H2l V2. destruct (F3 ltac:(rewrite map_length in *; exact H2l) V2) as (F4 & _). cbv zeta in F4. split; [exact F4|]. rewrite D3, F4, Hs, Hn. unfold omul, o2, odiv.
    destruct (Req_EM_T n 0) as [|_]; [contradiction|]. f_equal. change (map (fun f : R => (299792458 / f) ^ 2) (ci_freq i)) with (map lsq (ci_freq i)). field. repeat split; try lra; try apply PI_neq0.
  - intros comp Hc. rewrite EM, Hc. unfold fdf_complexity. rewrite all_some_map. apply mom2_zero. rewrite Hc, map_length in L2. lia.
Qed.
