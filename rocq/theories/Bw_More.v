(** Consequences for the tool's results. *)
From Coq Require Import Reals List Arith ZArith Bool Lra Lia.
Set Warnings "-ambiguous-paths".
From Coquelicot Require Import Coquelicot.
From Verif Require Import CBase NdArray PyRes PyList PyList_Proofs Interp_Model Synth_Model Synth_Spec Synth_Proofs Synth_Laws CleanTop_Model Setup_Model Setup_Spec Setup_Proofs
  StokesI_Model StokesI_Spec StokesI_Proofs StokesI_Fit Measure_Model Measure_Spec Measure_Proofs Measure_Laws Rmsf_Proofs Clean_Grid Bw_Model Bw_Spec Bw_Rot Bw_Proofs Bw_Laws Bw_Run.
Import ListNotations.
Local Open Scope R_scope.

(** ** Stokes I at the reference frequency *)

Lemma lin_const : forall c x, lin_model [0; 0; 0; 0; 0; c] 1 x = c.
Proof. intros c x. unfold lin_model. cbn [seq map rsum nth]. rewrite !rsum_cons, rsum_nil. cbn [pow Nat.sub]. ring. Qed.

Lemma log_const : forall c ref x, log_model [0; 0; 0; 0; 0; c] ref x = c.
Proof.
  intros c ref x. unfold log_model. cbn [seq map nth]. rewrite !rsum_cons, rsum_nil. rewrite !Rmult_0_l, !Rplus_0_r.
  rewrite Rpower_O by lra. ring.
Qed.

(** right when the Stokes I model is a constant *)
Theorem bw_Ifreq0_constant : forall fr c f, fit_function fr = Log -> params fr = [0; 0; 0; 0; 0; c] ->
  lin_model (params fr) 1 f = model_at fr f.
Proof. intros fr c f E P. unfold model_at. rewrite E, P, lin_const, log_const. reflexivity. Qed.

Lemma mean_lam2_le : forall chs M, (forall c, In c chs -> 0 <= b_w c) -> 0 < bwsum chs -> (forall c, In c chs -> (299792458 / b_nu c) ^ 2 <= M) -> mean_lam2 chs <= M.
Proof.
  intros chs M Hw W H. unfold mean_lam2. apply Rmult_le_reg_r with (bwsum chs); auto. unfold Rdiv at 1. rewrite Rmult_assoc, Rinv_l, Rmult_1_r by lra.
  unfold bwsum. clear W. induction chs as [|c t IH]; cbn [map]; rewrite ?rsum_cons, ?rsum_nil; [lra|].
  specialize (IH (fun x I => Hw x (or_intror I)) (fun x I => H x (or_intror I))). pose proof (H c (or_introl eq_refl)). pose proof (Hw c (or_introl eq_refl)).
  assert (b_w c * (299792458 / b_nu c) ^ 2 <= b_w c * M) by (apply Rmult_le_compat_l; auto). lra.
Qed.

Definition ex_mpfit (_ : mpin) : pyres mpres := POk (mk_mp [0; 0; 0; 0; -1; 1] 1 0 None None).
Definition ex_freq : list R := [2000000000; 3000000000].
Definition ones2 : list (option R) := [Some 1; Some 1].
Definition ex_data : bw_data := Cols7 ex_freq ones2 ones2 ones2 ones2 ones2 ones2.

Lemma ex_ok : forall f, In f ex_freq -> channel_ok 1000000000 f.
Proof. intros f [<-|[<-|[]]]; unfold channel_ok; lra. Qed.

(** A positive Stokes I model gives a negative Stokes I: the coefficients of the
    power law are used as those of a polynomial in GHz. *)
Theorem bw_Ifreq0_refuted : forall fit, exists fr o f0 x,
  fit_StokesI_model ex_mpfit (map (fun f => f / 1000000000) ex_freq) ones2 ones2 1 Log = POk fr /\
  run_adjoint_rmsynth ex_mpfit fit (fun _ _ _ _ _ _ _ => POk tt) ex_data 1 (Some 10) (Some 1) 10 false false false false = POk o /\
  o_lam0 o = Some ((299792458 / f0) ^ 2) /\ 2000000000 <= f0 /\ o_Ifreq0 o = Some x /\ x <= -1 /\ 0 < model_at fr (f0 / 1000000000).
Proof.
  intros fit. destruct (fit_StokesI_model ex_mpfit (map (fun f => f / 1000000000) ex_freq) ones2 ones2 1 Log) as [fr0|] eqn:EF.
  2:{ exfalso. cbn in EF. discriminate. }
  assert (P0 : params fr0 = [0; 0; 0; 0; -1; 1] /\ fit_function fr0 = Log) by (cbn in EF; injection EF as <-; split; reflexivity). destruct P0 as [P0 F0].
  assert (MP : forall f, 0 < model_at fr0 f). { intros f. unfold model_at. rewrite F0, P0. unfold log_model. cbn [nth]. rewrite Rmult_1_l. apply exp_pos. }
  destruct (create_frac_spectra ex_mpfit (map (fun f => f / 1000000000) ex_freq) ones2 ones2 ones2 ones2 (map Some [1; 1]) (map Some [1; 1]) 1 Log None) as [[[[[[IM q] u] dq] du] fr]|] eqn:EC; [|discriminate].
  assert (HP : forall qn r, ex_mpfit qn = POk r -> length (mp_params r) = 6%nat) by (intros qn r E; injection E as <-; reflexivity).
  destruct (frac_spectra_spec ex_mpfit (map (fun f => f / 1000000000) ex_freq) ones2 ones2 ones2 ones2 (map Some [1; 1]) (map Some [1; 1]) 1 Log None IM q u dq du fr 2) as [(A1 & A2 & A3 & A4) A5]; auto; try discriminate.
  rewrite EF in A5. destruct A5 as (B1 & B2 & _).
  assert (Live : exists j qj uj, (j < length ex_freq)%nat /\ nth j q None = Some qj /\ nth j u None = Some uj).
  { destruct (A4 0%nat ltac:(lia)) as [X Y]. assert (M0 : nth 0 IM 0 <> 0). { rewrite B1. cbn [map ex_freq nth]. apply Rgt_not_eq, MP. }
    destruct (nth 0 q None) as [qj|] eqn:E1; [|exfalso; destruct X as [X|X]; [discriminate|contradiction]].
    destruct (nth 0 u None) as [uj|] eqn:E2; [|exfalso; destruct Y as [Y|Y]; [discriminate|contradiction]]. exists 0%nat, qj, uj. cbn. repeat split; auto; lia. }
  destruct (bw_run ex_mpfit fit (fun _ _ _ _ _ _ _ => POk tt) ex_data false ex_freq ones2 ones2 ones2 ones2 [1; 1] [1; 1] 1 (Some 10) (Some 1) 10 false false 1 10 1000000000 IM q u dq du fr) as (o & Eo & _ & _ & L0 & EL & EI & _); auto; try (cbn; lia); try lra; try reflexivity.
  { left. exists ones2, ones2. split; [reflexivity|split; reflexivity]. }
  { intros x [<-|[<-|[]]]; cbn; lra. }
  { cbn. lra. }
  { exact ex_ok. }
  set (chs := spectrum_chans _ _ _ _ _) in *. set (l0 := mean_lam2 chs) in *.
  destruct (live_pos 1000000000 ex_freq q u false (sigmas [1; 1] [1; 1])) as (CO & W & _); auto.
  { intros x [<-|[<-|[]]]; cbn; lra. } { exact ex_ok. } fold chs in CO, W.
  assert (LM : l0 <= (299792458 / 2000000000) ^ 2).
  { apply mean_lam2_le; [intros c I; apply CO, I|exact W|]. intros c I. apply spectrum_In in I. destruct I as (j & q' & u' & Hj & _ & _ & E3 & _). rewrite E3.
    destruct j as [|[|j]]; cbn in Hj |- *; try lia; lra. }
  assert (SL : 0 < sqrt l0) by (apply sqrt_lt_R0; auto).
  assert (SB : sqrt l0 <= 299792458 / 2000000000). { rewrite <- (sqrt_pow2 (299792458 / 2000000000)) by lra. now apply sqrt_le_1_alt. }
  exists fr0, o, (299792458 / sqrt l0). eexists. split; [reflexivity|]. split; [exact Eo|]. split.
  { rewrite EL. f_equal. replace (299792458 / (299792458 / sqrt l0)) with (sqrt l0) by (field; lra). symmetry. apply pow2_sqrt. lra. }
  assert (FB : 2000000000 <= 299792458 / sqrt l0).
  { apply Rmult_le_reg_r with (sqrt l0); auto. unfold Rdiv at 1. rewrite Rmult_assoc, Rinv_l, Rmult_1_r by lra. lra. }
  split; [exact FB|]. split; [exact EI|]. split; [|apply MP].
  rewrite B2, P0. unfold lin_model. cbn [seq map nth]. rewrite !rsum_cons, rsum_nil. cbn [Nat.sub pow]. lra.
Qed.

(** ** A thin source through the whole tool *)

Theorem bw_run_thin : forall mpfit fit complexity d noI freq iA Q U dI eq eu po phiMax dPhi ns var fitR h p b IM q u dq du fr amp psi RM,
  (forall qn r, mpfit qn = POk r -> length (mp_params r) = 6%nat) -> (forall a1 a2 a3 a4 a5 a6 a7, complexity a1 a2 a3 a4 a5 a6 a7 = POk tt) ->
  bw_columns d noI freq iA Q U dI (map Some eq) (map Some eu) ->
  (2 <= length freq)%nat -> length iA = length freq -> length Q = length freq -> length U = length freq -> length dI = length freq ->
  length eq = length freq -> length eu = length freq -> (forall x, In x (sigmas eq eu) -> x <> 0) ->
  b = nth 1 freq 0 - nth 0 freq 0 -> (forall f, In f freq -> channel_ok b f) ->
  bw_step dPhi ns freq h -> bw_range phiMax freq p -> 0 < h <= p ->
  create_frac_spectra mpfit (map (fun f => f / 1000000000) freq) iA Q U dI (map Some eq) (map Some eu) po Log None = Some (IM, q, u, dq, du, fr) ->
  (exists j qj uj, (j < length freq)%nat /\ nth j q None = Some qj /\ nth j u None = Some uj) ->
  bw_source b q u freq amp psi RM ->
  exists o l0 I0, run_adjoint_rmsynth mpfit fit complexity d po phiMax dPhi ns var fitR noI false = POk o /\
    o_lam0 o = Some l0 /\ o_Ifreq0 o = Some I0 /\
    forall k, (k < length (o_phi o))%nat -> nth k (o_phi o) 0 = RM ->
      sens_spec b (spectrum_chans freq q u (Some (run_weights var (sigmas eq eu))) (sigmas eq eu)) RM <> 0 ->
      nth k (o_FDF o) None = Some (RtoC (I0 * amp) * cis (2 * (psi + RM * l0)))%C.
Proof.
  intros mpfit fit complexity d noI freq iA Q U dI eq eu po phiMax dPhi ns var fitR h p b IM q u dq du fr amp psi RM HP HC Hcol Hn LI LQ LU LdI Leq Leu Hs Hb Hok Hst Hrg Hhp EF Hlive Src.
  destruct (bw_run mpfit fit complexity d noI freq iA Q U dI eq eu po phiMax dPhi ns var fitR h p b IM q u dq du fr HP HC Hcol Hn LI LQ LU LdI Leq Leu Hs Hb Hok Hst Hrg Hhp EF Hlive)
    as (o & Eo & _ & _ & _ & EL & EI & _ & _ & _ & HF & _).
  set (sg := sigmas eq eu) in *. set (chs := spectrum_chans freq q u (Some (run_weights var sg)) sg) in *. set (l0 := mean_lam2 chs) in *. set (I0 := lin_model (params fr) 1 (299792458 / sqrt l0 / 1000000000)) in *.
  exists o, l0, I0. split; [exact Eo|]. split; [exact EL|]. split; [exact EI|]. intros k Hk Ek Sn. rewrite <- Ek in Sn. rewrite (HF k Hk Sn). rewrite Ek in *. f_equal.
  assert (T : forall c, In c chs -> b_P c = thin_chan b amp psi RM (b_nu c)).
  { intros c I. apply spectrum_In in I. destruct I as (j & q' & u' & Hj & E1 & E2 & E3 & E4 & E5 & E6). rewrite E6, E3. apply (Src j); auto. }
  destruct (adj_thin b chs l0 amp psi RM T) as [->|Z].
  - rewrite RtoC_mult. assert (RtoC (sens_spec b chs RM) <> RtoC 0) by now apply RtoC_neq0. field. auto.
  - exfalso. apply Sn. unfold sens_spec. rewrite Z. unfold Rdiv. rewrite Rinv_0. ring.
Qed.

(** ** The fitted peak *)

Lemma norm_amp_nth : forall F S k a, length F = length S -> (k < length F)%nat -> norm_amp F S k a ->
  nth k (map (fun fs => odiv (fst fs) (snd fs)) (combine (map (option_map Cmod) F) S)) None = Some a.
Proof.
  intros F S k a L Hk (z & s & E1 & E2 & N & ->). rewrite (nth_map_lt _ _ _ _ (None, None)) by (rewrite combine_length, map_length; lia).
  rewrite nth_combine2 by (rewrite ?map_length; lia). cbn [fst snd]. rewrite (nth_map_lt _ _ _ _ None) by auto. rewrite E1, E2. cbn [option_map]. unfold odiv. destruct (Req_EM_T s 0); [contradiction|reflexivity].
Qed.

(** The reported depth and amplitude when the normalised amplitude also peaks
    at the peak channel. *)
Theorem bw_peak_fit : forall FDF phi fw sens noise l2 lam0 sb h i a1 a2 a3 m ph am,
  length FDF = length phi -> length sens = length phi -> length noise = length phi -> even_grid phi h -> 0 < h ->
  peak_channel FDF noise = POk i -> (0 < i < length phi - 1)%nat ->
  norm_amp FDF sens (i - 1) a1 -> norm_amp FDF sens i a2 -> norm_amp FDF sens (i + 1) a3 -> a1 <= a2 -> a3 <= a2 ->
  bwdepol_measure_FDF_parms FDF phi fw sens noise l2 lam0 sb = POk m -> phiPeakPIfit m = Some ph -> ampPeakPIfit m = Some am ->
  Rabs (ph - nth i phi 0) <= h / 2 /\ a2 <= am.
Proof.
  intros FDF phi fw sens noise l2 lam0 sb h i a1 a2 a3 m ph am LF LS LN G Hh Ei Hi N1 N2 N3 H1 H3 Em Ep Ea.
  unfold bwdepol_measure_FDF_parms in Em. rewrite Ei in Em. cbn [pybind] in Em. destruct (rmin_list (np_diff phi)) as [dm|]; [|discriminate].
  rewrite (norm_amp_nth FDF sens (i - 1) a1), (norm_amp_nth FDF sens i a2), (norm_amp_nth FDF sens (i + 1) a3) in Em by (auto; lia).
  replace ((0 <? i) && (i <? length FDF - 1))%nat with true in Em.
  2:{ symmetry. apply andb_true_intro. split; apply Nat.ltb_lt; lia. }
  injection Em as <-. cbn [phiPeakPIfit ampPeakPIfit] in Ep, Ea.
  assert (X1 : nth (i - 1) phi 0 = nth i phi 0 - h). { pose proof (G (i - 1)%nat ltac:(lia)) as X. replace (S (i - 1)) with i in X by lia. lra. }
  assert (X3 : nth (i + 1) phi 0 = nth i phi 0 + h). { pose proof (G i ltac:(lia)) as X. replace (i + 1)%nat with (S i) by lia. exact X. }
  rewrite X1, X3 in Ep, Ea. destruct (calc_parabola_vertex _ _ _ _ _ _) as [[xv yv]|] eqn:EV; [|discriminate]. cbn [option_map fst snd] in Ep, Ea. injection Ep as <-. injection Ea as <-.
  eapply vertex_of_peak; [exact Hh| | |exact EV]; auto.
Qed.

Definition rf_FDF : list (option C) := map (fun x => Some (RtoC x)) [0; 3 / 2; 1; 9 / 20; 0].
Definition rf_phi : list R := [0; 1; 2; 3; 4].
Definition rf_sens : list (option R) := map Some [1; 1; 1 / 4; 1 / 16; 1].
Definition rf_noise : list (option R) := map Some [1; 1; 1 / 2; 1 / 4; 1].

Lemma rf_peak : peak_channel rf_FDF rf_noise = POk 2%nat.
Proof.
  assert (SN : sn_spectrum rf_FDF rf_noise = map Some [0; 3 / 2; 2; 9 / 5; 0]).
  { unfold sn_spectrum, rf_FDF, rf_noise. cbn [map combine fst snd option_map]. rewrite !Cmod_R. unfold odiv.
    repeat (destruct (Req_EM_T _ 0); [lra|]). rewrite !Rabs_pos_eq by lra.
    replace (0 / 1) with 0 by field. replace (3 / 2 / 1) with (3 / 2) by field. replace (1 / (1 / 2)) with 2 by field. replace (9 / 20 / (1 / 4)) with (9 / 5) by field. reflexivity. }
  destruct (peak_channel_spec rf_FDF rf_noise 2 2) as (i & x & Ei & Hi & Ex & M); [reflexivity|cbn; lia|rewrite SN; reflexivity|].
  rewrite Ei. rewrite SN in Ex, M. cbn [length rf_FDF map] in Hi, M. pose proof (M 2%nat 2 ltac:(lia) eq_refl) as M2.
  destruct i as [|[|[|[|i]]]]; try lia; cbn in Ex; injection Ex as <-; [lra|reflexivity|lra].
Qed.

(** The parabola goes through amplitudes divided by the sensitivity around the
    peak of another quantity: its vertex can be a minimum outside the grid, with
    a negative amplitude. *)
Theorem bw_peak_fit_refuted : exists FDF phi fw sens noise l2 lam0 m ph am h,
  length FDF = length phi /\ even_grid phi h /\ 0 < h /\
  (forall k, (k < length phi)%nat -> exists s, nth k sens None = Some s /\ 0 < s <= 1 /\ nth k noise None = Some (sqrt s)) /\
  bwdepol_measure_FDF_parms FDF phi fw sens noise l2 lam0 5 = POk m /\ phiPeakPIfit m = Some ph /\ ampPeakPIfit m = Some am /\
  (forall x, In x phi -> ph < x - 2) /\ am < -1.
Proof.
  set (ph := 2 - (57 / 20) / (7 / 10)). set (am := 4 - (57 / 20) ^ 2 / (7 / 5)).
  destruct (bw_measure_ok rf_FDF rf_phi (Some 1) rf_sens rf_noise [1; 2] (Some 1) 5 2 rf_peak ltac:(cbn; lia)) as [m Em].
  exists rf_FDF, rf_phi, (Some 1), rf_sens, rf_noise, [1; 2], (Some 1), m, ph, am, 1. split; [reflexivity|].
  split. { intros k Hk. cbn in Hk. destruct k as [|[|[|[|k]]]]; try lia; cbn; lra. }
  split; [lra|]. split.
  { assert (S4 : sqrt (1 / 4) = 1 / 2) by (replace (1 / 4) with ((1 / 2) ^ 2) by field; apply sqrt_pow2; lra).
    assert (S16 : sqrt (1 / 16) = 1 / 4) by (replace (1 / 16) with ((1 / 4) ^ 2) by field; apply sqrt_pow2; lra).
    intros k Hk. cbn in Hk. destruct k as [|[|[|[|[|k]]]]]; try lia; cbn [nth rf_sens rf_noise map]; eexists; (split; [reflexivity|]); (split; [lra|]); rewrite ?sqrt_1, ?S4, ?S16; reflexivity. }
  split; [exact Em|]. unfold bwdepol_measure_FDF_parms in Em. rewrite rf_peak in Em. cbn [pybind] in Em. destruct (rmin_list (np_diff rf_phi)) as [dm|]; [|discriminate].
  assert (NA : forall k f s, nth k rf_FDF None = Some (RtoC f) -> nth k rf_sens None = Some s -> 0 <= f -> s <> 0 -> norm_amp rf_FDF rf_sens k (f / s)).
  { intros k f s E1 E2 F0 S0. exists (RtoC f), s. rewrite Cmod_R, Rabs_pos_eq by auto. auto. }
  change (2 - 1)%nat with 1%nat in Em. change (2 + 1)%nat with 3%nat in Em.
  rewrite (norm_amp_nth rf_FDF rf_sens 1 (3 / 2 / 1)), (norm_amp_nth rf_FDF rf_sens 2 (1 / (1 / 4))), (norm_amp_nth rf_FDF rf_sens 3 (9 / 20 / (1 / 16))) in Em
    by (first [reflexivity|cbn; lia|apply NA; [reflexivity|reflexivity|lra|lra]]).
  cbn [rf_phi nth length rf_FDF map Nat.ltb Nat.leb Nat.sub andb] in Em.
  destruct (vertex_spec (7 / 20) (57 / 20 - 2 * (7 / 10)) (4 - 2 * (57 / 20) + 4 * (7 / 20)) 1 (3 / 2 / 1) 2 (1 / (1 / 4)) 3 (9 / 20 / (1 / 16))) as [V _]; try lra.
  { unfold through, quad. repeat split; lra. }
  rewrite V in Em by lra. injection Em as <-. cbn [phiPeakPIfit ampPeakPIfit option_map fst snd].
  split; [f_equal; unfold ph; field|]. split; [f_equal; unfold am, quad; field|]. split; [|unfold am; lra].
  intros x I. unfold ph. cbn in I. destruct I as [<-|[<-|[<-|[<-|[<-|[]]]]]]; lra.
Qed.
