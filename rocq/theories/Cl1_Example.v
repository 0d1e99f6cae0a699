(** A run of the three 1-D tools: a source of constant flux 2, half polarised,
    in three channels, with errors. *)
From Coq Require Import Reals List Arith ZArith Bool Lra Lia Psatz.
Set Warnings "-ambiguous-paths".
From Coquelicot Require Import Coquelicot.
From Verif Require Import CBase NdArray PyRes PyStr PyList PyList_Proofs Interp_Model Synth_Model Synth_Spec Synth_Proofs Synth_Laws Rmsf_Proofs Setup_Model Setup_Spec Setup_Proofs
  StokesI_Model StokesI_Spec StokesI_Proofs Clean_Model Clean_Spec Clean_Proofs Clean_Laws Clean_Grid Clean_More Clean_Total CleanTop_Model Measure_Model Measure_Spec Measure_Proofs Measure_Laws
  Sigma_Proofs Rmsf_Peak Run1D_Model Run1D_Spec Run1D_Proofs Run1D_Laws Run1D_Total Run1D_Meas Run1D_Refute Cl1_Model Cl1_Spec Cl1_Proofs Cl1_Thin Cl1_Pred.
Import ListNotations.
Local Open Scope R_scope.

Definition g_mpfit : mpin -> pyres mpres := fun _ => POk (mk_mp [0; 0; 0; 0; 0; 2] 1 0 (Some (fun _ _ => 0)) None).
Definition g_opts : run_opts := mk_opts 0 (Some (1 / 4)) (Some (1 / 4)) 10 false false false None Log false.
Definition g_I : list (option R) := [Some 2; Some 2; Some 2].
Definition g_Q : list (option R) := [Some 1; Some 1; Some 1].
Definition g_U : list (option R) := [Some 0; Some 0; Some 0].
Definition g_e : list (option R) := [Some (1 / 10); Some (1 / 10); Some (1 / 10)].
Definition g_data : synth_data := Data7 e_freq g_I g_Q g_U g_e g_e g_e.

Lemma g_input : good_input g_data (o_noStokesI g_opts) e_freq g_I g_Q g_U g_e g_e g_e.
Proof.
  split; [left; exists g_I, g_e; repeat split|]. repeat (split; [reflexivity|]). intros f I. repeat destruct I as [<-|I]; try lra. destruct I.
Qed.
Lemma g_good_opts : good_opts g_mpfit g_opts (length e_freq).
Proof. split; [intros qn r [= <-]; reflexivity|]. split; [discriminate|]. discriminate. Qed.

Lemma flat_log : forall ref f, log_model [0; 0; 0; 0; 0; 2] ref f = 2.
Proof.
  intros. unfold log_model. cbn [seq map nth Nat.sub]. rewrite !rsum_cons, rsum_nil.
  match goal with |- 2 * Rpower 10 ?y = _ => replace y with 0 by ring end. rewrite Rpower_O by lra. ring.
Qed.

Lemma g_model : first_model g_mpfit g_opts e_freq g_I g_e (fun _ => 2).
Proof.
  split; [exists 0%nat; repeat split; try discriminate; cbn; lia|].
  destruct (fit_StokesI_model g_mpfit e_freq g_I g_e (o_polyOrd g_opts) (o_fitfun g_opts)) as [fr|] eqn:E; [|reflexivity || (cbn in E; discriminate)].
  cbn in E. injection E as <-. split; [eexists; reflexivity|]. intros j Hj. unfold model_at. cbn [fit_function params ref_freq]. now rewrite flat_log.
Qed.

Definition g_chans : list chan := used_chans e_freq g_Q g_U (fun _ => 2) [1; 1; 1].
Lemma g_chans_eq : g_chans = [mk_chan 1 1 (RtoC (1 / 2)); mk_chan 4 1 (RtoC (1 / 2)); mk_chan 9 1 (RtoC (1 / 2))].
Proof.
  unfold g_chans, used_chans, e_freq, g_Q, g_U. cbn [length seq flat_map nth]. destruct (Req_EM_T 2 0); [lra|]. cbn [app]. rewrite e_lsq1, !e_lsq by lra. unfold RtoC.
  replace (0 / 2) with 0 by field. replace (2 ^ 2) with 4 by ring. replace (3 ^ 2) with 9 by ring. reflexivity.
Qed.

Lemma g_ready : run_ready g_opts e_freq g_Q g_U g_e g_e (fun _ => 2).
Proof.
  split; [|split; [|split]].
  - exists 299792458, (299792458 / 2). cbn. split; [auto|]. split; [auto|]. lra.
  - discriminate.
  - discriminate.
  - cbv zeta. change (map _ (seq 0 (length e_freq))) with [1; 1; 1]. fold g_chans. rewrite g_chans_eq.
    split; [unfold wsum; cbn [map]; rewrite !rsum_cons, rsum_nil; cbn; lra|]. intros st pm (mx & mn & gap & _ & _ & _ & E). cbv zeta in E. cbn [o_dPhi o_phiMax g_opts] in E. destruct E as [-> ->].
    rewrite !Rabs_pos_eq by lra. split; [lra|]. split; [lra|]. exists 0%Z. rewrite Rabs_R0. split; [lra|]. replace (0 * (1 / 4)) with 0 by ring.
    cbn [o_super g_opts]. set (l0 := mean_l2 _). unfold FDF_spec, wsum. cbn [map c_w c_l2 c_P]. rewrite !csum_cons, csum_nil, !rsum_cons, rsum_nil.
    replace (-2 * 0 * (1 - l0)) with 0 by ring. replace (-2 * 0 * (4 - l0)) with 0 by ring. replace (-2 * 0 * (9 - l0)) with 0 by ring. rewrite cis_0.
    intros X. apply (f_equal fst) in X. cbn in X. field_simplify in X; lra.
Qed.

Lemma g_run : exists out, run_rmsynth g_mpfit e_fit g_data g_opts = POk out /\ forall j, (j < 3)%nat -> stokes_model g_opts (r_fit out) e_freq j = 2.
Proof. exact (run_succeeds g_mpfit e_fit g_data g_opts e_freq g_I _ _ _ _ _ (fun _ => 2) g_input g_good_opts g_model g_ready). Qed.

(** the flux at the reference frequency *)
Lemma g_flux : forall out, run_rmsynth g_mpfit e_fit g_data g_opts = POk out -> r_Ifreq0 out = Some 2.
Proof.
  intros out RUN. pose proof g_input as GI. pose proof g_good_opts as GO. pose proof GI as (IC & LI & LQ & LU & LdI & LdQ & LdU & Hf). pose proof GO as (LP & OF & LM).
  destruct (run_inv _ _ _ _ _ _ _ _ _ _ _ _ GI GO RUN) as (h' & step' & pm & I1 & _ & _ & _ & _ & _ & _ & _ & ML & EL & _).
  destruct (run_raw g_mpfit e_fit _ _ _ _ _ _ _ _ _ _ RUN IC) as (IM & q & u & dq & du & fr & dp & phi & w & r & s & freq0 & fr' & I0 & m & sg & EF & _ & EG & _ & _ & _ & _ & EA & _ & _ & _ & EO).
  destruct (frac_model g_mpfit e_freq g_I g_Q g_U g_e g_e g_e _ _ _ _ _ _ _ _ _ ltac:(cbn; lia) LI LQ LU LdI LdQ LdU Hf LM OF LP EF) as (US & _).
  assert (L0 : 0 <= synth_lam0 r) by (assert (E : r_lam0 out = synth_lam0 r) by (rewrite EO; reflexivity); rewrite <- E, EL; cbn [o_super g_opts]; lra).
  destruct (at_reference_spec _ _ _ _ _ _ _ US L0 EA) as (_ & P0 & _ & X). cbn [o_modStokesI g_opts] in X. destruct X as (X1 & X2 & _).
  assert (E : r_Ifreq0 out = I0) by (rewrite EO; reflexivity). rewrite E, X2, X1 by auto. f_equal.
  pose proof (frac_fun _ _ _ _ _ _ _ _ _ _ _ _ _ _ _ _ EF) as FF. unfold model_at. rewrite FF. cbn [o_fitfun g_opts].
  assert (EP : params fr = [0; 0; 0; 0; 0; 2]); [|rewrite EP; apply flat_log].
  unfold create_frac_spectra in EF. match type of EF with (if ?b then _ else _) = _ => destruct b; [discriminate|] end.
  match type of EF with (let '(_, _) := ?e in _) = _ => destruct e as [M fr1] eqn:EM end. injection EF as _ _ _ _ _ <-. cbn in EM. injection EM as _ <-.
  repeat match goal with |- context [if ?b then _ else _] => destruct b end; reflexivity.
Qed.

Lemma g_step : forall out, run_rmsynth g_mpfit e_fit g_data g_opts = POk out -> odd_centred (r_phi out) 1 (1 / 4).
Proof.
  intros out R. pose proof g_input as GI. pose proof g_good_opts as GO.
  destruct (run_refines _ _ _ _ _ _ _ _ _ _ _ _ GI GO R) as (h & st & pm & I0 & (mx & mn & gap & _ & _ & _ & E) & OC & _).
  cbv zeta in E. cbn [o_dPhi o_phiMax g_opts] in E. destruct E as [-> ->].
  destruct (run_raw g_mpfit e_fit _ _ _ _ _ _ _ _ _ _ R (proj1 GI)) as (IM & q & u & dq & du & fr & dp & phi & w & r & s & freq0 & fr' & I1 & m & sg & _ & _ & EG & EP & _ & _ & _ & _ & _ & _ & _ & EOut).
  assert (EPh : r_phi out = phi) by (rewrite EOut; reflexivity). assert (Edp : dp = (1 / 4, 1 / 4)).
  { unfold grid_params in EG. cbn [o_dPhi o_phiMax g_opts o_super] in EG. destruct (rmax_list _); [|discriminate]. destruct (rmin_list _); [|discriminate].
    destruct (rmax_list _); [|discriminate]. now injection EG as <-. }
  rewrite Edp in EP. cbn [fst snd] in EP. unfold depth_grid_1D in EP. destruct (Req_EM_T (1 / 4) 0); [lra|].
  replace (Rabs ((1 / 4 - 0) / (1 / 4))) with (IZR 1) in EP by (replace ((1 / 4 - 0) / (1 / 4)) with 1 by field; rewrite Rabs_R1; reflexivity).
  assert (RR : py_round 1 = 1%Z) by (apply (Run1D_Fits.round_near 1 1); simpl INR; replace (1 - 1) with 0 by ring; rewrite Rabs_R0; lra).
  rewrite RR in EP. replace (1 * 2 + 1) with (IZR 3) in EP by lra. rewrite PyList_Proofs.py_int_IZR in EP. cbn in EP. injection EP as EP.
  assert (h = 1%nat) as -> by (destruct OC as [OL _]; rewrite EPh, <- EP in OL; cbn in OL; lia). exact OC.
Qed.

Lemma g_fwhm : forall out, run_rmsynth g_mpfit e_fit g_data g_opts = POk out -> exists fw, r_fwhm out = Some fw /\ 0 < fw.
Proof.
  intros out R. destruct (run_fwhm _ _ _ _ _ _ _ _ _ _ _ _ g_input g_good_opts R) as (mx & mn & (_ & X2) & (_ & N2) & E). cbv zeta in E. cbn [o_fitRMSF o_super g_opts orb] in E.
  assert (A : 9 <= mx).
  { apply X2. cbn [map e_freq]. rewrite e_lsq1, !e_lsq by lra. right. right. left. ring. }
  assert (B : mn <= 1).
  { apply N2. cbn [map e_freq]. left. apply e_lsq1. }
  destruct (Req_EM_T mx mn); [lra|]. rewrite E. eexists. split; [reflexivity|]. apply Rdiv_lt_0_compat; lra.
Qed.

Lemma g_weights : forall out, run_rmsynth g_mpfit e_fit g_data g_opts = POk out -> r_weight out = [1; 1; 1].
Proof.
  intros out R. destruct (run_refines _ _ _ _ _ _ _ _ _ _ _ _ g_input g_good_opts R) as (h & st & pm & I0 & _ & _ & _ & _ & LW & W & _).
  destruct (r_weight out) as [|a [|b [|c [|x t]]]]; try discriminate. pose proof (W 0%nat ltac:(cbn; lia)) as W0. pose proof (W 1%nat ltac:(cbn; lia)) as W1. pose proof (W 2%nat ltac:(cbn; lia)) as W2.
  cbn in W0, W1, W2. now rewrite W0, W1, W2.
Qed.

Lemma g_noise : forall out, run_rmsynth g_mpfit e_fit g_data g_opts = POk out -> exists n, r_dFDFth out = Some n /\ 0 < n.
Proof.
  intros out R. destruct (run_noise _ _ _ _ _ _ _ _ _ _ _ _ g_input g_good_opts R) as (I0 & EI & SW & E & _). rewrite (g_flux out R) in EI. injection EI as <-.
  eexists. split; [exact E|]. apply Rdiv_lt_0_compat; [|exact SW]. apply Rmult_lt_0_compat; [rewrite Rabs_pos_eq; lra|]. apply sqrt_lt_R0.
  destruct g_run as (out' & R' & MM). rewrite R in R'. injection R' as <-. rewrite (g_weights out R). cbn [length e_freq seq map nth g_e]. rewrite !MM by lia. rewrite !rsum_cons, rsum_nil.
  unfold chan_noise. destruct (Req_EM_T 2 0); [lra|]. rewrite !Rabs_pos_eq by lra. lra.
Qed.

(** Everything the theorems ask for; a full gain takes the source away at once. *)
Theorem g_all : exists out fw n res comp,
  run_rmsynth g_mpfit e_fit g_data g_opts = POk out /\ odd_centred (r_phi out) 1 (1 / 4) /\
  thin_columns e_freq g_Q g_U (stokes_model g_opts (r_fit out) e_freq) (1 / 2) 0 0 /\ flagged_alike g_Q g_U /\
  (forall j, (j < 3)%nat -> stokes_model g_opts (r_fit out) e_freq j = 2 /\ 0 < nth j (r_weight out) 0) /\
  lsq (nth 0 e_freq 0) <> lsq (nth 1 e_freq 0) /\
  INR (length (r_phi out)) * (1 / 4) * Rabs (lsq (nth 0 e_freq 0) - lsq (nth 1 e_freq 0)) < PI /\
  length (r_phi out) = 3%nat /\ nth 1 (r_phi out) 0 = 0 /\ r_Ifreq0 out = Some 2 /\ r_fwhm out = Some fw /\ 0 < fw /\ r_dFDFth out = Some n /\ 0 < n /\
  threshold (r_dFDFth out) (1 / 2) (1 / 2) /\ run_rmclean (saved out) (1 / 2) 10 1 None = POk res /\ k_cc res = map Some comp.
Proof.
  destruct g_run as (out & R & MM). destruct (g_fwhm out R) as (fw & EF & PF). destruct (g_noise out R) as (n & EN & PN). pose proof (g_step out R) as OC. pose proof (g_weights out R) as EW.
  assert (L3 : length (r_phi out) = 3%nat) by (destruct OC; lia).
  assert (NE : lsq (nth 0 e_freq 0) <> lsq (nth 1 e_freq 0)) by (cbn [nth e_freq]; rewrite e_lsq1, e_lsq by lra; lra).
  assert (AL : INR (length (r_phi out)) * (1 / 4) * Rabs (lsq (nth 0 e_freq 0) - lsq (nth 1 e_freq 0)) < PI).
  { rewrite L3. cbn [nth e_freq]. rewrite e_lsq1, e_lsq by lra. replace (Rabs (1 - 2 ^ 2)) with 3 by (rewrite Rabs_left by lra; ring). simpl INR. pose proof PI2_3_2. lra. }
  assert (TH : threshold (r_dFDFth out) (1 / 2) (1 / 2)) by (left; split; [lra|reflexivity]).
  destruct (saved_cleanable g_mpfit e_fit g_data g_opts e_freq g_I g_Q g_U g_e g_e g_e out g_input g_good_opts R 1 (1 / 4) 0 1 OC) with (fw := fw) as (D & CI & _);
    try exact NE; try exact AL; try exact EF; try lra; try (cbn; lia); try discriminate; try (rewrite MM by lia; lra); try (rewrite EW; cbn; lra).
  assert (N0 : ci_dFDFth (saved out) <> Some 0) by (cbn [saved ci_dFDFth]; rewrite EN; intros [= ->]; lra).
  destruct (clean_tool_ends _ _ _ _ _ CI N0 (1 / 2) 10%nat 1 None) as (res & CL); [left; exists (1 / 2); split; [exact TH|lra]|].
  destruct (clean_tool_spectra _ _ _ _ _ CI _ _ TH ltac:(lra) _ _ _ _ CL) as (_ & _ & rs & comp & clean & _ & _ & _ & _ & EC & _).
  exists out, fw, n, res, comp. split; [exact R|]. split; [exact OC|]. split.
  { intros k q u Hk E1 E2. cbn in Hk. rewrite MM by lia. assert (q = 1 /\ u = 0) as [-> ->].
    { destruct k as [|[|[|k]]]; try lia; cbn in E1, E2; injection E1 as <-; injection E2 as <-; auto. }
    replace (2 * (0 + 0 * lsq (nth k e_freq 0))) with 0 by ring. rewrite cis_0. apply injective_projections; cbn; field. }
  split. { intros [|[|[|j]]]; cbn; split; try discriminate; intros; destruct j; reflexivity. }
  split. { intros j Hj. split; [now apply MM|]. rewrite EW. destruct j as [|[|[|j]]]; cbn; try lra; lia. }
  repeat (split; [first [assumption|exact (g_flux out R)]|]). split; [destruct OC as [_ OV]; rewrite OV by lia; simpl INR; ring|].
  split; [exact (g_flux out R)|]. repeat (split; [assumption|]). assumption.
Qed.

(** Not so: the prediction is the data once all is cleaned. *)
Theorem clean_model_thin_refuted : exists mpfit fit d o freq iA Q U dI dQ dU out res comp p,
  good_input d (o_noStokesI o) freq iA Q U dI dQ dU /\ good_opts mpfit o (length freq) /\ run_rmsynth mpfit fit d o = POk out /\
  o_modStokesI o = None /\ o_fitfun o = Log /\ o_super o = false /\
  thin_columns freq Q U (stokes_model o (r_fit out) freq) p 0 0 /\
  run_rmclean (saved out) (1 / 2) 10 1 None = POk res /\ k_cc res = map Some comp /\
  (forall j, (j < length (r_phi out))%nat -> nth j (k_resid res) None = Some (RtoC 0)) /\
  exists QU Im, calculate_QU_model freq (r_phi out) comp (r_lam0 out) (Some (params (r_fit out))) = POk (QU, Im) /\
    forall j, (j < length freq)%nat -> nth j Q None = Some 1 /\ nth j U None = Some 0 /\ nth j QU czero = RtoC 2.
Proof.
  destruct g_all as (out & fw & n & res & comp & R & OC & TC & FA & MW & NE & AL & L3 & N0 & EI & EF & PF & EN & PN & TH & CL & EC).
  assert (M2 : forall j, (j < 3)%nat -> stokes_model g_opts (r_fit out) e_freq j <> 0) by (intros j Hj; rewrite (proj1 (MW j Hj)); lra).
  assert (CT := clean_thin g_mpfit e_fit g_data g_opts e_freq g_I g_Q g_U g_e g_e g_e out g_input g_good_opts R 1 (1 / 4) 0 1 OC ltac:(lra) ltac:(cbn; lia) ltac:(cbn; lia)
    ltac:(discriminate) ltac:(discriminate) (M2 0%nat ltac:(lia)) (M2 1%nat ltac:(lia)) (proj2 (MW 0%nat ltac:(lia))) (proj2 (MW 1%nat ltac:(lia))) NE AL
    (1 / 2) 0 0 1%nat TC ltac:(lra) FA ltac:(lia) N0 2 fw EI ltac:(lra) EF ltac:(lra) (1 / 2) (1 / 2) 10%nat 1 res TH ltac:(lra) ltac:(lra) CL).
  assert (CM := clean_model_thin g_mpfit e_fit g_data g_opts e_freq g_I g_Q g_U g_e g_e g_e out g_input g_good_opts R 1 (1 / 4) 0 1 OC ltac:(lra) ltac:(cbn; lia) ltac:(cbn; lia)
    ltac:(discriminate) ltac:(discriminate) (M2 0%nat ltac:(lia)) (M2 1%nat ltac:(lia)) (proj2 (MW 0%nat ltac:(lia))) (proj2 (MW 1%nat ltac:(lia))) NE AL
    (1 / 2) 0 0 1%nat TC ltac:(lra) FA ltac:(lia) N0 eq_refl eq_refl eq_refl 2 fw EI ltac:(lra) EF ltac:(lra) (1 / 2) (1 / 2) 10%nat 1 res comp TH ltac:(lra) ltac:(lra) CL EC).
  cbv zeta in CT. destruct CT as (K1 & K2 & K3 & _ & RS & _).
  assert (K : (0 < k_nIter res)%nat).
  { destruct (k_nIter res) as [|k]; [|lia]. destruct K2 as [K2|K2]; [discriminate|]. cbn [pow] in K2. lra. }
  assert (PZ : (1 - 1) ^ k_nIter res = 0) by (replace (1 - 1) with 0 by ring; apply pow_i; exact K).
  exists g_mpfit, e_fit, g_data, g_opts, e_freq, g_I, g_Q, g_U, g_e, g_e, g_e, out, res, comp, (1 / 2).
  split; [exact g_input|]. split; [exact g_good_opts|]. split; [exact R|]. do 3 (split; [reflexivity|]). split; [exact TC|]. split; [exact CL|]. split; [exact EC|]. split.
  { intros j Hj. destruct (run_refines _ _ _ _ _ _ _ _ _ _ _ _ g_input g_good_opts R) as (h & st & pm & I0 & _ & _ & _ & _ & _ & _ & _ & _ & _ & _ & _ & _ & _ & _ & _ & HF).
    rewrite (RS j _ (HF j Hj)), PZ. f_equal. ring. }
  destruct CM as (QU & Im & E & _ & _ & HQ). exists QU, Im. split; [exact E|]. intros j Hj. cbn in Hj.
  assert (EQ : nth j g_Q None = Some 1) by (destruct j as [|[|[|j]]]; try reflexivity; lia). assert (EU : nth j g_U None = Some 0) by (destruct j as [|[|[|j]]]; try reflexivity; lia).
  split; [exact EQ|]. split; [exact EU|]. destruct (HQ j ltac:(cbn; lia)) as (_ & HQ'). rewrite (HQ' 1 0 EQ EU), PZ. apply injective_projections; cbn; ring.
Qed.

Theorem g_input_ok : exists out d rm fw n, run_rmsynth g_mpfit e_fit g_data g_opts = POk out /\ clean_input (saved out) d rm fw 3 /\ 0 < fw /\ increasing (ci_phi (saved out)) /\
  ci_dFDFth (saved out) = Some n /\ 0 < n /\ threshold (ci_dFDFth (saved out)) (1 / 2) (1 / 2).
Proof.
  destruct g_all as (out & fw & n & res & comp & RU & OC & TC & FA & MW & NE & AL & L3 & N0 & EI & EF & PF & EN & PN & TH & CL & EC).
  assert (M2 : forall j, (j < 3)%nat -> stokes_model g_opts (r_fit out) e_freq j <> 0) by (intros j Hj; rewrite (proj1 (MW j Hj)); lra).
  destruct (saved_cleanable g_mpfit e_fit g_data g_opts e_freq g_I g_Q g_U g_e g_e g_e out g_input g_good_opts RU 1 (1 / 4) 0 1 OC ltac:(lra) ltac:(cbn; lia) ltac:(cbn; lia)
    ltac:(discriminate) ltac:(discriminate) (M2 0%nat ltac:(lia)) (M2 1%nat ltac:(lia)) (proj2 (MW 0%nat ltac:(lia))) (proj2 (MW 1%nat ltac:(lia))) NE AL fw EF ltac:(lra)) as (D & CI & _).
  rewrite L3 in CI. exists out, D. eexists. exists fw, n. split; [exact RU|]. split; [exact CI|]. split; [exact PF|]. split; [|auto].
  destruct OC as [OL OV]. cbn [saved ci_phi]. intros i j Hij. rewrite !OV by lia. destruct Hij as [H1 H2]. apply lt_INR in H1. lra.
Qed.

Theorem g_no_noise : exists i d rm fw out, clean_input i d rm fw 3 /\ ci_dFDFth i = None /\ run_rmclean i (-3) 10 1 None = POk out.
Proof.
  destruct g_input_ok as (out & d & rm & fw & n & RU & CI & _). set (i := mk_cin (r_phi out) (r_freq out) (r_FDF out) (r_phi2 out) (r_RMSF out) (r_fwhm out) None (r_lam0 out)).
  assert (CI' : clean_input i d rm fw 3) by exact CI.
  destruct (clean_tool_ends i d rm fw 3 CI' ltac:(discriminate) (-3) 10%nat 1 None) as (res & CL); [right; split; [reflexivity|lra]|]. exists i, d, rm, fw, res. auto.
Qed.
