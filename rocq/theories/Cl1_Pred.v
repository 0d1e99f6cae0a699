(** The Q, U prediction of clean_model.py, for its command line, for any clean
    components, and for those of a thin source put through both 1-D tools. *)
From Coq Require Import Reals List Arith ZArith Bool Lra Lia Psatz.
Set Warnings "-ambiguous-paths".
From Coquelicot Require Import Coquelicot.
From Verif Require Import CBase NdArray PyRes PyStr PyList PyList_Proofs Interp_Model Synth_Model Synth_Spec Synth_Proofs Synth_Laws Rmsf_Proofs Setup_Spec Setup_Proofs
  StokesI_Model StokesI_Spec StokesI_Proofs Clean_Model Clean_Spec Clean_Proofs Clean_Laws Clean_Grid Clean_More Clean_Total CleanTop_Model Measure_Model Measure_Spec Measure_Proofs Measure_Laws
  Sigma_Proofs Rmsf_Peak Run1D_Model Run1D_Spec Run1D_Proofs Run1D_Laws Cl1_Model Cl1_Spec Cl1_Proofs Cl1_Thin.
Import ListNotations.
Local Open Scope R_scope.

(** ** The command line *)
Theorem clean_model_fails : forall fs table json spectra freqfile rmSynthfile CCfile outfile,
  clean_model_main fs table json spectra freqfile rmSynthfile CCfile outfile = PErr.
Proof. intros. unfold clean_model_main, read_files. cbn [np_loadtxt py_open pybind]. destruct (table _); reflexivity. Qed.

(** ** The prediction *)
Lemma combine_map_l : forall {A B D} (f : A -> B) (g : A -> D) l, combine (map f l) (map g l) = map (fun x => (f x, g x)) l.
Proof. induction l; cbn; congruence. Qed.

Theorem qu_model_predicts : forall fr freq phi CC l0, fit_function fr = Log -> length (params fr) = 6%nat -> ref_freq fr = 299792458 / sqrt l0 ->
  length CC = length phi ->
  calculate_QU_model freq phi CC l0 (Some (params fr)) =
  POk (map (fun f => RtoC (model_at fr f) * csum (map (fun k => nth k CC czero * cis (2 * (nth k phi 0 * (lsq f - l0)))) (seq 0 (length phi))))%C freq,
       map (model_at fr) freq).
Proof.
  intros fr freq phi CC l0 EF L6 ER LC. unfold calculate_QU_model.
  set (fr1 := mk_fit _ _ _ _ _ _ _ _ _ _ _). rewrite (calc_spec fr1 freq L6 ltac:(discriminate)). cbn [pybind].
  assert (EM : forall f, model_at fr1 f = model_at fr f) by (intros f; unfold model_at; rewrite EF, ER; reflexivity).
  f_equal. f_equal; [|apply map_ext; exact EM].
  rewrite map_map, combine_map_l, map_map. apply map_ext. intros f. cbn [fst snd]. rewrite EM. f_equal.
  rewrite (csum_combine_nth phi CC (fun p c => (c * cis (2 * (p * ((c_light / f) ^ 2 - l0))))%C) LC). rewrite LC. reflexivity.
Qed.

(** ** The Stokes I model saved by the synthesis tool *)
Lemma frac_fun : forall mpfit freq iA Q U dI dQ dU po ff IM q u dq du fr,
  create_frac_spectra mpfit freq iA Q U dI dQ dU po ff None = Some (IM, q, u, dq, du, fr) -> fit_function fr = ff.
Proof.
  intros mpfit freq iA Q U dI dQ dU po ff IM q u dq du fr H. unfold create_frac_spectra in H.
  match type of H with (if ?b then _ else _) = _ => destruct b; [discriminate|] end.
  match type of H with (let '(_, _) := ?e in _) = _ => destruct e as [M fr1] eqn:EM end. injection H as _ _ _ _ _ <-.
  match type of EM with match ?e with _ => _ end = _ => destruct e as [[M' fr2]|] eqn:EB end; [|injection EM as _ <-; reflexivity].
  injection EM as -> ->. apply pybind_ok in EB. destruct EB as (fr & E1 & E2). apply pybind_ok in E2. destruct E2 as (m & E2 & E3).
  assert (K : fit_function fr = ff).
  { unfold fit_StokesI_model in E1. destruct (good_chans freq iA dI); [discriminate|]. apply pybind_ok in E1. destruct E1 as ([[mp a] po'] & _ & E1). injection E1 as <-. reflexivity. }
  destruct m; [discriminate|]. injection E3 as _ <-. repeat match goal with |- context [if ?b then _ else _] => destruct b end; exact K.
Qed.

Lemma renorm_fun : forall fr f fr', renormalize_StokesI_model fr f = POk fr' -> fit_function fr' = fit_function fr.
Proof.
  intros fr f fr' H. unfold renormalize_StokesI_model in H. repeat match type of H with match ?e with _ => _ end = _ => destruct e; try discriminate end; injection H as <-; reflexivity.
Qed.

Lemma run_fit_form : forall mpfit fit d o freq iA Q U dI dQ dU out,
  good_input d (o_noStokesI o) freq iA Q U dI dQ dU -> good_opts mpfit o (length freq) -> run_rmsynth mpfit fit d o = POk out ->
  o_modStokesI o = None -> fit_function (r_fit out) = o_fitfun o /\ length (params (r_fit out)) = 6%nat.
Proof.
  intros mpfit fit d o freq iA Q U dI dQ dU out GI GO RUN NM. pose proof GI as (IC & LI & LQ & LU & LdI & LdQ & LdU & Hf). pose proof GO as (LP & OF & LM).
  destruct (run_inv _ _ _ _ _ _ _ _ _ _ _ _ GI GO RUN) as (h' & step' & pm & I1 & _ & _ & _ & _ & _ & _ & _ & ML & EL & _).
  destruct (run_raw mpfit fit _ _ _ _ _ _ _ _ _ _ RUN IC) as (IM & q & u & dq & du & fr & dp & phi & w & r & s & freq0 & fr' & I0 & m & sg & EF & _ & EG & _ & _ & _ & _ & EA & _ & _ & _ & EO).
  assert (Hn : (0 < length freq)%nat) by (apply grid_params_two in EG; rewrite map_length in EG; lia).
  destruct (frac_model mpfit freq iA Q U dI dQ dU _ _ _ _ _ _ _ _ _ Hn LI LQ LU LdI LdQ LdU Hf LM OF LP EF) as (US & _).
  assert (L0 : 0 <= synth_lam0 r) by (assert (E : r_lam0 out = synth_lam0 r) by (rewrite EO; reflexivity); rewrite <- E, EL; destruct (o_super o); lra).
  destruct (at_reference_spec _ _ _ _ _ _ _ US L0 EA) as (_ & _ & _ & X). rewrite NM in X, EF, EA. destruct X as (_ & _ & U6 & _).
  assert (E : r_fit out = fr') by (rewrite EO; reflexivity). rewrite E. split; [|exact U6]. rewrite <- (frac_fun _ _ _ _ _ _ _ _ _ _ _ _ _ _ _ _ EF).
  unfold at_reference in EA. apply pybind_ok in EA. destruct EA as ([f0 fr1] & H1 & H2). apply pybind_ok in H2. destruct H2 as (i0 & _ & H2). injection H2 as _ <- _.
  destruct (Req_EM_T (synth_lam0 r) 0); [injection H1 as _ <-; reflexivity|]. destruct (Rlt_dec (synth_lam0 r) 0); [discriminate|].
  apply pybind_ok in H1. destruct H1 as (fr2 & H1 & H3). injection H3 as _ <-. exact (renorm_fun _ _ _ H1).
Qed.

Section Pred1D.
  Variables (mpfit : mpin -> pyres mpres) (fit : bool -> list R -> list (option C) -> option (Z * R)).
  Variables (d : synth_data) (o : run_opts) (freq : list R) (iA Q U dI dQ dU : list (option R)) (out : synth_out).
  Hypothesis GI : good_input d (o_noStokesI o) freq iA Q U dI dQ dU.
  Hypothesis GO : good_opts mpfit o (length freq).
  Hypothesis RUN : run_rmsynth mpfit fit d o = POk out.

  Let mdl := stokes_model o (r_fit out) freq.
  Let chs := used_chans freq Q U mdl (r_weight out).
  Let qch := q_chans freq Q mdl (r_weight out).
  Let n := length (r_phi out).

  Variables (h : nat) (step : R) (j1 j2 : nat).
  Hypothesis OC : odd_centred (r_phi out) h step.
  Hypothesis Hs : 0 < step.
  Hypothesis J1 : (j1 < length freq)%nat.
  Hypothesis J2 : (j2 < length freq)%nat.
  Hypothesis Q1 : nth j1 Q None <> None.
  Hypothesis Q2 : nth j2 Q None <> None.
  Hypothesis M1 : mdl j1 <> 0.
  Hypothesis M2 : mdl j2 <> 0.
  Hypothesis W1 : 0 < nth j1 (r_weight out) 0.
  Hypothesis W2 : 0 < nth j2 (r_weight out) 0.
  Hypothesis Hne : lsq (nth j1 freq 0) <> lsq (nth j2 freq 0).
  Hypothesis Hal : INR n * step * Rabs (lsq (nth j1 freq 0) - lsq (nth j2 freq 0)) < PI.

  (** Synthesis, CLEAN, prediction: the source comes back times what was
      cleaned away, and times its own flux at the reference frequency. *)
  Theorem clean_model_thin : forall p psi RM i, thin_columns freq Q U mdl p psi RM -> 0 < p -> flagged_alike Q U ->
    (0 < i < n - 1)%nat -> nth i (r_phi out) 0 = RM ->
    o_modStokesI o = None -> o_fitfun o = Log -> o_super o = false ->
    forall I0 fw, r_Ifreq0 out = Some I0 -> 0 < I0 -> r_fwhm out = Some fw -> fw <> 0 ->
    forall cutoff t maxIter gain res comp, threshold (r_dFDFth out) cutoff t -> 0 < t -> 0 < gain <= 1 ->
    run_rmclean (saved out) cutoff maxIter gain None = POk res -> k_cc res = map Some comp ->
    exists QU Im, calculate_QU_model freq (r_phi out) comp (r_lam0 out) (Some (params (r_fit out))) = POk (QU, Im) /\
      length QU = length freq /\ length Im = length freq /\
      forall j, (j < length freq)%nat -> nth j Im 0 = mdl j /\
        forall q u, nth j Q None = Some q -> nth j U None = Some u ->
          nth j QU czero = (RtoC (I0 * (1 - (1 - gain) ^ k_nIter res)) * (q, u))%C.
  Proof.
    intros p psi RM i T Hp FA Hi HRM NM LG NS I0 fw EI HI EF Hfw cutoff t maxIter gain res comp HT Ht Hg CL ECC.
    destruct (run_fit_form _ _ _ _ _ _ _ _ _ _ _ _ GI GO RUN NM) as (FF & L6). rewrite LG in FF.
    destruct (run_inv _ _ _ _ _ _ _ _ _ _ _ _ GI GO RUN) as (h' & step' & pm & I1 & _ & _ & _ & _ & _ & _ & _ & ML & EL & EF0 & _ & ER & _).
    rewrite NS in EL. rewrite <- EL in EF0. specialize (EF0 NS). rewrite EF0 in ER.
    pose proof (clean_thin mpfit fit d o freq iA Q U dI dQ dU out GI GO RUN h step j1 j2 OC Hs J1 J2 Q1 Q2 M1 M2 W1 W2 Hne Hal
      p psi RM i T Hp FA Hi HRM I0 fw EI HI EF Hfw cutoff t maxIter gain res HT Ht Hg CL) as CT. cbv zeta in CT. destruct CT as (_ & _ & _ & CC & _). fold n in CC.
    assert (LC : length comp = n).
    { destruct (saved_cleanable mpfit fit d o freq iA Q U dI dQ dU out GI GO RUN h step j1 j2 OC Hs J1 J2 Q1 Q2 M1 M2 W1 W2 Hne Hal fw EF Hfw) as (D & CI & _).
      destruct (tool_inv _ _ _ _ _ CI cutoff maxIter gain None res CL) as (r & Er & _ & EC & _). destruct (tool_lengths (saved out) cutoff maxIter gain None r Er) as (_ & L2 & _).
      rewrite <- EC, ECC, map_length in L2. exact L2. }
    rewrite (qu_model_predicts (r_fit out) freq (r_phi out) comp (r_lam0 out) FF L6 ER LC). eexists. eexists. split; [reflexivity|].
    rewrite !map_length. split; [reflexivity|]. split; [reflexivity|]. intros j Hj.
    assert (EMj : model_at (r_fit out) (nth j freq 0) = mdl j) by (unfold mdl, stokes_model; rewrite NM; reflexivity).
    split; [rewrite (nth_map_lt _ _ _ _ 0) by auto; exact EMj|]. intros q u Eq Eu. rewrite (nth_map_lt _ _ _ _ 0) by auto. rewrite EMj.
    rewrite (T j q u Hj Eq Eu). fold n.
    assert (CV : forall k, (k < n)%nat -> nth k comp czero = if Nat.eqb k i then (RtoC (I0 * p) * cis (2 * (psi + RM * r_lam0 out)) * RtoC (1 - (1 - gain) ^ k_nIter res))%C else RtoC 0).
    { intros k Hk. specialize (CC k Hk). rewrite ECC, (nth_map_lt _ _ _ _ czero) in CC by lia. now injection CC. }
    rewrite (csum_map_ext _ (fun k => if Nat.eqb k i then (RtoC (I0 * p) * cis (2 * (psi + RM * lsq (nth j freq 0))) * RtoC (1 - (1 - gain) ^ k_nIter res))%C else RtoC 0)).
    2:{ intros k Hk. apply in_seq in Hk. rewrite CV by lia. destruct (Nat.eqb_spec k i) as [->|]; [|ring]. rewrite HRM.
        replace (2 * (psi + RM * lsq (nth j freq 0))) with (2 * (psi + RM * r_lam0 out) + 2 * (RM * (lsq (nth j freq 0) - r_lam0 out))) by ring. rewrite cis_plus. ring. }
    change (RtoC 0) with czero. rewrite (csum_one nil (fun _ => RtoC (I0 * p) * cis (2 * (psi + RM * lsq (nth j freq 0))) * RtoC (1 - (1 - gain) ^ k_nIter res))%C i n ltac:(lia)). rewrite !RtoC_mult. ring.
  Qed.
End Pred1D.
