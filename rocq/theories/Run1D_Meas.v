(** What the 1-D tool measures on the spectrum it saves. *)
From Coq Require Import Reals List Arith ZArith Bool Lra Lia.
Set Warnings "-ambiguous-paths".
From Coquelicot Require Import Coquelicot.
From Verif Require Import CBase NdArray PyRes PyList PyList_Proofs Peak_Proofs Interp_Model Synth_Model Synth_Spec Synth_Proofs Synth_Laws Rmsf_Proofs CleanTop_Model
  Setup_Model Setup_Spec Setup_Proofs StokesI_Model StokesI_Spec StokesI_Proofs StokesI_Fit Measure_Model Measure_Spec Measure_Proofs Measure_Laws QU_Model QU_Spec QU_Proofs
  Sim_Proofs Rmsf_Peak Clean_Grid Run1D_Model Run1D_Spec Run1D_Proofs Run1D_Laws Run1D_Refute.
Import ListNotations.
Local Open Scope R_scope.

Lemma list_seq : forall {A} (l : list A) d, l = map (fun j => nth j l d) (seq 0 (length l)).
Proof.
  intros A l d. apply (nth_ext _ _ d d); [now rewrite map_length, seq_length|]. intros j Hj. rewrite (nth_map_lt _ _ _ _ 0%nat) by (rewrite seq_length; auto).
  rewrite seq_nth by auto. reflexivity.
Qed.

Lemma combine_map2 : forall {A B D} (f : D -> A) (g : D -> B) l, combine (map f l) (map g l) = map (fun j => (f j, g j)) l.
Proof. intros. induction l; cbn; congruence. Qed.

Lemma tab2_col : forall n (g : nat -> list (option C)), length (g 0%nat) = n -> tab2 n 1 (fun k p => nth k (g p) None) = g 0%nat.
Proof.
  intros n g L. apply (nth_ext _ _ None None); [rewrite length_tab2; lia|]. intros k Hk. rewrite length_tab2 in Hk.
  pose proof (at2_tab2 n 1 (fun k p => nth k (g p) None) None k 0) as X. unfold at2 in X. replace (k * 1 + 0)%nat with k in X by lia. apply X; lia.
Qed.

Section Meas.
  Variables (mpfit : mpin -> pyres mpres) (fit : bool -> list R -> list (option C) -> option (Z * R)).
  Variables (d : synth_data) (o : run_opts) (freq : list R) (iA Q U dI dQ dU : list (option R)) (out : synth_out).
  Hypothesis GI : good_input d (o_noStokesI o) freq iA Q U dI dQ dU.
  Hypothesis GO : good_opts mpfit o (length freq).
  Hypothesis RUN : run_rmsynth mpfit fit d o = POk out.
  Let mdl := stokes_model o (r_fit out) freq.

  (** C62: the parameters are measured on the saved spectrum *)
  Theorem run_parms : measure_FDF_parms (r_FDF out) (r_phi out) (r_fwhm out) (Some (r_dFDFth out)) (map lsq freq) (r_lam0 out) 5 = POk (r_parms out) /\
    (forall e I0, ampPeakPIfitEff (r_parms out) = Some e -> r_Ifreq0 out = Some I0 -> I0 <> 0 -> r_fracPol out = Some (e / I0)).
  Proof.
    destruct (run_inv mpfit fit _ _ _ _ _ _ _ _ _ _ GI GO RUN) as (h & step & pm & I0 & _ & _ & _ & _ & _ & _ & _ & _ & _ & _ & _ & _ & EI & _ & _ & _ & IM & q & u & dq & du & w & s &
      _ & _ & _ & _ & _ & _ & _ & _ & _ & _ & _ & _ & _ & _ & _ & EM & _ & _ & _ & _ & EF & _).
    split; [exact EM|]. intros e i Ee Ei Nz. rewrite EF, Ee. rewrite EI in Ei. injection Ei as ->. unfold odiv. destruct (Req_EM_T i 0); [contradiction|reflexivity].
  Qed.

  (** C62: the width of the spread function *)
  Theorem run_fwhm : exists mx mn, is_max (map lsq freq) mx /\ is_min (map lsq freq) mn /\
    let width := if Req_EM_T mx mn then None else Some (38 / 10 / (mx - mn)) in
    r_fwhm out = (if (o_fitRMSF o || o_super o)%bool
                  then match fit (o_super o) (r_phi2 out) (r_RMSF out) with
                       | Some (st, fw) => if Z_lt_dec st 1 then width else Some fw
                       | None => width
                       end
                  else width).
  Proof.
    destruct (run_inv mpfit fit _ _ _ _ _ _ _ _ _ _ GI GO RUN) as (h & step & pm & I0 & CG & _ & _ & _ & _ & _ & _ & _ & _ & _ & _ & _ & EI & _ & _ & _ & IM & q & u & dq & du & w & s &
      _ & Lq & _ & _ & _ & _ & _ & _ & _ & _ & ER & E2 & E3 & E4 & _).
    destruct CG as (mx & mn & gap & Mx & Mn & _). exists mx, mn. split; [exact Mx|]. split; [exact Mn|]. cbv zeta.
    assert (W : fwhm_analytic (map lsq freq) = if Req_EM_T mx mn then None else Some (38 / 10 / (mx - mn))).
    { unfold fwhm_analytic. destruct (rmax_list (map lsq freq)) as [a|] eqn:Ea.
      2:{ destruct Mx as [Mx _]. destruct (map lsq freq); [destruct Mx|discriminate]. }
      destruct (rmin_list (map lsq freq)) as [b|] eqn:Eb.
      2:{ destruct Mx as [Mx _]. destruct (map lsq freq); [destruct Mx|discriminate]. }
      apply rmax_list_spec in Ea. apply rmin_list_spec in Eb. destruct Mx as [X1 X2], Mn as [N1 N2], Ea as [A1 A2], Eb as [B1 B2].
      assert (a = mx) as -> by (apply Rle_antisym; auto). assert (b = mn) as -> by (apply Rle_antisym; auto).
      destruct (Req_EM_T (mx - mn) 0), (Req_EM_T mx mn); try reflexivity; exfalso; lra. }
    rewrite <- W, E4, E2, E3. clear W Mx Mn. clear E4 E2 E3.
    unfold get_rmsf_planes in ER. destruct (phi2_grid true (r_phi out)) as [phi2|]; [|discriminate].
    repeat match type of ER with (if negb ?b then _ else _) = _ => destruct b; cbn [negb] in ER; [|discriminate ER] end.
    remember (map lsq freq) as l2 eqn:El. destruct l2 as [|x0 l0]; [discriminate ER|]. remember (x0 :: l0) as l2 eqn:El2. clear El2 x0 l0. injection ER as <-.
    subst l2. cbn [shape tl prodn fold_right flat phi2Arr RMSFcube fwhmRMSFArr length Nat.eqb]. cbn [seq map squeeze filter flat shape].
    match goal with |- context [tab2 ?n 1 (fun k p => nth k (@?g p) None)] => rewrite (tab2_col n g) end;
      [|unfold rmsf_1d, rmsf_pix; repeat match goal with |- context [match ?x with _ => _ end] => destruct x end; unfold nufft1d3; rewrite ?map_length, ?rev_length, ?map_length; reflexivity].
    match goal with |- context [if (o_fitRMSF o || o_super o)%bool then match fit _ _ ?r with _ => _ end else _] => set (RS := r) end.
    cbn [nth snd].
    destruct (o_fitRMSF o || o_super o)%bool; [|reflexivity]. destruct (fit (o_super o) phi2 RS) as [[st fw]|]; [|reflexivity].
    destruct (Z.ltb_spec st 1), (Z_lt_dec st 1); try reflexivity; lia.
  Qed.

  Lemma frac_div : forall x e m X E t, fraction x m X -> fraction e m E ->
    odiv (osub X (Some t)) E = resid x e m t /\ odiv E E = unit_error e m.
  Proof.
    intros x e m X E t FX FE. unfold fraction in *. destruct E as [E|].
    - destruct FE as (e0 & -> & Nz & ->). assert (UE : odiv (Some (e0 / m)) (Some (e0 / m)) = unit_error (Some e0) m).
      { unfold odiv, unit_error. destruct (Req_EM_T m 0); [contradiction|]. destruct (Req_EM_T e0 0) as [Z|Z].
        - destruct (Req_EM_T (e0 / m) 0) as [Y|Y]; [reflexivity|]. exfalso. apply Y. rewrite Z. unfold Rdiv. ring.
        - destruct (Req_EM_T (e0 / m) 0) as [Y|Y]; [|f_equal; field; auto]. exfalso. apply Z. replace e0 with (e0 / m * m) by (field; auto). rewrite Y. ring. }
      split; [|exact UE]. destruct X as [X|].
      + destruct FX as (x0 & -> & _ & ->). cbn [osub o2]. unfold odiv, resid. destruct (Req_EM_T m 0); [contradiction|]. destruct (Req_EM_T e0 0) as [Z|Z].
        * destruct (Req_EM_T (e0 / m) 0) as [Y|Y]; [reflexivity|]. exfalso. apply Y. rewrite Z. unfold Rdiv. ring.
        * destruct (Req_EM_T (e0 / m) 0) as [Y|Y]; [|f_equal; field; auto]. exfalso. apply Z. replace e0 with (e0 / m * m) by (field; auto). rewrite Y. ring.
      + destruct FX as [->|]; [reflexivity|contradiction].
    - split.
      + unfold odiv. replace (resid x e m t) with (@None R); [destruct (osub X (Some t)); reflexivity|]. unfold resid.
        destruct FE as [->|Z]; [destruct x; reflexivity|]. destruct x; [|reflexivity]. destruct e; [|reflexivity]. destruct (Req_EM_T m 0); [reflexivity|contradiction].
      + cbn. unfold unit_error. destruct FE as [->|Z]; [reflexivity|]. destruct e; [|reflexivity]. destruct (Req_EM_T m 0); [reflexivity|contradiction].
  Qed.

  (** C62: the complexity is that of the residuals of the reported thin source *)
  Theorem run_complexity : forall p a RM, r_fracPol out = Some p -> polAngle0Fit_deg (r_parms out) = Some a -> phiPeakPIfit (r_parms out) = Some RM ->
    let n := length freq in
    let t j := thin p (rad a) RM (lsq (nth j freq 0)) in
    let col g := map g (seq 0 n) in
    let yq := col (fun j => resid (nth j Q None) (nth j dQ None) (mdl j) (fst (t j))) in
    let yu := col (fun j => resid (nth j U None) (nth j dU None) (mdl j) (snd (t j))) in
    let eq := col (fun j => unit_error (nth j dQ None) (mdl j)) in
    let eu := col (fun j => unit_error (nth j dU None) (mdl j)) in
    exists sq su sc, r_sigma out = (sq, su, sc) /\
      calc_sigma_add n yq eq 0 1000 = POk sq /\ calc_sigma_add n yu eu 0 1000 = POk su /\
      calc_sigma_add (n + n) (yq ++ yu) (eq ++ eu) 0 1000 = POk sc.
  Proof.
    intros p a RM Hp Ha HR n t col yq yu eq eu.
    destruct (run_inv mpfit fit _ _ _ _ _ _ _ _ _ _ GI GO RUN) as (h & step & pm & I0 & CG & _ & _ & _ & _ & _ & _ & _ & _ & _ & _ & _ & EI & _ & _ & _ & IM & q & u & dq & du & w & s &
      _ & Lq & Lu & Ldq & Ldu & _ & HM & HF & _ & _ & _ & _ & _ & _ & _ & _ & _ & _ & _ & _ & _ & EQ & _).
    pose proof GI as (_ & _ & _ & _ & _ & _ & _ & Hf).
    rewrite Hp, Ha, HR in EQ. unfold measure_qu_complexity in EQ.
    destruct (sim_thin_sum (map Some freq) [p] [a] [RM] eq_refl eq_refl) as (x & EB & SP). rewrite EB in EQ. cbn [pybind] in EQ.
    destruct x as [[pm' qm] um]. destruct SP as (_ & L1 & L2 & SP). rewrite map_length in L1, L2.
    assert (TM : forall j, (j < n)%nat -> nth j qm None = Some (fst (t j)) /\ nth j um None = Some (snd (t j))).
    { intros j Hj. assert (NE : nth_error (map Some freq) j = Some (Some (nth j freq 0))) by (rewrite nth_error_map, (nth_error_nth' freq 0) by auto; reflexivity).
      specialize (SP j _ NE). cbn beta iota zeta in SP.
      assert (Nf : nth j freq 0 <> 0) by (apply Rgt_not_eq, Hf, nth_In; auto). destruct (SP Nf) as (_ & S1 & S2). rewrite S1, S2.
      assert (T : csum (map (fun k => thin (nth k [p] 0) (rad (nth k [a] 0)) (nth k [RM] 0) ((c_light / nth j freq 0) ^ 2)) (seq 0 (length [p]))) = t j).
      { cbn [length seq map nth csum]. unfold csum. cbn [fold_right]. rewrite Cplus_0_r. reflexivity. }
      cbn beta in T |- *. split; f_equal; [rewrite <- T|rewrite <- T]; reflexivity. }
    fold n in Lq, Lu, Ldq, Ldu, L1, L2, HM, HF.
    assert (RQ : odiv_l (map (fun ab => osub (fst ab) (snd ab)) (combine q qm)) dq = yq /\ odiv_l dq dq = eq).
    { unfold odiv_l, yq, eq, col. rewrite (list_seq q None), (list_seq qm None), (list_seq dq None), Lq, L1, Ldq, !combine_map2, !map_map.
      rewrite !combine_map2, !map_map. split; apply map_ext_in; intros j J; apply in_seq in J; cbn [fst snd];
      destruct (HF j ltac:(lia)) as (F1 & _ & F3 & _); rewrite HM in F1, F3 by lia; destruct (TM j ltac:(lia)) as [T1 _]; rewrite ?T1; eapply frac_div; eauto. }
    assert (RU : odiv_l (map (fun ab => osub (fst ab) (snd ab)) (combine u um)) du = yu /\ odiv_l du du = eu).
    { unfold odiv_l, yu, eu, col. rewrite (list_seq u None), (list_seq um None), (list_seq du None), Lu, L2, Ldu, !combine_map2, !map_map.
      rewrite !combine_map2, !map_map. split; apply map_ext_in; intros j J; apply in_seq in J; cbn [fst snd];
      destruct (HF j ltac:(lia)) as (_ & F1 & _ & F3); rewrite HM in F1, F3 by lia; destruct (TM j ltac:(lia)) as [_ T1]; rewrite ?T1; eapply frac_div; eauto. }
    destruct RQ as [R1 R2], RU as [R3 R4]. rewrite R1, R2, R3, R4 in EQ. fold n in EQ.
    apply pybind_ok in EQ. destruct EQ as (sq & E1 & EQ). apply pybind_ok in EQ. destruct EQ as (su & E2 & EQ). apply pybind_ok in EQ. destruct EQ as (sc & E3 & EQ).
    injection EQ as EQ. exists sq, su, sc. auto.
  Qed.

  (** C62: the median error and channel width *)
  Theorem run_medians :
    r_dQU out = median (flat_map (fun j => match nth j dQ None, nth j dU None with Some a, Some b => [(a + b) / 2] | _, _ => [] end) (seq 0 (length freq))) /\
    r_median_width out = median (map (fun j => nth (S j) freq 0 - nth j freq 0) (seq 0 (length freq - 1))).
  Proof.
    destruct (run_inv mpfit fit _ _ _ _ _ _ _ _ _ _ GI GO RUN) as (h & step & pm & I0 & CG & _ & _ & _ & _ & _ & _ & _ & _ & _ & _ & _ & EI & _ & _ & _ & IM & q & u & dq & du & w & s &
      _ & Lq & Lu & Ldq & Ldu & _ & HM & HF & _ & _ & _ & _ & _ & _ & _ & _ & _ & _ & _ & _ & _ & _ & E1 & E2).
    pose proof GI as (_ & _ & _ & _ & _ & LdQ & LdU & Hf). split.
    - rewrite E1. f_equal. unfold dQU_of, somes. rewrite (list_seq dQ None) at 1. rewrite (list_seq dU None) at 1. rewrite LdQ, LdU, combine_map2, map_map.
      rewrite !flat_map_concat_map, map_map. f_equal. apply map_ext. intros j. cbn [fst snd]. destruct (nth j dQ None), (nth j dU None); cbn; try reflexivity.
      destruct (Req_EM_T 2 0); [lra|reflexivity].
    - rewrite E2, np_diff_seq. reflexivity.
  Qed.
End Meas.

(** The run of [e_thin] reports a finite source. *)
Lemma e_reported : exists out p a RM, run_rmsynth e_mpfit e_fit (e_data (Some 0)) (e_opts (1 / 2)) = POk out /\
  r_fracPol out = Some p /\ polAngle0Fit_deg (r_parms out) = Some a /\ phiPeakPIfit (r_parms out) = Some RM.
Proof.
  destruct e_thin as (out & h & I0 & R & TC & OC & Hh & N0 & W & NE & NR & EI & PI0). pose proof (e_input (Some 0) (1 / 2)) as GI. pose proof (e_good_opts (1 / 2)) as GO.
  assert (MM : forall j, (j < 3)%nat -> stokes_model (e_opts (1 / 2)) (r_fit out) e_freq j = 1) by (intros [|[|[|j]]] Hj; [reflexivity..|lia]).
  edestruct (run_thin e_mpfit e_fit _ _ _ _ _ _ _ _ _ _ GI GO R 1 0 0 h (1 / 2) h 0%nat 1%nat TC ltac:(lra) OC ltac:(lra) Hh N0) as (E1 & E2 & _ & _ & (a0 & E3 & _) & _);
    [..|exact NE|exact NR|exact EI|exact PI0|]; try (cbn; discriminate); try (cbn; lia); try (rewrite W; cbn; lra); try (rewrite MM by lia; lra).
  destruct (run_parms _ _ _ _ _ _ _ _ _ _ _ _ GI GO R) as [EM EF].
  assert (LF : length (r_FDF out) = length (r_phi out)).
  { destruct (run_inv _ _ _ _ _ _ _ _ _ _ _ _ GI GO R) as (h' & st & pm & I1 & _ & _ & _ & _ & _ & _ & _ & _ & _ & _ & _ & _ & _ & _ & LF & _). exact LF. }
  destruct (measure_shape _ _ _ _ _ _ _ LF _ EM) as (i & z & _ & E4 & E5 & E6 & E7 & _ & E8 & _). cbv zeta in *.
  rewrite E2 in E6. symmetry in E6. destruct (the_kept (r_FDF out) (r_phi out) i) as [[b c]|] eqn:K; [|discriminate E6]. cbn in E6. injection E6 as ->.
  assert (V : exists b', the_vertex (r_FDF out) (r_phi out) i = Some (b', I0 * 1)).
  { unfold the_kept in K. destruct (the_vertex (r_FDF out) (r_phi out) i) as [[x y]|]; [|discriminate]. destruct (rmax_list _); [|discriminate]. destruct (Rltb _ _); [discriminate|].
    injection K as _ ->. eexists. reflexivity. }
  destruct V as [b' V]. rewrite V in E7. cbn [option_map snd] in E7.
  assert (FE : exists e, ampPeakPIfitEff (r_parms out) = Some e).
  { rewrite E8, E2. destruct (oge (snrPIfit (r_parms out)) (Some 5)) eqn:G; [|eexists; reflexivity]. rewrite E7 in G.
    destruct (dAmpPeakPIfit (r_parms out)) as [D|]; [|discriminate]. unfold odiv in G. destruct (Req_EM_T D 0); [discriminate|]. cbn [oge] in G.
    unfold Rleb in G. destruct (Rle_dec 5 (I0 * 1 / D)) as [L|]; [|discriminate]. unfold osub, omul, o2, osqrt.
    destruct (Rle_dec 0 _) as [|N]; [eexists; reflexivity|]. exfalso. apply N.
    assert (PD : 0 < D). { destruct (Rlt_or_le 0 D) as [|Dn]; [assumption|exfalso]. assert (I0 * 1 / D <= 0); [|lra]. unfold Rdiv. apply Rmult_le_0_l; [lra|].
      left. apply Rinv_lt_0_compat. lra. }
    assert (5 * D <= I0) by (replace I0 with (I0 * 1 / D * D) by (field; auto); apply Rmult_le_compat_r; lra). nra. }
  destruct FE as [e FE]. exists out, (e / I0), a0, 0. split; [exact R|]. split; [apply EF; auto; lra|]. split; assumption.
Qed.
