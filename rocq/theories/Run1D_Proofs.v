(** The 1-D tool: what a run returns. *)
From Coq Require Import Reals List Arith ZArith Bool Lra Lia.
Set Warnings "-ambiguous-paths".
From Coquelicot Require Import Coquelicot.
From Verif Require Import CBase NdArray PyRes PyList PyList_Proofs Peak_Proofs Interp_Model Synth_Model Synth_Spec Synth_Proofs Synth_Laws Rmsf_Proofs CleanTop_Model
  Setup_Model Setup_Spec Setup_Proofs StokesI_Model StokesI_Spec StokesI_Proofs StokesI_Fit Measure_Model Measure_Spec Measure_Proofs Measure_Laws QU_Model
  Clean_Grid Run1D_Model Run1D_Spec.
Import ListNotations.
Local Open Scope R_scope.

Lemma pybind_ok : forall {A B} (x : pyres A) (f : A -> pyres B) b, pybind x f = POk b -> exists a, x = POk a /\ f a = POk b.
Proof. intros A B [a|] f b H; cbn in H; [eauto|discriminate]. Qed.


(* ------------------------------------------------------------ small facts *)

Lemma c_light_val : c_light = 299792458.
Proof. reflexivity. Qed.

Lemma pixel_w_ext : forall n m Q U l2 w w' p, (forall j, (j < n)%nat -> nth j w 0 = nth j w' 0) -> pixel_chans n m Q U l2 w p = pixel_chans n m Q U l2 w' p.
Proof.
  intros n m Q U l2 w w' p H. unfold pixel_chans. rewrite !flat_map_concat_map. f_equal. apply map_ext_in. intros j J. apply in_seq in J.
  rewrite H by lia. reflexivity.
Qed.

Lemma live_one : forall n Q U l2 w, wsum (live_chans n 1 Q U l2 w) = wsum (pixel_chans n 1 Q U l2 w 0) /\ mean_l2 (live_chans n 1 Q U l2 w) = mean_l2 (pixel_chans n 1 Q U l2 w 0).
Proof.
  intros n Q U l2 w.
  assert (A : wsum (live_chans n 1 Q U l2 w) = wsum (pixel_chans n 1 Q U l2 w 0)).
  { unfold wsum, live_chans, pixel_chans. rewrite !rsum_flat_map. apply rsum_map_ext. intros j _. cbn [seq existsb].
    destruct (nth (j * 1 + 0) Q None), (nth (j * 1 + 0) U None); cbn; reflexivity. }
  split; [exact A|]. unfold mean_l2. rewrite A. f_equal. unfold live_chans, pixel_chans. rewrite !rsum_flat_map. apply rsum_map_ext. intros j _. cbn [seq existsb].
  destruct (nth (j * 1 + 0) Q None), (nth (j * 1 + 0) U None); cbn; reflexivity.
Qed.

Lemma wsum_mean_pos : forall chs, (forall c, In c chs -> 0 <= c_w c /\ 0 < c_l2 c) -> wsum chs <> 0 -> 0 < wsum chs /\ 0 < mean_l2 chs.
Proof.
  intros chs H W.
  assert (G : forall l, (forall c, In c l -> 0 <= c_w c /\ 0 < c_l2 c) -> 0 <= rsum (map c_w l) /\ (0 < rsum (map c_w l) -> 0 < rsum (map (fun c => c_w c * c_l2 c) l)) /\ 0 <= rsum (map (fun c => c_w c * c_l2 c) l)).
  { induction l as [|c l IH]; intros K; cbn [map]; rewrite ?rsum_nil, ?rsum_cons; [lra|].
    destruct (K c (or_introl eq_refl)) as [K1 K2]. destruct IH as (I1 & I2 & I3); [intros; apply K; now right|].
    assert (0 <= c_w c * c_l2 c) by (apply Rmult_le_pos; lra). repeat split; try lra. intros P.
    destruct (Rlt_dec 0 (c_w c)) as [Q|Q]; [assert (0 < c_w c * c_l2 c) by (apply Rmult_lt_0_compat; lra); lra|].
    assert (0 < rsum (map (fun c => c_w c * c_l2 c) l)) by (apply I2; lra). lra. }
  destruct (G chs H) as (G1 & G2 & _). assert (0 < wsum chs) by (unfold wsum in *; lra). split; auto.
  unfold mean_l2. apply Rdiv_lt_0_compat; auto.
Qed.

Lemma fit_ref_pos : forall g, g <> [] -> (forall t, In t g -> 0 < fst (fst t)) -> 0 < fit_ref g.
Proof.
  intros g N H. unfold fit_ref. apply Rdiv_lt_0_compat; [lra|]. apply sqrt_lt_R0. unfold mean. apply Rdiv_lt_0_compat.
  - apply rsum_pos; [destruct g; [congruence|discriminate]|]. intros x I. apply in_map_iff in I. destruct I as (t & <- & I). specialize (H t I).
    apply Rdiv_lt_0_compat; [lra|]. apply pow_lt; auto.
  - apply lt_0_INR. rewrite map_length. destruct g; [congruence|cbn; lia].
Qed.

Lemma finite_chans_pos : forall freq iA dI, (forall f, In f freq -> 0 < f) -> forall t, In t (finite_chans freq iA dI) -> 0 < fst (fst t).
Proof.
  intros freq iA dI H t I. unfold finite_chans in I. apply in_flat_map in I. destruct I as (k & K & I). apply in_seq in K.
  destruct (nth k iA None); [|destruct I]. destruct (nth k dI None); [|destruct I]. destruct I as [<-|[]]. cbn. apply H, nth_In. lia.
Qed.

Lemma model_at_status : forall fr z f, model_at (with_status fr z) f = model_at fr f.
Proof. reflexivity. Qed.

Lemma unity_model : forall st n po ff f, model_at (unity_fit st n po ff) f = 1.
Proof.
  intros st n po ff f. unfold model_at, unity_fit. cbn [fit_function params ref_freq].
  assert (L : lin_model [0; 0; 0; 0; 0; 1] 1 f = 1).
  { unfold lin_model. cbn [seq map]. rewrite !rsum_cons, rsum_nil. cbn [nth Nat.sub]. rewrite pow_O. ring. }
  destruct ff; auto. unfold log_model. cbn [seq map]. rewrite !rsum_cons, rsum_nil. cbn [nth Nat.sub].
  match goal with |- 1 * Rpower 10 ?e = 1 => replace e with 0 by ring end. rewrite Rpower_O by lra. ring.
Qed.

(** what a Stokes I fit is good for *)
Definition usable (fr : FitResult) : Prop := length (params fr) = 6%nat /\ fit_function fr <> OtherFun /\ 0 < ref_freq fr.

Lemma frac_model : forall mpfit freq iA Q U dI dQ dU po ff modI IM q u dq du fr,
  (0 < length freq)%nat -> length iA = length freq -> length Q = length freq -> length U = length freq -> length dI = length freq ->
  length dQ = length freq -> length dU = length freq -> (forall f, In f freq -> 0 < f) ->
  (forall m, modI = Some m -> length m = length freq) -> ff <> OtherFun -> (forall qn r, mpfit qn = POk r -> length (mp_params r) = 6%nat) ->
  create_frac_spectra mpfit freq iA Q U dI dQ dU po ff modI = Some (IM, q, u, dq, du, fr) ->
  usable fr /\ length IM = length freq /\
  (match modI with Some m => IM = m /\ ref_freq fr = 1 | None => forall j, (j < length freq)%nat -> nth j IM 0 = model_at fr (nth j freq 0) end) /\
  length q = length freq /\ length u = length freq /\ length dq = length freq /\ length du = length freq /\
  forall j, (j < length freq)%nat -> fraction (nth j Q None) (nth j IM 0) (nth j q None) /\ fraction (nth j U None) (nth j IM 0) (nth j u None) /\
    fraction (nth j dQ None) (nth j IM 0) (nth j dq None) /\ fraction (nth j dU None) (nth j IM 0) (nth j du None).
Proof.
  intros mpfit freq iA Q U dI dQ dU po ff modI IM q u dq du fr Hn LI LQ LU LdI LdQ LdU Hf Lm E LP H.
  unfold create_frac_spectra in H. match type of H with (if ?b then _ else _) = _ => destruct b; [discriminate|] end.
  match type of H with (let '(_, _) := ?e in _) = _ => destruct e as [M fr1] eqn:EM end.
  injection H as -> <- <- <- <- <-.
  assert (A : usable fr1 /\ length IM = length freq /\
     (match modI with Some m => IM = m /\ ref_freq fr1 = 1 | None => forall j, (j < length freq)%nat -> nth j IM 0 = model_at fr1 (nth j freq 0) end)).
  { destruct modI as [m|].
    - injection EM as <- <-. repeat split; auto; cbn; try lra.
    - destruct (fit_StokesI_model mpfit freq iA dI po ff) as [fr0|] eqn:EF; cbn [pybind] in EM.
      + pose proof (fit_params_len _ _ _ _ _ _ _ LP EF) as L6. pose proof (fit_fun_kept _ _ _ _ _ _ _ EF) as FK.
        assert (RP : 0 < ref_freq fr0).
        { destruct (fit_order_selection mpfit freq iA dI po ff fr0 LI LdI E EF) as (mp & _ & _ & _ & _ & _ & _ & -> & _).
          apply fit_ref_pos; [|now apply finite_chans_pos]. rewrite <- good_chans_spec by auto. intros Z. unfold fit_StokesI_model in EF. rewrite Z in EF. discriminate. }
        rewrite calc_spec in EM by (auto; congruence). cbn [pybind] in EM.
        destruct (map (model_at fr0) freq) as [|m0 mt] eqn:EMp; [apply (f_equal (@length R)) in EMp; rewrite map_length in EMp; cbn in EMp; lia|].
        rewrite <- EMp in EM. cbv zeta in EM. injection EM as <- <-.
        assert (K : forall fr, params fr = params fr0 -> fit_function fr = fit_function fr0 -> ref_freq fr = ref_freq fr0 ->
          usable fr /\ length (map (model_at fr0) freq) = length freq /\ forall j, (j < length freq)%nat -> nth j (map (model_at fr0) freq) 0 = model_at fr (nth j freq 0)).
        { intros fr K1 K2 K3. split; [unfold usable; rewrite K1, K2, K3; repeat split; auto; congruence|]. split; [now rewrite map_length|].
          intros j Hj. rewrite (nth_map_lt _ _ _ _ 0) by auto. unfold model_at. now rewrite K1, K2, K3. }
        destruct (existsb _ (map (model_at fr0) freq)); destruct (existsb _ (combine (map (model_at fr0) freq) dI)); apply K; reflexivity.
      + injection EM as <- <-. repeat split; auto; cbn [ref_freq unity_fit]; try lra; [now rewrite map_length|].
        intros j Hj. rewrite (nth_map_lt _ _ _ _ None) by lia. now rewrite unity_model. }
  destruct A as (A1 & A2 & A3). split; [exact A1|]. split; [exact A2|]. split; [exact A3|].
  rewrite !frac_len by congruence. repeat (split; [congruence|]). intros j Hj. rewrite <- A2 in Hj. repeat split; apply frac_nth; congruence.
Qed.

Section Run.
  Variables (mpfit : mpin -> pyres mpres) (fit : bool -> list R -> list (option C) -> option (Z * R)).

  Definition good_freqs (freq : list R) (w : list (option R)) (q : list (option R)) : list R :=
    map fst (filter (fun fwq => andb (negb (if Req_EM_T (nan0 (fst (snd fwq))) 0 then true else false)) (is_some (snd (snd fwq)))) (combine freq (combine w q))).

  (** every intermediate result of a run *)
  Lemma run_raw : forall d o freq iA Q U dI dQ dU out, run_rmsynth mpfit fit d o = POk out ->
    input_columns d (o_noStokesI o) freq iA Q U dI dQ dU ->
    exists IM q u dq du fr dp phi w r s freq0 fr' I0 m sg,
      create_frac_spectra mpfit freq iA Q U dI dQ dU (o_polyOrd o) (o_fitfun o) (o_modStokesI o) = Some (IM, q, u, dq, du, fr) /\
      match o_modStokesI o with None => exists v, calculate_StokesI_model fr freq = POk v | Some mI => length freq = length mI end /\
      let l2 := map (fun f => (c_light / f) ^ 2) freq in
      grid_params l2 (o_super o) (o_dPhi o) (o_phiMax o) (o_nSamples o) = POk dp /\
      depth_grid_1D (snd dp) (fst dp) = POk phi /\
      weights_1D (o_variance o) (length freq) (dqu_of dq du) = POk w /\
      do_rmsynth_planes (mk_nd [length q] q) (mk_nd [length u] u) l2 phi (Some w) (if o_super o then Some 0 else None) = Some r /\
      get_rmsf_planes (fit (o_super o)) l2 phi (Some w) (Some (mk_nd [length q] (map is_none q))) (Some (synth_lam0 r))
              true (o_fitRMSF o || o_super o) = RetOk s /\
      at_reference freq (o_modStokesI o) fr (synth_lam0 r) = POk (freq0, fr', I0) /\
      measure_FDF_parms (scale_FDF I0 (flat (FDFcube r))) phi (nth 0 (flat (fwhmRMSFArr s)) None)
        (Some (match I0 with Some i => dFDFth i w (dqu_of dq du) | None => None end)) l2 (synth_lam0 r) 5 = POk m /\
      good_freqs freq w q <> [] /\
      measure_qu_complexity freq q u dq du (odiv (ampPeakPIfitEff m) I0) (polAngle0Fit_deg m) (phiPeakPIfit m) = POk sg /\
      out = mk_out m I0 fr' (synth_lam0 r) freq0 (nth 0 (flat (fwhmRMSFArr s)) None) (median (somes (dQU_of dQ dU)))
             (match I0 with Some i => dFDFth i w (dqu_of dq du) | None => None end)
             (rmin_list (good_freqs freq w q)) (rmax_list (good_freqs freq w q)) (length (good_freqs freq w q))
             (median (np_diff freq)) (odiv (ampPeakPIfitEff m) I0) sg phi (phi2Arr s) (flat (RMSFcube s)) freq (map nan0 w)
             (scale_FDF I0 (flat (FDFcube r))).
  Proof.
    intros d o freq iA Q U dI dQ dU out H C. unfold run_rmsynth in H.
    assert (P : parse_data d (o_noStokesI o) = Some (freq, (iA, dI), (Q, U), (dQ, dU))).
    { destruct C as [(I0 & dI0 & -> & X)|(-> & -> & ->)]; cbn; [destruct (o_noStokesI o); destruct X as [-> ->]; reflexivity|reflexivity]. }
    rewrite P in H. clear P C.
    destruct (create_frac_spectra _ _ _ _ _ _ _ _ _ _ _) as [[[[[[IM q] u] dq] du] fr]|] eqn:EF; [|discriminate].
    apply pybind_ok in H. destruct H as (t & H0 & H).
    apply pybind_ok in H. destruct H as (dp & H1 & H).
    apply pybind_ok in H. destruct H as (phi & H2 & H).
    apply pybind_ok in H. destruct H as (w & H3 & H).
    destruct (do_rmsynth_planes _ _ _ _ _ _) as [r|] eqn:H4; [|discriminate].
    destruct (get_rmsf_planes _ _ _ _ _ _ _ _) as [| |s] eqn:H5; try discriminate.
    apply pybind_ok in H. destruct H as ([[freq0 fr'] I0] & H6 & H).
    apply pybind_ok in H. destruct H as (m & H7 & H).
    match type of H with match ?g with _ => _ end = _ => change g with (good_freqs freq w q) in H end.
    destruct (good_freqs freq w q) as [|g0 gt] eqn:EG; [discriminate|]. rewrite <- EG in H.
    apply pybind_ok in H. destruct H as (sg & H8 & H). injection H as <-.
    exists IM, q, u, dq, du, fr, dp, phi, w, r, s, freq0, fr', I0, m, sg.
    split; [reflexivity|]. split.
    { destruct (o_modStokesI o) as [mI|]; [destruct (Nat.eqb_spec (length freq) (length mI)); [auto|discriminate]|].
      apply pybind_ok in H0. destruct H0 as (v & E & _). eauto. }
    cbv zeta. repeat (split; [eassumption|]). split; [rewrite EG; discriminate|]. split; [exact H8|reflexivity].
  Qed.

  (** the reference frequency and the Stokes I model about it *)
  Lemma at_reference_spec : forall freq modI fr lam0 freq0 fr' I0, usable fr -> 0 <= lam0 ->
    at_reference freq modI fr lam0 = POk (freq0, fr', I0) ->
    freq0 = (if Req_EM_T lam0 0 then ref_freq fr else 299792458 / sqrt lam0) /\ 0 < freq0 /\ ref_freq fr' = freq0 /\
    match modI with
    | None => (forall f, 0 < f -> model_at fr' f = model_at fr f) /\ I0 = Some (model_at fr' freq0) /\ usable fr'
    | Some m => interp1d freq m freq0 = POk I0
    end.
  Proof.
    intros freq modI fr lam0 freq0 fr' I0 U Hl H. unfold at_reference in H. apply pybind_ok in H. destruct H as ([f0 fr1] & H1 & H2).
    apply pybind_ok in H2. destruct H2 as (i0 & H2 & H3). injection H3 as <- <- <-. pose proof U as (U1 & U2 & U3).
    destruct (Req_EM_T lam0 0) as [Z|Z].
    - injection H1 as <- <-. split; [reflexivity|]. split; [auto|]. split; [reflexivity|]. destruct modI as [m|]; [auto|].
      rewrite calc_spec in H2 by auto. cbn in H2. injection H2 as <-. auto.
    - destruct (Rlt_dec lam0 0) as [N|N]; [lra|]. rewrite c_light_val in H1. assert (P : 0 < 299792458 / sqrt lam0).
      { apply Rdiv_lt_0_compat; [lra|]. apply sqrt_lt_R0. lra. }
      destruct modI as [m|].
      + injection H1 as <- <-. repeat split; auto.
      + apply pybind_ok in H1. destruct H1 as (fr2 & R & H1). injection H1 as <- <-.
        assert (G : good_fit fr).
        { split; auto. split; [|auto]. unfold renormalize_StokesI_model in R. destruct (len6 _ U1) as (a & b & c & d & e & g & Hp). rewrite Hp in R.
          destruct (fit_function fr); destruct (pcov fr); try discriminate; eauto. }
        destruct (renorm_ok fr (299792458 / sqrt lam0) G) as (fr3 & R' & L6 & EF & ER & _). rewrite R in R'. injection R' as <-.
        rewrite calc_spec in H2 by (auto; congruence). cbn in H2. injection H2 as <-.
        split; [reflexivity|]. split; [auto|]. split; [auto|]. split; [intros f Hf; exact (renorm_model fr _ fr2 f G P Hf R)|]. split; [reflexivity|].
        repeat split; auto; [congruence|lra].
  Qed.

  Lemma inv_var_len : forall d w, inv_var d = POk w -> length w = length d /\ forall j, nth j d None <> Some 0 /\ nth j w None = match nth j d None with Some x => Some (1 / x ^ 2) | None => None end.
  Proof.
    induction d as [|[x|] d IH]; intros w H; cbn in H.
    - injection H as <-. split; [auto|]. intros [|j]; split; try discriminate; reflexivity.
    - destruct (Req_EM_T x 0) as [|X]; [discriminate|]. apply pybind_ok in H. destruct H as (r & E & H). injection H as <-. destruct (IH r E) as [L N].
      split; [cbn; lia|]. intros [|j]; cbn; [split; [intros [= ?]; lra|reflexivity]|apply N].
    - apply pybind_ok in H. destruct H as (r & E & H). injection H as <-. destruct (IH r E) as [L N]. split; [cbn; lia|].
      intros [|j]; cbn; [split; [discriminate|auto]|apply N].
  Qed.

  Lemma dqu_nth : forall dq du j, length dq = length du -> nth j (dqu_of dq du) None = match nth j dq None, nth j du None with Some a, Some b => Some (Rabs (a + b) / 2) | _, _ => None end.
  Proof.
    intros dq du j L. unfold dqu_of. destruct (lt_dec j (length dq)) as [H|H].
    - rewrite (nth_map_lt _ _ _ _ (None, None)) by (rewrite combine_length; lia). rewrite combine_nth by auto. reflexivity.
    - rewrite nth_overflow by (rewrite map_length, combine_length; lia). rewrite nth_overflow by lia. reflexivity.
  Qed.

  (** the weights *)
  Lemma weights_spec : forall var n dQ dU IM dq du w, length dq = n -> length du = n ->
    (forall j, (j < n)%nat -> fraction (nth j dQ None) (nth j IM 0) (nth j dq None) /\ fraction (nth j dU None) (nth j IM 0) (nth j du None)) ->
    weights_1D var n (dqu_of dq du) = POk w -> length w = n /\
    forall j, (j < n)%nat -> nth j (map nan0 w) 0 = chan_weight var (nth j dQ None) (nth j dU None) (nth j IM 0).
  Proof.
    intros var n dQ dU IM dq du w L1 L2 F H. unfold weights_1D in H. destruct var.
    - destruct (inv_var_len _ _ H) as [L N]. assert (Lw : length w = n) by (rewrite L; unfold dqu_of; rewrite map_length, combine_length; lia).
      split; [auto|]. intros j Hj. rewrite (nth_map_lt _ _ _ _ None) by lia. destruct (N j) as [NZ ->]. rewrite dqu_nth in * by congruence.
      destruct (F j Hj) as [F1 F2]. unfold fraction in F1, F2. unfold chan_weight.
      destruct (nth j dq None) as [a|]; [|destruct F1 as [->| Z]; [reflexivity|]].
      + destruct F1 as (A & -> & Nz & ->). destruct (nth j du None) as [b|]; [|destruct F2 as [->| Z]; [reflexivity|lra]].
        destruct F2 as (B & -> & _ & ->). cbn [nan0]. set (m := nth j IM 0) in *. replace (A / m + B / m) with ((A + B) / m) by (field; auto).
        replace ((Rabs ((A + B) / m) / 2) ^ 2) with (((A + B) / m / 2) ^ 2) by (replace ((Rabs ((A + B) / m) / 2) ^ 2) with (Rabs ((A + B) / m) ^ 2 / 4) by field; rewrite pow2_abs; field; auto).
        assert (X : A + B <> 0).
        { intros Z. apply NZ. f_equal. replace (A / m + B / m) with ((A + B) / m) by (field; auto). rewrite Z.
          unfold Rdiv. rewrite Rmult_0_l, Rabs_R0. ring. }
        field. auto.
      + rewrite Z. destruct (nth j dQ None), (nth j dU None); cbn [nan0]; try reflexivity. unfold Rdiv. ring.
    - injection H as <-. split; [apply repeat_length|]. intros j Hj. rewrite (nth_map_lt _ _ _ _ None) by (rewrite repeat_length; auto).
      rewrite nth_error_nth with (x := Some 1); [reflexivity|]. apply nth_error_repeat. auto.
  Qed.

  Lemma grid_params_two : forall l2 sr d p ns x, grid_params l2 sr d p ns = POk x -> (2 <= length l2)%nat.
  Proof.
    intros l2 sr d p ns x H. unfold grid_params in H. destruct l2 as [|a [|b t]]; [discriminate| |cbn; lia].
    cbn in H. discriminate.
  Qed.

  Lemma np_diff_seq : forall l, np_diff l = map (fun j => nth (S j) l 0 - nth j l 0) (seq 0 (length l - 1)).
  Proof.
    intros [|x l]; [reflexivity|]. unfold np_diff. cbn [tl length]. replace (S (length l) - 1)%nat with (length l) by lia. revert x.
    induction l as [|y l IH]; intros x; [reflexivity|]. cbn [combine map length seq fst snd nth]. f_equal. rewrite <- seq_shift, map_map. apply (IH y).
  Qed.

  Lemma grid_choice : forall o freq dp, grid_params (map (fun f => (c_light / f) ^ 2) freq) (o_super o) (o_dPhi o) (o_phiMax o) (o_nSamples o) = POk dp ->
    chosen_grid o freq (fst dp) (snd dp).
  Proof.
    intros o freq dp H. unfold grid_params in H. change (map (fun f => (c_light / f) ^ 2) freq) with (map lsq freq) in H.
    destruct (rmax_list (map lsq freq)) as [mx|] eqn:E1; [|discriminate]. destruct (rmin_list (map lsq freq)) as [mn|] eqn:E2; [|discriminate].
    destruct (rmax_list (map Rabs _)) as [gap|] eqn:E3; [|discriminate].
    exists mx, mn, gap. split; [now apply rmax_list_spec|]. split; [now apply rmin_list_spec|]. split.
    { apply rmax_list_spec in E3. rewrite np_diff_seq, map_length, map_map in E3.
      replace (map (fun j => Rabs (lsq (nth (S j) freq 0) - lsq (nth j freq 0))) (seq 0 (length freq - 1))) with
        (map (fun j => Rabs (nth (S j) (map lsq freq) 0 - nth j (map lsq freq) 0)) (seq 0 (length freq - 1))); [exact E3|].
      apply map_ext_in. intros j J. apply in_seq in J. rewrite !(nth_map_lt _ _ _ _ 0) by lia. reflexivity. }
    cbv zeta. destruct (o_dPhi o) as [d|], (o_phiMax o) as [p|], (o_super o);
      repeat match type of H with context [Req_EM_T ?a 0] => destruct (Req_EM_T a 0) end;
      try discriminate; injection H as <-; cbn [fst snd]; split; auto; f_equal; ring.
  Qed.

  Lemma used_eq : forall freq Q U mdl IM q u w, length q = length freq -> length u = length freq ->
    (forall j, (j < length freq)%nat -> nth j IM 0 = mdl j) ->
    (forall j, (j < length freq)%nat -> fraction (nth j Q None) (nth j IM 0) (nth j q None) /\ fraction (nth j U None) (nth j IM 0) (nth j u None)) ->
    pixel_chans (length freq) 1 q u (map (fun f => (c_light / f) ^ 2) freq) w 0 = used_chans freq Q U mdl w.
  Proof.
    intros freq Q U mdl IM q u w Lq Lu HM HF. unfold pixel_chans, used_chans. rewrite !flat_map_concat_map. f_equal. apply map_ext_in. intros j Hj. apply in_seq in Hj.
    replace (j * 1 + 0)%nat with j by lia. destruct (HF j) as [F1 F2]; [lia|]. rewrite HM in F1, F2 by lia. unfold fraction in F1, F2.
    rewrite (nth_map_lt _ _ _ _ 0) by lia. change ((c_light / nth j freq 0) ^ 2) with (lsq (nth j freq 0)).
    destruct (Req_EM_T (mdl j) 0) as [Z|Z].
    - destruct (nth j q None); [destruct F1 as (? & _ & ? & _); contradiction|]. destruct (nth j Q None), (nth j U None); reflexivity.
    - destruct (nth j q None) as [a|]; [destruct F1 as (A & -> & _ & ->)|destruct F1 as [->|F1]; [reflexivity|contradiction]].
      destruct (nth j u None) as [b|]; [destruct F2 as (B & -> & _ & ->)|destruct F2 as [->|F2]; [reflexivity|contradiction]]. reflexivity.
  Qed.

  Lemma scale_nth : forall I0 F k, nth k (scale_FDF I0 F) None = match nth k F None, I0 with Some z, Some i => Some (z * RtoC i)%C | _, _ => None end.
  Proof.
    intros I0 F k. unfold scale_FDF. destruct (lt_dec k (length F)) as [H|H].
    - rewrite (nth_map_lt _ _ _ _ None) by auto. reflexivity.
    - rewrite !nth_overflow by (rewrite ?map_length; lia). reflexivity.
  Qed.

  Lemma synth_len : forall Q U l2 phi w lam0 r, do_rmsynth_planes (mk_nd [length l2] Q) (mk_nd [length l2] U) l2 phi w lam0 = Some r -> length (flat (FDFcube r)) = length phi.
  Proof.
    intros Q U l2 phi w lam0 r H. unfold do_rmsynth_planes in H. cbn [shape] in H.
    repeat match type of H with (if ?b then _ else _) = _ => destruct b; [discriminate|] end.
    injection H as <-. cbn [FDFcube squeeze flat]. rewrite length_tab2. cbn. lia.
  Qed.

  (** all that is known of a run that ends *)
  Lemma run_inv : forall d o freq iA Q U dI dQ dU out,
    good_input d (o_noStokesI o) freq iA Q U dI dQ dU -> good_opts mpfit o (length freq) ->
    run_rmsynth mpfit fit d o = POk out ->
    let mdl := stokes_model o (r_fit out) freq in
    let chs := used_chans freq Q U mdl (r_weight out) in
    exists h step pm I0,
      chosen_grid o freq step pm /\ odd_centred (r_phi out) h step /\ Rabs (INR h * Rabs step - Rabs pm) <= Rabs step / 2 /\
      r_freq out = freq /\ length (r_weight out) = length freq /\
      (forall j, (j < length freq)%nat -> nth j (r_weight out) 0 = chan_weight (o_variance o) (nth j dQ None) (nth j dU None) (mdl j)) /\
      0 < wsum chs /\ 0 < mean_l2 chs /\
      r_lam0 out = (if o_super o then 0 else mean_l2 chs) /\
      (o_super o = false -> r_freq0 out = 299792458 / sqrt (mean_l2 chs)) /\ 0 < r_freq0 out /\ ref_freq (r_fit out) = r_freq0 out /\
      r_Ifreq0 out = Some I0 /\
      match o_modStokesI o with None => I0 = model_at (r_fit out) (r_freq0 out) | Some m => interp1d freq m (r_freq0 out) = POk (Some I0) end /\
      length (r_FDF out) = length (r_phi out) /\
      (forall k, (k < length (r_phi out))%nat -> nth k (r_FDF out) None = Some (FDF_spec chs (r_lam0 out) (nth k (r_phi out) 0) * RtoC I0)%C) /\
      exists IM q u dq du w s,
        length IM = length freq /\ length q = length freq /\ length u = length freq /\ length dq = length freq /\ length du = length freq /\ length w = length freq /\
        (forall j, (j < length freq)%nat -> nth j IM 0 = mdl j) /\
        (forall j, (j < length freq)%nat -> fraction (nth j Q None) (nth j IM 0) (nth j q None) /\ fraction (nth j U None) (nth j IM 0) (nth j u None) /\
          fraction (nth j dQ None) (nth j IM 0) (nth j dq None) /\ fraction (nth j dU None) (nth j IM 0) (nth j du None)) /\
        r_weight out = map nan0 w /\ weights_1D (o_variance o) (length freq) (dqu_of dq du) = POk w /\
        get_rmsf_planes (fit (o_super o)) (map lsq freq) (r_phi out) (Some w) (Some (mk_nd [length q] (map is_none q))) (Some (r_lam0 out))
              true (o_fitRMSF o || o_super o) = RetOk s /\
        r_phi2 out = phi2Arr s /\ r_RMSF out = flat (RMSFcube s) /\ r_fwhm out = nth 0 (flat (fwhmRMSFArr s)) None /\
        r_dFDFth out = dFDFth I0 w (dqu_of dq du) /\
        measure_FDF_parms (r_FDF out) (r_phi out) (r_fwhm out) (Some (r_dFDFth out)) (map lsq freq) (r_lam0 out) 5 = POk (r_parms out) /\
        good_freqs freq w q <> [] /\ r_min_freq out = rmin_list (good_freqs freq w q) /\ r_max_freq out = rmax_list (good_freqs freq w q) /\
        r_N_channels out = length (good_freqs freq w q) /\ r_fracPol out = odiv (ampPeakPIfitEff (r_parms out)) (Some I0) /\
        measure_qu_complexity freq q u dq du (r_fracPol out) (polAngle0Fit_deg (r_parms out)) (phiPeakPIfit (r_parms out)) = POk (r_sigma out) /\
        r_dQU out = median (somes (dQU_of dQ dU)) /\ r_median_width out = median (np_diff freq).
  Proof.
    intros d o freq iA Q U dI dQ dU out (IC & LI & LQ & LU & LdI & LdQ & LdU & Hf) (LP & OF & LM) H mdl chs.
    destruct (run_raw d o freq iA Q U dI dQ dU out H IC) as (IM & q & u & dq & du & fr & dp & phi & w & r & s & freq0 & fr' & I0 & m & sg & EF & _ & EG & EP & EW & ES & ER & EA & EM & EN & EQ & EO).
    assert (Hn : (0 < length freq)%nat) by (apply grid_params_two in EG; rewrite map_length in EG; lia).
    destruct (frac_model mpfit freq iA Q U dI dQ dU _ _ _ _ _ _ _ _ _ Hn LI LQ LU LdI LdQ LdU Hf LM OF LP EF) as (US & LIM & HIM & Lq & Lu & Ldq & Ldu & FR).
    destruct (weights_spec (o_variance o) (length freq) dQ dU IM dq du w Ldq Ldu) as [Lw Hw]; [intros j Hj; destruct (FR j Hj) as (_ & _ & X); exact X|exact EW|].
    subst out. cbn [r_fit r_weight r_phi r_freq r_lam0 r_freq0 r_Ifreq0 r_FDF r_phi2 r_RMSF r_fwhm r_dFDFth r_parms r_min_freq r_max_freq r_N_channels r_fracPol r_sigma r_dQU r_median_width] in *.
    assert (NZ : fst dp <> 0) by (intros Z; rewrite Z in EP; rewrite (proj1 (depth_grid_zero_step _)) in EP; discriminate).
    destruct (depth_grid_1D_spec (snd dp) (fst dp) NZ) as (phi' & h & EP' & OC & OH). rewrite EP in EP'. injection EP' as <-.
    pose proof (odd_centred_antisym _ _ _ OC) as AS. pose proof (grid_choice _ _ _ EG) as CG.
    set (l2 := map (fun f => (c_light / f) ^ 2) freq) in *. assert (Ll2 : length l2 = length freq) by (unfold l2; apply map_length).
    rewrite Lq, Lu in ES. rewrite <- Ll2 in ES at 1 2.
    assert (V : valid_synth (mk_nd [length l2] q) (mk_nd [length l2] u) l2 (Some w)) by (repeat split; cbn; lia).
    destruct (synth_refines _ _ _ phi _ (if o_super o then Some 0 else None) V AS) as (r' & ES' & EL & EC).
    rewrite ES in ES'. injection ES' as <-. cbv zeta in EL, EC. change (npix (mk_nd [length l2] q)) with 1%nat in EL, EC. cbn [flat] in EL, EC.
    rewrite Ll2 in EL, EC. change (weights_of (length freq) (Some w)) with (map nan0 w) in EL, EC.
    destruct (live_one (length freq) q u l2 (map nan0 w)) as [LV1 LV2]. rewrite LV1, LV2 in EL.
    assert (PC : forall mdl0, (forall j, (j < length freq)%nat -> nth j IM 0 = mdl0 j) -> pixel_chans (length freq) 1 q u l2 (map nan0 w) 0 = used_chans freq Q U mdl0 (map nan0 w)).
    { intros mdl0 HM. apply (used_eq freq Q U mdl0 IM); auto. intros j Hj. destruct (FR j Hj) as (X1 & X2 & _). auto. }
    (* the peak sample is finite *)
    assert (LF : length (scale_FDF I0 (flat (FDFcube r))) = length phi) by (unfold scale_FDF; rewrite map_length; eapply synth_len; exact ES).
    destruct (measure_shape _ phi _ _ _ _ _ LF m EM) as (ip & zp & (Hip & Hzp & _) & _).
    rewrite scale_nth in Hzp. destruct (nth ip (flat (FDFcube r)) None) as [zr|] eqn:Ezr; [|discriminate]. destruct I0 as [i0|]; [|discriminate].
    set (pc := pixel_chans (length freq) 1 q u l2 (map nan0 w) 0) in *.
    assert (Wne : wsum pc <> 0).
    { intros Z. destruct (EC ip 0%nat) as [E1 _]; [lia|lia|]. fold pc in E1. specialize (E1 Z). unfold at2 in E1. replace (ip * 1 + 0)%nat with ip in E1 by lia. congruence. }
    assert (PW : 0 < wsum pc /\ 0 < mean_l2 pc).
    { apply wsum_mean_pos; auto. intros c Hc. unfold pc, pixel_chans in Hc. apply in_flat_map in Hc. destruct Hc as (j & J & Hc). apply in_seq in J.
      destruct (nth (j * 1 + 0) q None); [|destruct Hc]. destruct (nth (j * 1 + 0) u None); [|destruct Hc]. destruct Hc as [<-|[]]. cbn [c_w c_l2]. split.
      - rewrite Hw by lia. unfold chan_weight. destruct (o_variance o); [|lra]. destruct (nth j dQ None), (nth j dU None); try lra. apply pow2_ge_0.
      - unfold l2. rewrite (nth_map_lt _ _ _ _ 0) by lia. apply pow_lt, Rdiv_lt_0_compat; [unfold c_light; lra|]. apply Hf, nth_In. lia. }
    assert (EL' : synth_lam0 r = if o_super o then 0 else mean_l2 pc).
    { rewrite EL. destruct (o_super o); [reflexivity|]. destruct (Req_EM_T (wsum pc) 0); [contradiction|reflexivity]. }
    assert (L0 : 0 <= synth_lam0 r) by (rewrite EL'; destruct (o_super o); lra).
    destruct (at_reference_spec freq _ fr _ _ _ _ US L0 EA) as (A1 & A2 & A3 & A4).
    assert (MD : forall j, (j < length freq)%nat -> nth j IM 0 = mdl j).
    { intros j Hj. unfold mdl, stokes_model. destruct (o_modStokesI o) as [mm|]; [destruct HIM as [-> _]; auto|]. rewrite HIM by auto. destruct A4 as (A4 & _).
      symmetry. apply A4. apply Hf, nth_In. auto. }
    assert (EPC : pc = chs) by (apply PC; exact MD). rewrite EPC in *.
    exists h, (fst dp), (snd dp), i0. split; [exact CG|]. split; [exact OC|]. split; [exact OH|]. split; [reflexivity|]. split; [now rewrite map_length|]. split.
    { intros j Hj. rewrite Hw by auto. now rewrite MD. }
    destruct PW as [PW1 PW2]. split; [exact PW1|]. split; [exact PW2|]. split; [exact EL'|]. split.
    { intros SF. rewrite A1, EL', SF. destruct (Req_EM_T (mean_l2 chs) 0); [lra|reflexivity]. }
    split; [exact A2|]. split; [exact A3|]. split; [reflexivity|]. split.
    { destruct (o_modStokesI o); [exact A4|]. destruct A4 as (_ & A4 & _). now injection A4 as ->. }
    split; [exact LF|]. split; cycle 1.
    { exists IM, q, u, dq, du, w, s. repeat (split; [assumption|]). split; [reflexivity|]. split; [exact EW|]. split; [exact ER|]. repeat (split; [reflexivity|]).
      split; [exact EM|]. split; [exact EN|]. repeat (split; [reflexivity|]). split; [exact EQ|]. split; reflexivity. }
    intros k Hk. rewrite scale_nth.
    destruct (EC ip 0%nat) as [_ E1]; [lia|lia|]. fold pc in E1. rewrite EPC in E1. destruct (E1 Wne) as [[_ E2] _]. unfold at2 in E2. replace (ip * 1 + 0)%nat with ip in E2 by lia.
    destruct (EC k 0%nat) as [_ E3]; [lia|lia|]. fold pc in E3. rewrite EPC in E3. destruct (E3 Wne) as [[E4 _] E5]. unfold at2 in E4, E5. replace (k * 1 + 0)%nat with k in E4, E5 by lia.
    destruct (nth k (flat (FDFcube r)) None) as [z|] eqn:Ez.
    - rewrite (E5 z eq_refl). reflexivity.
    - exfalso. rewrite (E2 (E4 eq_refl)) in Ezr. discriminate.
  Qed.

  (** C56: what a run that ends returns *)
  Theorem run_refines : forall d o freq iA Q U dI dQ dU out,
    good_input d (o_noStokesI o) freq iA Q U dI dQ dU -> good_opts mpfit o (length freq) ->
    run_rmsynth mpfit fit d o = POk out ->
    let mdl := stokes_model o (r_fit out) freq in
    let chs := used_chans freq Q U mdl (r_weight out) in
    exists h step pm I0,
      chosen_grid o freq step pm /\ odd_centred (r_phi out) h step /\ Rabs (INR h * Rabs step - Rabs pm) <= Rabs step / 2 /\
      r_freq out = freq /\ length (r_weight out) = length freq /\
      (forall j, (j < length freq)%nat -> nth j (r_weight out) 0 = chan_weight (o_variance o) (nth j dQ None) (nth j dU None) (mdl j)) /\
      0 < wsum chs /\ 0 < mean_l2 chs /\
      r_lam0 out = (if o_super o then 0 else mean_l2 chs) /\
      (o_super o = false -> r_freq0 out = 299792458 / sqrt (mean_l2 chs)) /\ 0 < r_freq0 out /\ ref_freq (r_fit out) = r_freq0 out /\
      r_Ifreq0 out = Some I0 /\
      match o_modStokesI o with None => I0 = model_at (r_fit out) (r_freq0 out) | Some m => interp1d freq m (r_freq0 out) = POk (Some I0) end /\
      length (r_FDF out) = length (r_phi out) /\
      forall k, (k < length (r_phi out))%nat -> nth k (r_FDF out) None = Some (FDF_spec chs (r_lam0 out) (nth k (r_phi out) 0) * RtoC I0)%C.
  Proof.
    intros d o freq iA Q U dI dQ dU out G1 G2 H mdl chs.
    destruct (run_inv d o freq iA Q U dI dQ dU out G1 G2 H) as (h & step & pm & I0 & F1 & F2 & F3 & F4 & F5 & F6 & F7 & F8 & F9 & F10 & F11 & F12 & F13 & F14 & F15 & F16 & _).
    exists h, step, pm, I0. repeat (split; [assumption|]). assumption.
  Qed.
End Run.
