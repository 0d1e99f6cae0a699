(** The bandwidth-depolarisation tool as a whole. *)
From Coq Require Import Reals List Arith ZArith Bool Lra Lia.
Set Warnings "-ambiguous-paths".
From Coquelicot Require Import Coquelicot.
From Verif Require Import CBase NdArray PyRes PyList PyList_Proofs Interp_Model Synth_Model Synth_Spec Synth_Proofs Synth_Laws CleanTop_Model Setup_Model Setup_Spec Setup_Proofs
  StokesI_Model StokesI_Spec StokesI_Proofs StokesI_Fit Measure_Model Measure_Laws Rmsf_Proofs Clean_Grid Bw_Model Bw_Spec Bw_Rot Bw_Proofs Bw_Laws.
Import ListNotations.
Local Open Scope R_scope.

Lemma pybind_err : forall {A B} (x : pyres A) (f : A -> pyres B), (forall a, x = POk a -> f a = PErr) -> pybind x f = PErr.
Proof. intros A B [a|] f H; [apply H; reflexivity|reflexivity]. Qed.

Lemma report_verbose : report true = PErr.
Proof. reflexivity. Qed.

Section Run.
  Variables (mpfit : mpin -> pyres mpres) (fit : list R -> list (option R) -> option (Z * R))
    (complexity : list (option R) -> list (option R) -> list (option R) -> list (option R) -> option R -> option R -> option R -> pyres unit).

  (** no run with the verbose flag finishes *)
  Theorem bw_verbose_raises : forall d po pm dp ns var fr noI, run_adjoint_rmsynth mpfit fit complexity d po pm dp ns var fr noI true = PErr.
  Proof.
    intros. unfold run_adjoint_rmsynth. apply pybind_err. intros v _. destruct (if v_noI v then _ else _) as [[iA dI]|]; [|reflexivity].
    destruct (create_frac_spectra _ _ _ _ _ _ _ _ _ _ _) as [[[[[[IM q] u] dq] du] frs]|]; [|reflexivity]. cbv zeta.
    apply pybind_err. intros g _. apply pybind_err. intros phi _. apply pybind_err. intros w _. destruct (v_widths v) as [wd|]; [|reflexivity].
    apply pybind_err. intros [r|] _; [|reflexivity]. destruct (adjoint_theory _ _) as [sens noise]. apply pybind_err. intros ip _. apply pybind_err. intros [s|] _; [|reflexivity].
    destruct (match adj_lam0 r with Some l0 => _ | None => _ end); [|reflexivity]. apply pybind_err. intros pp _. apply pybind_err. intros m _.
    destruct (filter _ _); [reflexivity|]. apply pybind_err. intros t _. reflexivity.
  Qed.

  (** nor one on six columns *)
  Theorem bw_six_columns_raise : forall f wd Q U dQ dU po pm dp ns var fr noI vb, run_adjoint_rmsynth mpfit fit complexity (Cols6 f wd Q U dQ dU) po pm dp ns var fr noI vb = PErr.
  Proof.
    intros. unfold run_adjoint_rmsynth, bw_parse. cbn [pybind v_noI v_I v_Q v_U v_dQ v_dU v_freq v_widths]. destruct noI; [|reflexivity].
    destruct (create_frac_spectra _ _ _ _ _ _ _ _ _ _ _) as [[[[[[IM q] u] dq] du] frs]|]; [|reflexivity]. cbv zeta.
    apply pybind_err. intros g _. apply pybind_err. intros phi _. apply pybind_err. intros w _. reflexivity.
  Qed.

  (** nor one on eight columns with two or more channels *)
  Theorem bw_eight_columns_raise : forall f wd iA Q U dI dQ dU po pm dp ns var fr noI vb, (2 <= length wd)%nat ->
    run_adjoint_rmsynth mpfit fit complexity (Cols8 f wd iA Q U dI dQ dU) po pm dp ns var fr noI vb = PErr.
  Proof.
    intros f wd iA Q U dI dQ dU po pm dp ns var fr noI vb H. unfold run_adjoint_rmsynth, bw_parse. cbn [pybind v_noI v_I v_Q v_U v_dQ v_dU v_freq v_widths].
    destruct (if noI then _ else _) as [[iA' dI']|]; [|reflexivity].
    destruct (create_frac_spectra _ _ _ _ _ _ _ _ _ _ _) as [[[[[[IM q] u] dq] du] frs]|]; [|reflexivity]. cbv zeta.
    apply pybind_err. intros g _. apply pybind_err. intros phi _. apply pybind_err. intros w _. apply pybind_err. intros [r|] E; [|reflexivity]. exfalso. revert E.
    unfold do_adjoint_rmsynth_planes. destruct (negb _); [discriminate|]. destruct (negb _); [discriminate|]. destruct (negb _); [discriminate|]. destruct (negb _); [discriminate|].
    destruct wd as [|a [|b t]]; cbn in H; try lia. cbn [channel_widths pybind]. discriminate.
  Qed.

  Lemma osum_none : forall l, In None l -> osum l = None.
  Proof.
    intros l I. unfold osum. replace (all_some l) with (@None (list R)); [reflexivity|]. symmetry. induction l as [|x l IH]; [destruct I|]. cbn. destruct x as [x|]; [|reflexivity].
    destruct I as [I|I]; [discriminate|]. rewrite (IH I). reflexivity.
  Qed.

  Lemma nanargmax_none : forall l, (forall x, In x l -> x = None) -> nanargmax l = PErr.
  Proof.
    intros l H. destruct (nanargmax l) as [i|] eqn:E; [|reflexivity]. destruct (nanargmax_spec _ _ E) as (Hi & v & Ev & _).
    rewrite (H (nth i l None)) in Ev by (apply nth_In; auto). discriminate.
  Qed.

  Lemma py_slice_In : forall {A} (l : list A) i j x, In x (py_slice l i j) -> In x l.
  Proof.
    intros A l i j x I. unfold py_slice in I. rewrite <- (firstn_skipn (Z.to_nat (py_bound (Z.of_nat (length l)) i)) l). apply in_or_app. right.
    set (t := skipn _ l) in *. rewrite <- (firstn_skipn (Z.to_nat (py_bound (Z.of_nat (length l)) j) - Z.to_nat (py_bound (Z.of_nat (length l)) i)) t). apply in_or_app. now left.
  Qed.

  Lemma peak_channel_none : forall F N, (forall x, In x N -> x = None) -> peak_channel F N = PErr.
  Proof.
    intros F N H. unfold peak_channel. rewrite nanargmax_none; [reflexivity|]. intros x I. apply py_slice_In in I. unfold sn_spectrum in I.
    apply in_map_iff in I. destruct I as ([a b] & <- & I). apply in_combine_r in I. cbn [fst snd]. rewrite (H b I). now destruct (option_map Cmod a).
  Qed.

  (** nor one with an undefined error in some channel *)
  Theorem bw_nan_error_raises : forall d v po pm dp ns var fr noI vb, bw_parse d noI = POk v ->
    length (v_Q v) = length (v_freq v) -> length (v_dQ v) = length (v_freq v) -> length (v_dU v) = length (v_freq v) ->
    In None (v_dQ v) \/ In None (v_dU v) -> run_adjoint_rmsynth mpfit fit complexity d po pm dp ns var fr noI vb = PErr.
  Proof.
    intros d v po pm dp ns var fr noI vb Ev LQ L1 L2 I. unfold run_adjoint_rmsynth. rewrite Ev. cbn [pybind]. destruct (if v_noI v then _ else _) as [[iA dI]|]; [|reflexivity].
    destruct (create_frac_spectra _ _ _ _ _ _ _ _ _ _ _) as [[[[[[IM q] u] dq] du] frs]|]; [|reflexivity]. cbv zeta.
    apply pybind_err. intros g _. apply pybind_err. intros phi _. apply pybind_err. intros w _. destruct (v_widths v) as [wd|]; [|reflexivity].
    apply pybind_err. intros [r|] Er; [|reflexivity]. destruct (adjoint_theory _ _) as [sens noise] eqn:ET. rewrite peak_channel_none; [reflexivity|].
    assert (AV : exists ws, length ws = length (v_freq v) /\ length (av_weight (adj_vars r)) = length (v_freq v) /\ av_widths (adj_vars r) = ws /\ av_freq (adj_vars r) = v_freq v).
    { revert Er. unfold do_adjoint_rmsynth_planes. destruct (negb _); [discriminate|]. destruct (negb _); [discriminate|]. destruct (negb _); [discriminate|]. destruct (negb _); [discriminate|].
      destruct (channel_widths wd (v_freq v)) as [ws|] eqn:EW; [|discriminate]. cbn [pybind]. intros E. injection E as <-. cbn. exists ws. split; [|split; [|auto]].
      - destruct wd as [|b|[|b [|c t]]]; cbn in EW; try discriminate; [destruct (estimate_channel_bandwidth (v_freq v)); [|discriminate]| |]; cbn in EW; injection EW as <-; apply repeat_length.
      - unfold w_eff. rewrite map_length, seq_length. unfold lambda_sq. now rewrite map_length. }
    destruct AV as (ws & LW & LV & Ews & Ef). intros x Ix. unfold adjoint_theory in ET. injection ET as _ <-. apply in_map_iff in Ix. destruct Ix as (f & <- & _).
    unfold theory_noise. rewrite osum_none; [reflexivity|].
    assert (J : exists j, (j < length (v_freq v))%nat /\ nth j (bw_dqu (v_dQ v) (v_dU v)) None = None).
    { assert (NB : forall j, (j < length (v_freq v))%nat -> nth j (bw_dqu (v_dQ v) (v_dU v)) None = odiv (oadd (nth j (v_dQ v) None) (nth j (v_dU v) None)) (Some 2)).
      { intros j Hj. unfold bw_dqu. rewrite (nth_map_lt _ _ _ _ (None, None)) by (rewrite combine_length; lia). now rewrite nth_combine2 by lia. }
      destruct I as [I|I]; destruct (In_nth _ _ None I) as (j & Hj & Ej); exists j; (split; [lia|]); rewrite NB, Ej by lia; [reflexivity|]. now destruct (nth j (v_dQ v) None). }
    destruct J as (j & Hj & Ej). apply in_map_iff. set (rc := rotation_channels (av_widths (adj_vars r)) (av_freq (adj_vars r)) f).
    assert (LR : length rc = length (v_freq v)) by (unfold rc, rotation_channels; rewrite map_length, combine_length, Ews, Ef; lia).
    assert (LB : length (bw_dqu (v_dQ v) (v_dU v)) = length (v_freq v)) by (unfold bw_dqu; rewrite map_length, combine_length; lia).
    exists ((nth j (av_weight (adj_vars r)) 0, None), nth j rc (RtoC 0)). split; [reflexivity|]. rewrite <- Ej. rewrite <- (nth_combine2 (av_weight (adj_vars r))) by lia.
    rewrite <- (nth_combine2 (combine (av_weight (adj_vars r)) (bw_dqu (v_dQ v) (v_dU v))) rc) by (rewrite ?combine_length; lia). apply nth_In. rewrite !combine_length. lia.
  Qed.

  Lemma inv_var_eq : forall sg, (forall x, In x sg -> x <> 0) -> inv_var (map Some sg) = POk (inverse_variance sg).
  Proof.
    induction sg as [|x t IH]; intros H; [reflexivity|]. cbn [map inv_var]. destruct (Req_EM_T x 0) as [Z|_]; [exfalso; apply (H x); auto; now left|].
    rewrite IH by (intros y I; apply H; now right). reflexivity.
  Qed.

  Lemma weights_1D_eq : forall var sg, (forall x, In x sg -> x <> 0) -> weights_1D var (length sg) (map Some sg) = POk (run_weights var sg).
  Proof. intros [|] sg H; cbn; [now apply inv_var_eq|reflexivity]. Qed.

  Lemma bw_dqu_eq : forall a b, bw_dqu (map Some a) (map Some b) = map Some (sigmas a b).
  Proof.
    induction a as [|x a IH]; intros [|y b]; [reflexivity..|]. unfold bw_dqu, sigmas in *. cbn [map combine fst snd]. rewrite IH. f_equal.
    unfold oadd, o2, odiv. destruct (Req_EM_T 2 0); [lra|reflexivity].
  Qed.

  Lemma run_weights_len : forall var sg, length (run_weights var sg) = length sg.
  Proof. intros [|] sg; cbn; [apply map_length|apply repeat_length]. Qed.

  Lemma run_weights_pos : forall var sg j, (j < length sg)%nat -> (forall x, In x sg -> x <> 0) -> 0 < nth j (weights_of (length sg) (Some (run_weights var sg))) 0.
  Proof.
    intros [|] sg j Hj H; cbn.
    - unfold inverse_variance. rewrite map_map. rewrite (nth_map_lt _ _ _ _ 0) by auto. apply Rdiv_lt_0_compat; [lra|]. apply pow2_gt_0, H, nth_In; auto.
    - rewrite (nth_map_lt _ _ _ _ (Some 1)) by (rewrite repeat_length; auto). rewrite nth_repeat. lra.
  Qed.

  Lemma bw_grid_eq : forall freq dPhi phiMax ns d p, (2 <= length freq)%nat -> bw_step dPhi ns freq d -> bw_range phiMax freq p ->
    bw_grid_params (lambda_sq freq) dPhi phiMax ns = POk (d, p).
  Proof.
    intros freq dPhi phiMax ns d p Hn Hd Hp. change (lambda_sq freq) with (l2s freq). unfold bw_grid_params.
    assert (LL : length (l2s freq) = length freq) by (unfold l2s; apply map_length).
    assert (X1 : exists mx, rmax_list (l2s freq) = Some mx) by (destruct (l2s freq) as [|a t]; [cbn in LL; lia|cbn; eauto]). destruct X1 as [mx E1].
    assert (X2 : exists mn, rmin_list (l2s freq) = Some mn) by (destruct (l2s freq) as [|a t]; [cbn in LL; lia|cbn; eauto]). destruct X2 as [mn E2].
    assert (X3 : exists dm, rmax_list (map Rabs (np_diff (l2s freq))) = Some dm).
    { destruct (l2s freq) as [|a [|c t]]; cbn in LL; try lia. cbn. eauto. } destruct X3 as [dm E3].
    rewrite E1, E2, E3. pose proof (rmax_list_spec _ _ E1) as M1. pose proof (rmin_list_spec _ _ E2) as M2. pose proof (rmax_list_spec _ _ E3) as M3.
    assert (S3 : 0 < sqrt 3) by (apply sqrt_lt_R0; lra).
    assert (ED : match dPhi with Some d => Some d | None => odiv (odiv (Some (2 * sqrt 3)) (Some (mx - mn))) (Some ns) end = Some d).
    { destruct dPhi as [x|]; cbn in Hd; [now subst|]. destruct Hd as (N & a & c & A & B & E). assert (a = mx) by (apply Rle_antisym; [apply M1, A|apply A, M1]). assert (c = mn) by (apply Rle_antisym; [apply B, M2|apply M2, B]). subst a c.
      unfold odiv. destruct (Req_EM_T (mx - mn) 0) as [Z|Z]; [rewrite Z in E; lra|]. destruct (Req_EM_T ns 0); [contradiction|]. f_equal. rewrite <- E. field. auto. }
    assert (EP : match phiMax with Some p => Some p | None => option_map (fun p => Rmax p 600) (odiv (Some (sqrt 3)) (Some dm)) end = Some p).
    { destruct phiMax as [x|]; cbn in Hp; [now subst|]. destruct Hp as (c & B & N & ->). assert (c = dm) by (apply Rle_antisym; [apply M3, B|apply B, M3]). subst c.
      unfold odiv. destruct (Req_EM_T dm 0) as [Z|Z]; [contradiction|]. reflexivity. }
    rewrite ED, EP. reflexivity.
  Qed.

  Lemma l0_pos : forall b chs, chans_ok b chs -> 0 < bwsum chs -> 0 < mean_lam2 chs.
  Proof.
    intros b chs Ok W. unfold mean_lam2. apply Rdiv_lt_0_compat; auto.
    assert (H : forall l, (forall c, In c l -> channel_ok b (b_nu c) /\ 0 <= b_w c) -> 0 <= rsum (map (fun c => b_w c * (299792458 / b_nu c) ^ 2) l) /\ (0 < bwsum l -> 0 < rsum (map (fun c => b_w c * (299792458 / b_nu c) ^ 2) l))).
    { induction l as [|c t IH]; intros O; [unfold bwsum; cbn [map]; rewrite !rsum_nil; split; lra|]. unfold bwsum. cbn [map]. rewrite !rsum_cons. destruct (IH (fun c I => O c (or_intror I))) as [A B].
      destruct (O c (or_introl eq_refl)) as [(C1 & C2 & C3) D]. assert (X : 0 < (299792458 / b_nu c) ^ 2) by (apply pow_lt, Rdiv_lt_0_compat; lra). fold (bwsum t). split; [apply Rplus_le_le_0_compat; [apply Rmult_le_pos; lra|exact A]|]. intros P.
      destruct (Rle_lt_or_eq_dec 0 (b_w c) D) as [Dp|Dz]; [apply Rplus_lt_le_0_compat; [now apply Rmult_lt_0_compat|exact A]|]. rewrite <- Dz in *. assert (H0 : 0 < bwsum t) by lra. specialize (B H0). lra. }
    now apply H.
  Qed.

  Lemma np_diff_ex : forall phi, (2 <= length phi)%nat -> exists m, rmin_list (np_diff phi) = Some m.
  Proof. intros [|a [|b t]] H; cbn in H; try lia. cbn. eauto. Qed.

  Lemma bw_measure_ok : forall FDF phi fw sens noise l2 lam0 sb i, peak_channel FDF noise = POk i -> (2 <= length phi)%nat ->
    exists m, bwdepol_measure_FDF_parms FDF phi fw sens noise l2 lam0 sb = POk m.
  Proof.
    intros FDF phi fw sens noise l2 lam0 sb i E L. unfold bwdepol_measure_FDF_parms. rewrite E. cbn [pybind]. destruct (np_diff_ex phi L) as [m ->]. destruct (_ && _)%bool; eauto.
  Qed.

  (** peak channel of a spectrum with a defined ratio inside *)
  Lemma peak_channel_spec : forall F N k v, length F = length N -> (0 < k < length F - 1)%nat -> nth k (sn_spectrum F N) None = Some v ->
    exists i x, peak_channel F N = POk i /\ (0 < i < length F - 1)%nat /\ nth i (sn_spectrum F N) None = Some x /\
      forall j y, (0 < j < length F - 1)%nat -> nth j (sn_spectrum F N) None = Some y -> y <= x.
  Proof.
    intros F N k v L Hk Ev. set (sn := sn_spectrum F N) in *. assert (LS : length sn = length F) by (unfold sn, sn_spectrum; rewrite map_length, combine_length; lia).
    destruct (inner_slice sn None) as [L1 L2]; [lia|].
    assert (Ek' : nth (k - 1) (py_slice sn 1 (-1)) None = Some v). { rewrite L2 by lia. replace (S (k - 1)) with k by lia. exact Ev. }
    destruct (nanargmax_some _ _ _ Ek') as [i Ei]. exists (S i). destruct (nanargmax_spec _ _ Ei) as (Hi & x & Ex & Mx & _). exists x.
    split; [unfold peak_channel; fold sn; now rewrite Ei|]. rewrite L1, LS in Hi. split; [lia|]. rewrite L2 in Ex by lia. split; [exact Ex|].
    intros j y Hj Ej. apply (Mx (j - 1)%nat). rewrite L2 by lia. replace (S (j - 1)) with j by lia. exact Ej.
  Qed.

  Lemma sn_scale : forall F N c, c <> 0 ->
    sn_spectrum (map (fun z => match z, Some c with Some z, Some i => Some (z * RtoC i)%C | _, _ => None end) F) N =
    map (option_map (fun v => v * Rabs c)) (sn_spectrum F N).
  Proof.
    intros F N c Hc. unfold sn_spectrum. revert N. induction F as [|z F IH]; intros [|n N]; [reflexivity..|]. cbn [map combine fst snd]. f_equal; [|apply IH].
    destruct z as [z|], n as [n|]; try reflexivity. cbn [option_map]. unfold odiv. destruct (Req_EM_T n 0); [reflexivity|]. cbn. f_equal. rewrite Cmod_mult, Cmod_R. unfold Rdiv. ring.
  Qed.

  (** live channel in a spectrum of positive weights *)
  Lemma live_pos : forall b freq q u var sg, length q = length freq -> length u = length freq -> length sg = length freq -> (forall x, In x sg -> x <> 0) ->
    (forall f, In f freq -> channel_ok b f) ->
    (exists j qj uj, (j < length freq)%nat /\ nth j q None = Some qj /\ nth j u None = Some uj) ->
    let chs := spectrum_chans freq q u (Some (run_weights var sg)) sg in
    chans_ok b chs /\ 0 < bwsum chs /\ 0 < noise_spec b chs 0.
  Proof.
    intros b freq q u var sg Lq Lu Ls Hs Ok (j & qj & uj & Hj & Eq & Eu) chs.
    assert (PW : forall j, (j < length freq)%nat -> 0 < nth j (weights_of (length freq) (Some (run_weights var sg))) 0) by (intros i Hi; rewrite <- Ls; apply run_weights_pos; auto; lia).
    assert (CO : chans_ok b chs).
    { intros c I. apply spectrum_In in I. destruct I as (i & q' & u' & Hi & E1 & E2 & E3 & E4 & E5 & E6). rewrite E3, E4. split; [apply Ok, nth_In; auto|]. left. now apply PW. }
    assert (IC : In (mk_bchan (nth j freq 0) (nth j (weights_of (length freq) (Some (run_weights var sg))) 0) (nth j sg 0) (qj, uj)) chs).
    { unfold chs, spectrum_chans, pixel_bchans. apply in_flat_map. exists j. split; [apply in_seq; lia|]. replace (j * 1 + 0)%nat with j by lia. rewrite Eq, Eu. now left. }
    set (c0 := mk_bchan _ _ _ _) in IC. split; [exact CO|].
    assert (SP : forall (g : bchan -> R) l, (forall c, In c l -> 0 <= g c) -> In c0 l -> 0 < g c0 -> 0 < rsum (map g l)).
    { intros g l. induction l as [|c t IH]; intros N I G; [destruct I|]. cbn [map]. rewrite rsum_cons. destruct I as [->|I].
      - apply Rplus_lt_le_0_compat; auto. apply rsum_nonneg. intros x Ix. apply in_map_iff in Ix. destruct Ix as (c & <- & Ic). apply N. now right.
      - apply Rplus_le_lt_0_compat; [apply N; now left|]. apply IH; auto. intros y Iy. apply N. now right. }
    assert (W : 0 < bwsum chs). { unfold bwsum. apply (SP b_w chs); auto; [intros c I; apply CO, I|]. cbn. now apply PW. }
    split; [exact W|]. unfold noise_spec. apply Rdiv_lt_0_compat; [|apply Rabs_pos_lt; lra]. apply sqrt_lt_R0.
    apply (SP (fun c => (b_w c * b_d c) ^ 2 * Cmod (mean_rotation b (b_nu c) 0) ^ 2)); auto.
    - intros c _. apply Rmult_le_pos; apply pow2_ge_0.
    - cbn [b_w b_d b_nu c0]. rewrite mean_rotation_zero by (apply Ok, nth_In; auto). rewrite Cmod_R, Rabs_R1, pow1, Rmult_1_r. apply pow2_gt_0. apply Rmult_integral_contrapositive. split.
      + apply Rgt_not_eq, PW, Hj. + apply Hs, nth_In. lia.
  Qed.

  Lemma poly5_unit : forall p x, poly5 p x = lin_model p 1 x.
  Proof. intros p x. rewrite <- poly5_lin. f_equal. field. Qed.

  (** A run on seven or five columns *)
  Theorem bw_run : forall d noI freq iA Q U dI eq eu po phiMax dPhi ns var fitR h p b IM q u dq du fr,
    (forall qn r, mpfit qn = POk r -> length (mp_params r) = 6%nat) -> (forall a1 a2 a3 a4 a5 a6 a7, complexity a1 a2 a3 a4 a5 a6 a7 = POk tt) ->
    bw_columns d noI freq iA Q U dI (map Some eq) (map Some eu) ->
    (2 <= length freq)%nat -> length iA = length freq -> length Q = length freq -> length U = length freq -> length dI = length freq ->
    length eq = length freq -> length eu = length freq -> (forall x, In x (sigmas eq eu) -> x <> 0) ->
    b = nth 1 freq 0 - nth 0 freq 0 -> (forall f, In f freq -> channel_ok b f) ->
    bw_step dPhi ns freq h -> bw_range phiMax freq p -> 0 < h <= p ->
    create_frac_spectra mpfit (map (fun f => f / 1000000000) freq) iA Q U dI (map Some eq) (map Some eu) po Log None = Some (IM, q, u, dq, du, fr) ->
    (exists j qj uj, (j < length freq)%nat /\ nth j q None = Some qj /\ nth j u None = Some uj) ->
    let sg := sigmas eq eu in
    let chs := spectrum_chans freq q u (Some (run_weights var sg)) sg in
    let l0 := mean_lam2 chs in
    let I0 := lin_model (params fr) 1 (299792458 / sqrt l0 / 1000000000) in
    exists o, run_adjoint_rmsynth mpfit fit complexity d po phiMax dPhi ns var fitR noI false = POk o /\
      (exists N, odd_centred (o_phi o) N h /\ Rabs (INR N * h - p) <= h / 2) /\ (3 <= length (o_phi o))%nat /\
      0 < l0 /\ o_lam0 o = Some l0 /\ o_Ifreq0 o = Some I0 /\ o_freq o = freq /\ o_weight o = map opt0 (run_weights var sg) /\
      length (o_FDF o) = length (o_phi o) /\
      (forall k, (k < length (o_phi o))%nat -> let f := nth k (o_phi o) 0 in
         sens_spec b chs f <> 0 -> nth k (o_FDF o) None = Some (RtoC I0 * adj_spec b chs l0 f / RtoC (sens_spec b chs f))%C) /\
      (exists i, (0 < i < length (o_phi o) - 1)%nat /\ o_peak_rm o = nth i (o_phi o) 0 /\ noise_spec b chs (o_peak_rm o) <> 0 /\
         forall k, (0 < k < length (o_phi o) - 1)%nat -> let f := nth k (o_phi o) 0 in noise_spec b chs f <> 0 ->
           Cmod (adj_spec b chs l0 f) / noise_spec b chs f <= Cmod (adj_spec b chs l0 (o_peak_rm o)) / noise_spec b chs (o_peak_rm o)) /\
      (let e := Nat.div2 (length (o_phi o) + 1) in
       let rchs := unit_chans b freq (weights_of (length freq) (Some (run_weights var sg))) (map is_none q) (o_peak_rm o) in
       length (o_RMSF o) = length (o_phi o) /\
       forall k, (k < length (o_phi o))%nat ->
         nth k (saved_RMSF o) (0, None) = (nth k (o_phi o) 0 - INR e * h, Some (adj_spec b rchs l0 (nth k (o_phi o) 0)))).
  Proof.
    intros d noI freq iA Q U dI eq eu po phiMax dPhi ns var fitR h p b IM q u dq du fr HP HC Hcol Hn LI LQ LU LdI Leq Leu Hs Hb Hok Hst Hrg Hhp EF Hlive sg chs l0 I0.
    assert (Lsg : length sg = length freq) by (unfold sg, sigmas; rewrite map_length, combine_length; lia).
    assert (FS : length q = length freq /\ length u = length freq /\ length (params fr) = 6%nat).
    { destruct (frac_spectra_spec mpfit (map (fun f => f / 1000000000) freq) iA Q U dI (map Some eq) (map Some eu) po Log None IM q u dq du fr (length freq)) as [(A1 & A2 & _) A3]; auto; try (rewrite !map_length; auto); try lia; try discriminate.
      split; auto. split; auto. destruct (fit_StokesI_model _ _ _ _ _ _) as [fr0|] eqn:E0; [|destruct A3 as (_ & _ & ->); reflexivity].
      destruct A3 as (_ & -> & _). eapply fit_params_len; eauto. }
    destruct FS as (Lq & Lu & Lpar).
    destruct (live_pos b freq q u var sg Lq Lu Lsg Hs Hok Hlive) as (CO & W & NZ). fold chs in CO, W, NZ.
    pose proof (l0_pos b chs CO W) as L0. fold l0 in L0.
    assert (Hw : width_used WNone freq b) by (split; auto).
    assert (EP : exists v, bw_parse d noI = POk v /\ v_freq v = freq /\ v_widths v = Some WNone /\ v_Q v = Q /\ v_U v = U /\ v_dQ v = map Some eq /\ v_dU v = map Some eu /\
      (if v_noI v then Some (repeat (Some 1) (length (v_Q v)), repeat (Some 0) (length (v_Q v))) else v_I v) = Some (iA, dI)).
    { destruct Hcol as [(I1 & dI1 & -> & X)|(-> & -> & ->)]; cbn; eexists; (split; [reflexivity|]); cbn; repeat split; auto. destruct noI; destruct X as [-> ->]; reflexivity. }
    destruct EP as (v & Ev & V1 & V2 & V3 & V4 & V5 & V6 & V7).
    unfold run_adjoint_rmsynth. rewrite Ev. cbn [pybind]. rewrite V7, V1, V2, V3, V4, V5, V6. rewrite EF. rewrite bw_dqu_eq. fold sg.
    rewrite (bw_grid_eq freq dPhi phiMax ns h p Hn Hst Hrg). cbn [pybind fst snd].
    destruct (depth_grid_1D_spec p h ltac:(lra)) as (phi & N & EG & OC & CL). rewrite EG. cbn [pybind].
    replace (weights_1D var (length freq) (map Some sg)) with (POk (run_weights var sg)) by (rewrite <- Lsg; symmetry; apply weights_1D_eq; exact Hs). cbn [pybind].
    destruct (adjoint_spectrum freq q u phi WNone (Some (run_weights var sg)) None b Lq Lu) as (r & Er & HR); auto.
    { rewrite run_weights_len. auto. }
    fold (spec1 q). fold (spec1 u). rewrite Er. cbn [pybind].
    destruct (HR sg Lsg ltac:(fold chs; lra)) as (E0 & EFD & ET). fold chs in E0, EFD, ET. fold l0 in E0, EFD. rewrite ET.
    pose proof OC as [LPH APH].
    assert (N1 : (1 <= N)%nat).
    { destruct N; [|lia]. cbn [INR] in CL. rewrite Rmult_0_l, Rminus_0_l, Rabs_Ropp, Rabs_Rabsolu, !Rabs_pos_eq in CL by lra. lra. }
    set (FD := flat (adj_FDF r)) in *. set (noise := map (fun f => Some (noise_spec b chs f)) phi) in *. set (sens := map (fun f => Some (sens_spec b chs f)) phi) in *.
    assert (LFD : length FD = length phi) by (rewrite EFD; apply map_length). assert (LNo : length noise = length phi) by apply map_length. assert (LSe : length sens = length phi) by apply map_length.
    assert (SN : forall k, (k < length phi)%nat -> nth k (sn_spectrum FD noise) None = odiv (Some (Cmod (adj_spec b chs l0 (nth k phi 0)))) (Some (noise_spec b chs (nth k phi 0)))).
    { intros k Hk. rewrite nth_sn by lia. rewrite EFD. unfold noise. rewrite !(nth_map_lt _ _ _ _ 0) by auto. reflexivity. }
    assert (C0 : nth N phi 0 = 0) by (rewrite APH by lia; ring).
    destruct (peak_channel_spec FD noise N (Cmod (adj_spec b chs l0 0) / noise_spec b chs 0)) as (i & x & Ei & Hi & Ex & Mx); [lia|lia| |].
    { rewrite SN, C0 by lia. unfold odiv. destruct (Req_EM_T _ 0); [lra|reflexivity]. }
    rewrite Ei. cbn [pybind]. rewrite LFD in Hi, Mx. set (pk := nth i phi 0).
    assert (ND : noise_spec b chs pk <> 0 /\ x = Cmod (adj_spec b chs l0 pk) / noise_spec b chs pk).
    { rewrite SN in Ex by lia. unfold odiv in Ex. fold pk in Ex. destruct (Req_EM_T _ 0); [discriminate|]. injection Ex as <-. auto. }
    destruct ND as [ND Ex'].
    assert (WSL : length (run_weights var sg) = length freq) by (rewrite run_weights_len; auto).
    assert (RB : bwsum (unit_chans b freq (weights_of (length freq) (Some (run_weights var sg))) (map is_none q) pk) <> 0).
    { destruct Hlive as (j & qj & uj & Hj & Ejq & Eju). apply Rgt_not_eq. unfold bwsum, unit_chans. rewrite rsum_flat_map.
      set (F := fun j => rsum (map b_w (if nth j (map is_none q) false then [] else [mk_bchan (nth j freq 0) (nth j (weights_of (length freq) (Some (run_weights var sg))) 0) 0 (thin_chan b 1 0 pk (nth j freq 0))]))).
      assert (F0 : forall i, (i < length freq)%nat -> 0 <= F i).
      { intros i' Hi'. unfold F. destruct (nth i' _ false); cbn [map b_w]; rewrite ?rsum_cons, rsum_nil; [lra|]. rewrite <- Lsg in Hi' |- *. pose proof (run_weights_pos var sg i' Hi' Hs). lra. }
      assert (F1 : 0 < F j).
      { unfold F. rewrite (nth_map_lt _ _ _ _ None) by lia. rewrite Ejq. cbn [is_none is_some negb map b_w]. rewrite rsum_cons, rsum_nil. rewrite <- Lsg in Hj |- *. pose proof (run_weights_pos var sg j Hj Hs). lra. }
      assert (SP : forall l, (forall i, In i l -> (i < length freq)%nat) -> In j l -> 0 < rsum (map F l)).
      { induction l as [|c t IH]; intros A I; [destruct I|]. cbn [map]. rewrite rsum_cons. destruct I as [->|I].
        - apply Rplus_lt_le_0_compat; auto. apply rsum_nonneg. intros y Iy. apply in_map_iff in Iy. destruct Iy as (c & <- & Ic). apply F0, A. now right.
        - apply Rplus_le_lt_0_compat; [apply F0, A; now left|]. apply IH; auto. intros y Iy. apply A. now right. }
      apply (SP (seq 0 (length freq))); [intros i' Ii; apply in_seq in Ii; lia|apply in_seq; lia]. }
    destruct (bw_rmsf_response fit freq WNone phi pk (Some (run_weights var sg)) (map is_none q) (Some l0) fitR b) as (s & Es & R1 & R2 & R3 & R4 & R5 & R6); auto; try (rewrite ?map_length; lia).
    assert (G : even_grid phi h). { intros k Hk. rewrite !APH by lia. rewrite S_INR. ring. }
    pose proof (bw_rmsf_depths_shifted fit freq WNone phi pk (Some (run_weights var sg)) (map is_none q) (Some l0) fitR b s h WSL ltac:(rewrite map_length; lia) Hw Hok ltac:(lia) RB G ltac:(lra) Es) as SH.
    rewrite E0. change (fun x0 : option R => is_none x0) with (@is_none R). rewrite Es. cbn [pybind].
    destruct (Rle_dec l0 0); [lra|]. unfold pad6. rewrite Lpar. cbn [Nat.ltb Nat.leb pybind Nat.sub repeat app option_map].
    change c_light with 299792458. rewrite poly5_unit. fold I0.
    set (FD2 := map _ FD).
    assert (EFD2 : FD2 = map (fun f => Some (adj_spec b chs l0 f * RtoC I0)%C) phi) by (unfold FD2; rewrite EFD, map_map; reflexivity).
    assert (LFD2 : length FD2 = length phi) by (unfold FD2; rewrite map_length; exact LFD).
    destruct (peak_channel_spec FD2 noise N (Cmod (adj_spec b chs l0 0 * RtoC I0)%C / noise_spec b chs 0)) as (i2 & x2 & Ei2 & _); [lia|lia| |].
    { rewrite nth_sn by lia. rewrite EFD2. unfold noise. rewrite !(nth_map_lt _ _ _ _ 0) by lia. rewrite C0. cbn [option_map]. unfold odiv. destruct (Req_EM_T _ 0); [lra|reflexivity]. }
    destruct (bw_measure_ok FD2 phi (bw_fwhm s) sens noise (lambda_sq freq) (Some l0) 5 i2 Ei2 ltac:(lia)) as [m Em]. rewrite Em. cbn [pybind].
    assert (GD : filter (fun wq : option R * option R => andb (if Req_EM_T (nan0 (fst wq)) 0 then false else true) (is_some (snd wq))) (combine (run_weights var sg) q) <> []).
    { destruct Hlive as (j & qj & uj & Hj & Ejq & Eju). intros GE.
      assert (IG : In (nth j (run_weights var sg) None, Some qj) (combine (run_weights var sg) q)).
      { rewrite <- Ejq. rewrite <- nth_combine2 by lia. apply nth_In. rewrite combine_length. lia. }
      assert (IF : In (nth j (run_weights var sg) None, Some qj) (filter (fun wq : option R * option R => andb (if Req_EM_T (nan0 (fst wq)) 0 then false else true) (is_some (snd wq))) (combine (run_weights var sg) q))).
      { apply filter_In. split; [exact IG|]. cbn [fst snd is_some]. rewrite andb_true_r. destruct (Req_EM_T _ 0) as [Z|]; [|reflexivity]. exfalso.
        assert (Hj' : (j < length sg)%nat) by lia. pose proof (run_weights_pos var sg j Hj' Hs) as PW. unfold weights_of in PW. rewrite (nth_map_lt _ _ _ _ None) in PW by (rewrite run_weights_len; lia). unfold nan0 in Z. lra. }
      rewrite GE in IF. destruct IF. }
    destruct (filter _ _) as [|g0 gt]; [contradiction|]. rewrite HC. cbn [pybind report].
    eexists. split; [reflexivity|]. cbn [o_phi o_lam0 o_Ifreq0 o_freq o_weight o_FDF o_peak_rm o_RMSF o_phi2].
    split; [exists N; split; [exact OC|]; rewrite (Rabs_pos_eq h), (Rabs_pos_eq p) in CL by lra; exact CL|]. split; [lia|]. split; [exact L0|]. split; [reflexivity|]. split; [reflexivity|]. split; [reflexivity|]. split; [reflexivity|].
    split; [rewrite map_length, combine_length; lia|]. split; [|split].
    - intros k Hk Sn. set (f := nth k phi 0) in *. rewrite (nth_map_lt _ _ _ _ (None, None)) by (rewrite combine_length; lia). rewrite nth_combine2 by lia. cbn [fst snd]. rewrite EFD2. unfold sens. rewrite !(nth_map_lt _ _ _ _ 0) by lia. fold f.
      destruct (Req_EM_T (sens_spec b chs f) 0); [contradiction|]. f_equal. unfold Cdiv. ring.
    - exists i. split; [exact Hi|]. split; [reflexivity|]. fold pk. split; [exact ND|]. intros k Hk Nf. set (f := nth k phi 0) in *. rewrite <- Ex'. apply (Mx k); [lia|]. rewrite SN by lia. fold f. unfold odiv. destruct (Req_EM_T _ 0); [contradiction|reflexivity].
    - fold pk. split; [exact R1|]. intros k Hk. unfold saved_RMSF. cbn [o_phi2 o_RMSF]. rewrite nth_combine2 by lia. f_equal; [apply SH; auto|apply R3; auto].
  Qed.
End Run.
