(** Runs of the 1-D tool whose Stokes I models are proportional report the same
    spectrum; a flat Stokes I spectrum, or none, is fitted exactly. *)
From Coq Require Import Reals List Arith ZArith Bool Lra Lia Psatz.
Set Warnings "-ambiguous-paths".
From Coquelicot Require Import Coquelicot.
From Verif Require Import PyRes CBase PyList NdArray PyList_Proofs Synth_Model Synth_Spec Synth_Proofs Clean_Grid Setup_Model Setup_Spec Setup_Proofs
  StokesI_Model StokesI_Spec StokesI_Proofs StokesI_Fit MpI_Model MpI_Spec Measure_Model Measure_Spec Measure_Proofs Measure_Laws Rmsf_Proofs Rmsf_Peak QU_Model QU_Spec QU_Proofs
  Run1D_Model Run1D_Spec Run1D_Proofs Run1D_Laws Run1D_Total Run1D_Meas Run1D_Refute Run1D_FlatSpec Qrun_Flat.
Import ListNotations.
Local Open Scope R_scope.

Lemma rsum_scale : forall {A} (f : A -> R) k l, rsum (map (fun x => k * f x) l) = k * rsum (map f l).
Proof. intros A f k l. induction l as [|x l IH]; cbn [map]; rewrite ?rsum_nil, ?rsum_cons, ?IH; ring. Qed.

Lemma csum_scale : forall {A} (f : A -> C) k l, csum (map (fun x => (k * f x)%C) l) = (k * csum (map f l))%C.
Proof. intros A f k l. unfold csum. induction l as [|x l IH]; cbn [map fold_right]; [ring|]. rewrite IH. ring. Qed.

(** Scaling the weights and the polarisations of the channels. *)
Definition scale_chan (v k : R) (c : chan) : chan := mk_chan (c_l2 c) (v * c_w c) (c_P c * RtoC k)%C.

Section ScaleChan.
  Variables (v k : R) (chs : list chan).
  Hypothesis Pv : 0 < v.
  Hypothesis Pw : 0 < wsum chs.

  Lemma scale_wsum : wsum (map (scale_chan v k) chs) = v * wsum chs.
  Proof. unfold wsum. rewrite map_map. cbn [scale_chan c_w]. apply rsum_scale. Qed.

  Lemma scale_mean : mean_l2 (map (scale_chan v k) chs) = mean_l2 chs.
  Proof.
    unfold mean_l2. rewrite scale_wsum, map_map. cbn [scale_chan c_w c_l2].
    rewrite (map_ext _ (fun c => v * (c_w c * c_l2 c))) by (intros; ring). rewrite rsum_scale. field. split; lra.
  Qed.

  Lemma scale_FDF_spec : forall l0 f, FDF_spec (map (scale_chan v k) chs) l0 f = (FDF_spec chs l0 f * RtoC k)%C.
  Proof.
    intros l0 f. unfold FDF_spec. rewrite scale_wsum, map_map. cbn [scale_chan c_w c_l2 c_P].
    rewrite (map_ext _ (fun c => (RtoC (v * k) * (RtoC (c_w c) * c_P c * cis (-2 * f * (c_l2 c - l0))))%C)) by (intros; rewrite !RtoC_mult; ring).
    rewrite csum_scale, !RtoC_mult. field. split; apply RtoC_neq0; lra.
  Qed.

  Lemma scale_RMSF_spec : forall l0 f, RMSF_spec (map (scale_chan v k) chs) l0 f = RMSF_spec chs l0 f.
  Proof.
    intros l0 f. unfold RMSF_spec. rewrite scale_wsum, map_map. cbn [scale_chan c_w c_l2].
    rewrite (map_ext _ (fun c => (RtoC v * (RtoC (c_w c) * cis (-2 * f * (c_l2 c - l0))))%C)) by (intros; rewrite !RtoC_mult; ring).
    rewrite csum_scale, !RtoC_mult. field. split; apply RtoC_neq0; lra.
  Qed.
End ScaleChan.

Lemma is_max_unique : forall l a b, is_max l a -> is_max l b -> a = b.
Proof. intros l a b [A1 A2] [B1 B2]. apply Rle_antisym; auto. Qed.
Lemma is_min_unique : forall l a b, is_min l a -> is_min l b -> a = b.
Proof. intros l a b [A1 A2] [B1 B2]. apply Rle_antisym; auto. Qed.

(** Two runs on the same Q and U whose Stokes I models are proportional. *)
Section Same.
  Variables (mpfit1 mpfit2 : mpin -> pyres mpres) (fit : bool -> list R -> list (option C) -> option (Z * R)).
  Variables (d1 d2 : synth_data) (o1 o2 : run_opts) (freq : list R) (I1 I2 Q U dI1 dI2 dQ dU : list (option R)) (out1 out2 : synth_out) (k : R).
  Hypothesis GI1 : good_input d1 (o_noStokesI o1) freq I1 Q U dI1 dQ dU.
  Hypothesis GI2 : good_input d2 (o_noStokesI o2) freq I2 Q U dI2 dQ dU.
  Hypothesis GO1 : good_opts mpfit1 o1 (length freq).
  Hypothesis GO2 : good_opts mpfit2 o2 (length freq).
  Hypothesis RUN1 : run_rmsynth mpfit1 fit d1 o1 = POk out1.
  Hypothesis RUN2 : run_rmsynth mpfit2 fit d2 o2 = POk out2.
  Hypothesis SO : same_setup o1 o2.
  Hypothesis Nk : k <> 0.
  Let m1 := stokes_model o1 (r_fit out1) freq.
  Let m2 := stokes_model o2 (r_fit out2) freq.
  Hypothesis PR : forall j, (j < length freq)%nat -> m1 j = k * m2 j.
  Hypothesis P0 : forall i1 i2, r_Ifreq0 out1 = Some i1 -> r_Ifreq0 out2 = Some i2 -> i1 = k * i2.

  Let v := if o_variance o2 then k ^ 2 else 1.
  Lemma v_pos : 0 < v.
  Proof. unfold v. destruct (o_variance o2); [|lra]. apply pow2_gt_0. exact Nk. Qed.

  Lemma weights_scale : forall j, (j < length freq)%nat -> nth j (r_weight out1) 0 = v * nth j (r_weight out2) 0.
  Proof.
    intros j Hj. destruct SO as (SV & _).
    destruct (run_refines _ _ _ _ _ _ _ _ _ _ _ _ GI1 GO1 RUN1) as (_ & _ & _ & _ & _ & _ & _ & _ & _ & W1 & _).
    destruct (run_refines _ _ _ _ _ _ _ _ _ _ _ _ GI2 GO2 RUN2) as (_ & _ & _ & _ & _ & _ & _ & _ & _ & W2 & _).
    rewrite W1, W2 by auto. fold m1 m2. rewrite PR by auto. rewrite SV. unfold chan_weight, v. destruct (o_variance o2); [|ring].
    destruct (nth j dQ None); [|ring]. destruct (nth j dU None); [|ring]. unfold Rdiv. ring.
  Qed.

  Let c1 := used_chans freq Q U m1 (r_weight out1).
  Let c2 := used_chans freq Q U m2 (r_weight out2).
  Lemma chans_scale : c1 = map (scale_chan v (/ k)) c2.
  Proof.
    unfold c1, c2, used_chans. rewrite !flat_map_concat_map, concat_map, map_map. f_equal. apply map_ext_in. intros j J. apply in_seq in J.
    destruct (nth j Q None) as [a|]; [|reflexivity]. destruct (nth j U None) as [b|]; [|reflexivity].
    rewrite (PR j) by lia. rewrite weights_scale by lia.
    destruct (Req_EM_T (m2 j) 0) as [Z|Z], (Req_EM_T (k * m2 j) 0) as [Y|Y].
    - reflexivity.
    - exfalso. apply Y. rewrite Z. ring.
    - exfalso. apply Rmult_integral in Y. tauto.
    - cbn [map]. unfold scale_chan. cbn [c_l2 c_w c_P]. do 2 f_equal. unfold RtoC, Cmult. cbn [fst snd]. f_equal; field; auto.
  Qed.

  Let q1 := q_chans freq Q m1 (r_weight out1).
  Let q2 := q_chans freq Q m2 (r_weight out2).
  Lemma q_scale : q1 = map (scale_chan v (/ k)) q2.
  Proof.
    unfold q1, q2, q_chans. rewrite !flat_map_concat_map, concat_map, map_map. f_equal. apply map_ext_in. intros j J. apply in_seq in J.
    destruct (nth j Q None) as [a|]; [|reflexivity].
    rewrite (PR j) by lia. rewrite weights_scale by lia.
    destruct (Req_EM_T (m2 j) 0) as [Z|Z], (Req_EM_T (k * m2 j) 0) as [Y|Y].
    - reflexivity.
    - exfalso. apply Y. rewrite Z. ring.
    - exfalso. apply Rmult_integral in Y. tauto.
    - cbn [map]. unfold scale_chan. cbn [c_l2 c_w c_P]. do 2 f_equal. ring.
  Qed.

  Lemma same_phi : r_phi out1 = r_phi out2.
  Proof.
    destruct GI1 as (IC1 & _), GI2 as (IC2 & _). destruct SO as (_ & SD & SP & SN & SS & _).
    destruct (run_raw _ _ _ _ _ _ _ _ _ _ _ _ RUN1 IC1) as (? & ? & ? & ? & ? & ? & dpa & pha & ? & ? & ? & ? & ? & ? & ? & ? & _ & _ & G1 & D1 & _ & _ & _ & _ & _ & _ & _ & O1).
    destruct (run_raw _ _ _ _ _ _ _ _ _ _ _ _ RUN2 IC2) as (? & ? & ? & ? & ? & ? & dpb & phb & ? & ? & ? & ? & ? & ? & ? & ? & _ & _ & G2 & D2 & _ & _ & _ & _ & _ & _ & _ & O2).
    rewrite SD, SP, SN, SS in G1. rewrite G1 in G2. injection G2 as <-. rewrite D1 in D2. injection D2 as <-. rewrite O1, O2. reflexivity.
  Qed.

  Lemma same_lam0 : r_lam0 out1 = r_lam0 out2 /\ (o_super o2 = false -> r_freq0 out1 = r_freq0 out2).
  Proof.
    destruct (run_refines _ _ _ _ _ _ _ _ _ _ _ _ GI1 GO1 RUN1) as (_ & _ & _ & _ & _ & _ & _ & _ & _ & _ & _ & _ & L1 & F1 & _).
    destruct (run_refines _ _ _ _ _ _ _ _ _ _ _ _ GI2 GO2 RUN2) as (_ & _ & _ & _ & _ & _ & _ & _ & _ & _ & W2 & _ & L2 & F2 & _).
    fold m1 in L1, F1. fold c1 in L1, F1. fold m2 in W2, L2, F2. fold c2 in W2, L2, F2. destruct SO as (_ & _ & _ & _ & SS & _). rewrite SS in *.
    assert (E : mean_l2 c1 = mean_l2 c2) by (rewrite chans_scale; apply scale_mean; auto using v_pos). rewrite E in *.
    split; [congruence|]. intros Hs. rewrite F1, F2 by auto. reflexivity.
  Qed.

  Lemma same_FDF : r_FDF out1 = r_FDF out2.
  Proof.
    destruct (run_refines _ _ _ _ _ _ _ _ _ _ _ _ GI1 GO1 RUN1) as (_ & _ & _ & i1 & _ & _ & _ & _ & _ & _ & _ & _ & _ & _ & _ & _ & E1 & _ & N1 & F1).
    destruct (run_refines _ _ _ _ _ _ _ _ _ _ _ _ GI2 GO2 RUN2) as (_ & _ & _ & i2 & _ & _ & _ & _ & _ & _ & W2 & _ & _ & _ & _ & _ & E2 & _ & N2 & F2).
    fold m1 in F1. fold c1 in F1. fold m2 in W2, F2. fold c2 in W2, F2. pose proof same_phi as SP. destruct same_lam0 as [SL _].
    apply (nth_ext _ _ None None); [congruence|]. intros j Hj. rewrite F1 by congruence. rewrite F2 by congruence.
    rewrite SP, SL, chans_scale, scale_FDF_spec by auto using v_pos. rewrite (P0 i1 i2) by auto. f_equal. rewrite RtoC_mult, RtoC_inv by auto.
    field. apply RtoC_neq0. exact Nk.
  Qed.

  Lemma same_RMSF : r_phi2 out1 = r_phi2 out2 /\ r_RMSF out1 = r_RMSF out2.
  Proof.
    destruct (run_rmsf _ _ _ _ _ _ _ _ _ _ _ _ GI1 GO1 RUN1) as (ha & sa & A1 & A2 & A3 & _ & A4).
    destruct (run_rmsf _ _ _ _ _ _ _ _ _ _ _ _ GI2 GO2 RUN2) as (hb & sb & B1 & B2 & B3 & B5 & B4).
    fold m1 in A4. fold q1 in A4. fold m2 in B4, B5. fold q2 in B4, B5.
    pose proof same_phi as SP. destruct same_lam0 as [SL _].
    assert (H3 : (3 <= length (r_phi out2))%nat).
    { destruct (run_inv _ _ _ _ _ _ _ _ _ _ _ _ GI2 GO2 RUN2) as (? & ? & ? & ? & _ & _ & _ & _ & _ & _ & _ & _ & _ & _ & _ & _ & _ & _ & LF & _ &
        ? & ? & ? & ? & ? & ? & ? & _ & _ & _ & _ & _ & _ & _ & _ & _ & _ & _ & _ & _ & _ & _ & EM & _).
      destruct (measure_shape _ _ _ _ _ _ _ LF _ EM) as (ip & zp & (Hip & _) & _). lia. }
    rewrite SP in A1. destruct A1 as [LA OA], B1 as [LB OB].
    assert (ha = hb) as -> by lia.
    assert (sa = sb) as ->. { pose proof (OA (S hb)) as X. pose proof (OB (S hb)) as Y. rewrite X in Y by lia. rewrite S_INR in Y by lia. specialize (Y ltac:(lia)). lra. }
    assert (E2 : r_phi2 out1 = r_phi2 out2).
    { destruct A2 as [LA2 OA2], B2 as [LB2 OB2]. apply (nth_ext _ _ 0 0); [lia|]. intros j Hj. rewrite OA2, OB2 by lia. reflexivity. }
    split; [exact E2|]. apply (nth_ext _ _ None None); [congruence|]. intros j Hj. rewrite A4 by congruence. rewrite B4 by congruence.
    rewrite E2, SL, q_scale, scale_RMSF_spec by auto using v_pos. reflexivity.
  Qed.

  Lemma same_width : r_fwhm out1 = r_fwhm out2.
  Proof.
    destruct (run_fwhm _ _ _ _ _ _ _ _ _ _ _ _ GI1 GO1 RUN1) as (mx & mn & X1 & N1 & E1).
    destruct (run_fwhm _ _ _ _ _ _ _ _ _ _ _ _ GI2 GO2 RUN2) as (mx' & mn' & X2 & N2 & E2).
    rewrite (is_max_unique _ _ _ X1 X2), (is_min_unique _ _ _ N1 N2) in E1. destruct same_RMSF as [SP SR]. destruct SO as (_ & _ & _ & _ & SS & SF).
    rewrite E1, E2, SP, SR, SS, SF. reflexivity.
  Qed.

  Lemma same_noise : r_dFDFth out1 = r_dFDFth out2.
  Proof.
    destruct (run_noise _ _ _ _ _ _ _ _ _ _ _ _ GI1 GO1 RUN1) as (i1 & E1 & W1 & D1 & _).
    destruct (run_noise _ _ _ _ _ _ _ _ _ _ _ _ GI2 GO2 RUN2) as (i2 & E2 & W2 & D2 & _).
    rewrite D1, D2. f_equal. rewrite (P0 i1 i2) by auto. pose proof v_pos as Pv. fold m1 m2.
    rewrite (rsum_map_ext (fun j => nth j (r_weight out1) 0) (fun j => v * nth j (r_weight out2) 0)) by (intros j J; apply in_seq in J; apply weights_scale; lia).
    rewrite rsum_scale.
    rewrite (rsum_map_ext _ (fun j => (v / k) ^ 2 * (nth j (r_weight out2) 0 * chan_noise (nth j dQ None) (nth j dU None) (m2 j)) ^ 2)).
    - rewrite rsum_scale, sqrt_mult_alt by apply pow2_ge_0. rewrite <- pow2_abs, sqrt_pow2 by apply Rabs_pos.
      unfold Rdiv at 2. rewrite !Rabs_mult, Rabs_inv, (Rabs_pos_eq v) by lra. pose proof (Rabs_no_R0 _ Nk). field. repeat split; lra.
    - intros j J. apply in_seq in J. rewrite weights_scale by lia. unfold chan_noise. rewrite (PR j) by lia.
      destruct (nth j dQ None) as [a|]; [|ring]. destruct (nth j dU None) as [b|]; [|ring].
      destruct (Req_EM_T (m2 j) 0) as [Z|Z], (Req_EM_T (k * m2 j) 0) as [Y|Y].
      + ring.
      + exfalso. apply Y. rewrite Z. ring.
      + exfalso. apply Rmult_integral in Y. tauto.
      + rewrite Rabs_mult. pose proof (Rabs_no_R0 _ Nk). pose proof (Rabs_no_R0 _ Z).
        unfold Rdiv. rewrite !Rpow_mult_distr, !pow_inv, !Rpow_mult_distr, !pow2_abs. field. auto.
  Qed.

  Lemma same_counted : counted freq Q m1 (r_weight out1) = counted freq Q m2 (r_weight out2).
  Proof.
    unfold counted. apply flat_map_ext_in. intros j J. apply in_seq in J. destruct (nth j Q None); [|reflexivity]. rewrite PR, weights_scale by lia.
    pose proof v_pos as Pv.
    destruct (Req_EM_T (m2 j) 0) as [Z|Z], (Req_EM_T (k * m2 j) 0) as [Y|Y]; try reflexivity.
    - exfalso. apply Y. rewrite Z. ring.
    - exfalso. apply Rmult_integral in Y. tauto.
    - destruct (Req_EM_T (nth j (r_weight out2) 0) 0) as [A|A], (Req_EM_T (v * nth j (r_weight out2) 0) 0) as [B|B]; try reflexivity.
      + exfalso. apply B. rewrite A. ring.
      + exfalso. apply Rmult_integral in B. destruct B; lra.
  Qed.

  Lemma same_parms : r_parms out1 = r_parms out2.
  Proof.
    destruct (run_parms _ _ _ _ _ _ _ _ _ _ _ _ GI1 GO1 RUN1) as (E1 & _). destruct (run_parms _ _ _ _ _ _ _ _ _ _ _ _ GI2 GO2 RUN2) as (E2 & _).
    destruct same_lam0 as [SL _]. rewrite same_FDF, same_phi, same_width, same_noise, SL in E1. rewrite E1 in E2. injection E2 as E2. exact E2.
  Qed.

  (** The same spectrum, noise and source; a fraction divided by k. *)
  Theorem same_run : same_spectrum out1 out2 /\ (o_super o2 = false -> r_freq0 out1 = r_freq0 out2) /\
    (forall p, r_fracPol out2 = Some p -> r_fracPol out1 = Some (p / k)) /\
    (forall p a RM, r_fracPol out2 = Some p -> polAngle0Fit_deg (r_parms out2) = Some a -> phiPeakPIfit (r_parms out2) = Some RM -> r_sigma out1 = r_sigma out2).
  Proof.
    destruct same_lam0 as [SL SF]. destruct same_RMSF as [S2 SR]. pose proof same_parms as SM.
    assert (FP : forall p, r_fracPol out2 = Some p -> r_fracPol out1 = Some (p / k)).
    { intros p E.
      destruct (run_inv _ _ _ _ _ _ _ _ _ _ _ _ GI1 GO1 RUN1) as (? & ? & ? & i1 & _ & _ & _ & _ & _ & _ & _ & _ & _ & _ & _ & _ & Ei1 & _ & _ & _ &
        ? & ? & ? & ? & ? & ? & ? & _ & _ & _ & _ & _ & _ & _ & _ & _ & _ & _ & _ & _ & _ & _ & _ & _ & _ & _ & _ & F1 & _).
      destruct (run_inv _ _ _ _ _ _ _ _ _ _ _ _ GI2 GO2 RUN2) as (? & ? & ? & i2 & _ & _ & _ & _ & _ & _ & _ & _ & _ & _ & _ & _ & Ei2 & _ & _ & _ &
        ? & ? & ? & ? & ? & ? & ? & _ & _ & _ & _ & _ & _ & _ & _ & _ & _ & _ & _ & _ & _ & _ & _ & _ & _ & _ & _ & F2 & _).
      rewrite F1, SM, (P0 i1 i2) by auto. rewrite F2 in E. unfold odiv in *. destruct (ampPeakPIfitEff (r_parms out2)) as [e|]; [|discriminate].
      destruct (Req_EM_T i2 0) as [Z|Z]; [discriminate|]. injection E as <-. destruct (Req_EM_T (k * i2) 0) as [Y|Y]; [apply Rmult_integral in Y; tauto|].
      f_equal. field. auto. }
    split; [|split; [exact SF|split; [exact FP|]]].
    - destruct (run_channels _ _ _ _ _ _ _ _ _ _ _ _ GI1 GO1 RUN1) as (N1 & lo1 & hi1 & L1 & H1 & M1 & X1 & _).
      destruct (run_channels _ _ _ _ _ _ _ _ _ _ _ _ GI2 GO2 RUN2) as (N2 & lo2 & hi2 & L2 & H2 & M2 & X2 & _).
      fold m1 in N1, M1, X1. fold m2 in N2, M2, X2. rewrite same_counted in *.
      unfold same_spectrum. rewrite same_phi, SL, same_FDF, S2, SR, same_width, same_noise, SM, N1, N2, L1, L2, H1, H2.
      rewrite (is_min_unique _ _ _ M1 M2), (is_max_unique _ _ _ X1 X2). repeat split; reflexivity.
    - intros p a RM Ep Ea Er.
      destruct (run_complexity _ _ _ _ _ _ _ _ _ _ _ _ GI2 GO2 RUN2 p a RM Ep Ea Er) as (sq & su & sc & E2 & C1 & C2 & C3).
      rewrite <- SM in Ea, Er.
      destruct (run_complexity _ _ _ _ _ _ _ _ _ _ _ _ GI1 GO1 RUN1 (p / k) a RM (FP p Ep) Ea Er) as (sq' & su' & sc' & E1 & C1' & C2' & C3').
      fold m1 in C1', C2', C3'. fold m2 in C1, C2, C3.
      assert (RS : forall x e (g : R * R -> R), (forall t, g (RtoC (p / k) * t)%C = g (RtoC p * t)%C / k) ->
        map (fun j => resid (nth j x None) (nth j e None) (m1 j) (g (thin (p / k) (rad a) RM (lsq (nth j freq 0))))) (seq 0 (length freq)) =
        map (fun j => resid (nth j x None) (nth j e None) (m2 j) (g (thin p (rad a) RM (lsq (nth j freq 0))))) (seq 0 (length freq))).
      { intros x e g G. apply map_ext_in. intros j J. apply in_seq in J. unfold resid. destruct (nth j x None); [|reflexivity]. destruct (nth j e None); [|reflexivity].
        rewrite (PR j) by lia. unfold thin. rewrite G.
        destruct (Req_EM_T (m2 j) 0) as [Z|Z], (Req_EM_T (k * m2 j) 0) as [Y|Y]; try reflexivity.
        - exfalso. apply Y. rewrite Z. ring.
        - exfalso. apply Rmult_integral in Y. tauto.
        - destruct (Req_EM_T r0 0); [reflexivity|]. f_equal. f_equal. field. auto. }
      assert (UE : forall e, map (fun j => unit_error (nth j e None) (m1 j)) (seq 0 (length freq)) = map (fun j => unit_error (nth j e None) (m2 j)) (seq 0 (length freq))).
      { intros e. apply map_ext_in. intros j J. apply in_seq in J. unfold unit_error. destruct (nth j e None); [|reflexivity]. rewrite (PR j) by lia.
        destruct (Req_EM_T (m2 j) 0) as [Z|Z], (Req_EM_T (k * m2 j) 0) as [Y|Y]; try reflexivity.
        - exfalso. apply Y. rewrite Z. ring.
        - exfalso. apply Rmult_integral in Y. tauto. }
      assert (G1 : forall t : C, fst (RtoC (p / k) * t)%C = fst (RtoC p * t)%C / k) by (intros [a1 a2]; cbn; field; auto).
      assert (G2 : forall t : C, snd (RtoC (p / k) * t)%C = snd (RtoC p * t)%C / k) by (intros [a1 a2]; cbn; field; auto).
      pose proof (RS Q dQ fst G1) as R1. pose proof (RS U dU snd G2) as R2.
      rewrite R1, UE in C1'. rewrite R2, UE in C2'. rewrite R1, R2, !UE in C3'.
      rewrite E1, E2. rewrite C1' in C1. rewrite C2' in C2. rewrite C3' in C3. injection C1 as ->. injection C2 as ->. injection C3 as ->. reflexivity.
  Qed.
End Same.

(** A flat Stokes I spectrum is fitted exactly. *)
Theorem flat_run : forall fuel rest fit d o freq iA Q U dI dQ dU out c,
  good_input d (o_noStokesI o) freq iA Q U dI dQ dU -> good_opts (mpfit_code (S fuel) rest) o (length freq) -> o_modStokesI o = None ->
  flat_I freq iA dI c -> run_rmsynth (mpfit_code (S fuel) rest) fit d o = POk out ->
  (forall f, 0 < f -> model_at (r_fit out) f = c) /\ r_Ifreq0 out = Some c.
Proof.
  intros fuel rest fit d o freq iA Q U dI dQ dU out c GI GO NM (Ng & Us & Hc & Nc) RUN.
  destruct (run_refines _ _ _ _ _ _ _ _ _ _ _ _ GI GO RUN) as (_ & _ & _ & I0 & _ & _ & _ & _ & _ & _ & _ & _ & LL & _ & PF & _ & EI & EM & _).
  destruct (run_refines _ _ _ _ _ _ _ _ _ _ _ _ GI GO RUN) as (_ & _ & _ & _ & _ & _ & _ & _ & _ & _ & _ & PM & _).
  pose proof GI as (IC & LI & LQ & LU & LdI & LdQ & LdU & Hf). pose proof GO as (LP & OF & LM).
  destruct (run_raw _ _ _ _ _ _ _ _ _ _ _ _ RUN IC) as (IM & q & u & dq & du & fr & dp & phi & w & r & s & freq0 & fr' & I0' & m & sg & EF & _ & EG & _ & _ & _ & _ & EA & _ & _ & _ & EO).
  assert (Hn : (0 < length freq)%nat) by (apply grid_params_two in EG; rewrite map_length in EG; lia).
  destruct (frac_model _ freq iA Q U dI dQ dU _ _ _ _ _ _ _ _ _ Hn LI LQ LU LdI LdQ LdU Hf LM OF LP EF) as (US & _).
  rewrite NM in *.
  destruct (flat_fractions fuel rest freq iA Q U dI dQ dU (o_polyOrd o) (o_fitfun o) c) as (fr0 & E0 & P & FF); auto.
  rewrite EF in E0. injection E0 as _ _ _ _ _ <-.
  assert (L0 : 0 <= synth_lam0 r).
  { rewrite EO in LL. cbn [r_lam0] in LL. rewrite LL. rewrite EO in PM. destruct (o_super o); [lra|]. left. exact PM. }
  destruct (at_reference_spec freq None fr _ _ _ _ US L0 EA) as (_ & _ & _ & A4 & _).
  assert (MD : forall f, 0 < f -> model_at (r_fit out) f = c).
  { intros f Pf. rewrite EO. cbn [r_fit]. rewrite A4 by auto. apply flat_model; [auto|congruence]. }
  split; [exact MD|]. rewrite EI, EM. rewrite MD by auto. reflexivity.
Qed.

(** The spectrum is then that of Q and U themselves. *)
Theorem flat_spectrum : forall fuel rest fit d o freq iA Q U dI dQ dU out c,
  good_input d (o_noStokesI o) freq iA Q U dI dQ dU -> good_opts (mpfit_code (S fuel) rest) o (length freq) -> o_modStokesI o = None ->
  flat_I freq iA dI c -> run_rmsynth (mpfit_code (S fuel) rest) fit d o = POk out ->
  let chs := plain_chans freq Q U (r_weight out) in
  0 < wsum chs /\ r_lam0 out = (if o_super o then 0 else mean_l2 chs) /\ length (r_FDF out) = length (r_phi out) /\
  (forall k, (k < length (r_phi out))%nat -> nth k (r_FDF out) None = Some (FDF_spec chs (r_lam0 out) (nth k (r_phi out) 0))).
Proof.
  intros fuel rest fit d o freq iA Q U dI dQ dU out c GI GO NM FI RUN chs. pose proof FI as (_ & _ & _ & Nc).
  destruct (flat_run _ _ _ _ _ _ _ _ _ _ _ _ _ _ GI GO NM FI RUN) as [MD EI]. pose proof GI as (_ & _ & _ & _ & _ & _ & _ & Hf).
  destruct (run_refines _ _ _ _ _ _ _ _ _ _ _ _ GI GO RUN) as (_ & _ & _ & I0 & _ & _ & _ & _ & _ & _ & WP & _ & LL & _ & _ & _ & EI' & _ & N & F).
  rewrite EI in EI'. injection EI' as <-.
  set (mdl := stokes_model o (r_fit out) freq) in *. set (us := used_chans freq Q U mdl (r_weight out)) in *.
  assert (E : chs = map (scale_chan 1 c) us).
  { unfold chs, plain_chans, us, used_chans. rewrite !flat_map_concat_map, concat_map, map_map. f_equal. apply map_ext_in. intros j J. apply in_seq in J.
    destruct (nth j Q None) as [a|]; [|reflexivity]. destruct (nth j U None) as [b|]; [|reflexivity].
    assert (mdl j = c) as -> by (unfold mdl, stokes_model; rewrite NM; apply MD, Hf, nth_In; lia).
    destruct (Req_EM_T c 0) as [Z|Z]; [contradiction|]. cbn [map]. unfold scale_chan. cbn [c_l2 c_w c_P]. do 2 f_equal; [ring|].
    unfold RtoC, Cmult. cbn [fst snd]. f_equal; field; auto. }
  rewrite E, scale_wsum, scale_mean by (auto; lra). split; [lra|]. split; [exact LL|]. split; [exact N|].
  intros k Hk. rewrite F by auto. rewrite scale_FDF_spec by (auto; lra). reflexivity.
Qed.

(** Runs with different flat Stokes I spectra report the same. *)
Theorem flat_same : forall fuel1 rest1 fuel2 rest2 fit d1 d2 o1 o2 freq I1 I2 Q U dI1 dI2 dQ dU out1 out2 a b,
  good_input d1 (o_noStokesI o1) freq I1 Q U dI1 dQ dU -> good_input d2 (o_noStokesI o2) freq I2 Q U dI2 dQ dU ->
  good_opts (mpfit_code (S fuel1) rest1) o1 (length freq) -> good_opts (mpfit_code (S fuel2) rest2) o2 (length freq) ->
  o_modStokesI o1 = None -> o_modStokesI o2 = None -> same_setup o1 o2 -> flat_I freq I1 dI1 a -> flat_I freq I2 dI2 b ->
  run_rmsynth (mpfit_code (S fuel1) rest1) fit d1 o1 = POk out1 -> run_rmsynth (mpfit_code (S fuel2) rest2) fit d2 o2 = POk out2 ->
  same_spectrum out1 out2 /\ (o_super o2 = false -> r_freq0 out1 = r_freq0 out2) /\
  (forall p, r_fracPol out2 = Some p -> r_fracPol out1 = Some (p * b / a)).
Proof.
  intros fuel1 rest1 fuel2 rest2 fit d1 d2 o1 o2 freq I1 I2 Q U dI1 dI2 dQ dU out1 out2 a b GI1 GI2 GO1 GO2 N1 N2 SO F1 F2 R1 R2.
  pose proof F1 as (_ & _ & _ & Na). pose proof F2 as (_ & _ & _ & Nb). pose proof GI1 as (_ & _ & _ & _ & _ & _ & _ & Hf).
  destruct (flat_run _ _ _ _ _ _ _ _ _ _ _ _ _ _ GI1 GO1 N1 F1 R1) as [MD1 EI1].
  destruct (flat_run _ _ _ _ _ _ _ _ _ _ _ _ _ _ GI2 GO2 N2 F2 R2) as [MD2 EI2].
  assert (Nk : a / b <> 0) by (unfold Rdiv; apply Rmult_integral_contrapositive; split; [auto|now apply Rinv_neq_0_compat]).
  destruct (same_run _ _ _ _ _ _ _ _ _ _ _ _ _ _ _ _ _ _ (a / b) GI1 GI2 GO1 GO2 R1 R2 SO Nk) as (S1 & S2 & S3 & _).
  - intros j Hj. unfold stokes_model. rewrite N1, N2, MD1, MD2 by (apply Hf, nth_In; auto). field. auto.
  - intros i1 i2 E1 E2. rewrite EI1 in E1. rewrite EI2 in E2. injection E1 as <-. injection E2 as <-. field. auto.
  - split; [exact S1|]. split; [exact S2|]. intros p Ep. rewrite (S3 p Ep). f_equal. field. auto.
Qed.

(** Data without Stokes I are such a run, with Stokes I one. *)
Theorem fractional_flat : forall freq, freq <> [] -> flat_I freq (repeat (Some 1) (length freq)) (repeat (Some 0) (length freq)) 1.
Proof. intros freq N. destruct (unit_used freq N) as (A & B & D). repeat split; auto; try lra. Qed.

(** Such a run ends, given enough channels for the order of the Stokes I model. *)
Theorem flat_ends : forall fuel rest fit d o freq iA Q U dI dQ dU c,
  good_input d (o_noStokesI o) freq iA Q U dI dQ dU -> good_opts (mpfit_code (S fuel) rest) o (length freq) -> o_modStokesI o = None ->
  flat_I freq iA dI c -> (Z.to_nat (Z.min (o_polyOrd o) 5) < length (finite_chans freq iA dI))%nat ->
  run_ready o freq Q U dQ dU (fun _ => c) ->
  exists out, run_rmsynth (mpfit_code (S fuel) rest) fit d o = POk out.
Proof.
  intros fuel rest fit d o freq iA Q U dI dQ dU c GI GO NM (Ng & Us & Hc & Nc) EN RR.
  pose proof GI as (_ & LI & _ & _ & LdI & _). pose proof GO as (_ & OF & _).
  destruct (flat_fit fuel rest freq iA dI (o_polyOrd o) (o_fitfun o) c LI LdI OF Ng Us Hc) as (r & Hr & P & FF & _ & _ & CV).
  destruct (run_succeeds (mpfit_code (S fuel) rest) fit d o freq iA Q U dI dQ dU (fun _ => c) GI GO) as (out & R & _); [|exact RR|eauto].
  unfold first_model. rewrite NM, Hr. split.
  - destruct (finite_chans freq iA dI) as [|t g] eqn:E; [congruence|]. assert (In t (finite_chans freq iA dI)) as It by (rewrite E; now left).
    unfold finite_chans in It. apply in_flat_map in It. destruct It as (j & J & It). apply in_seq in J. exists j.
    destruct (nth j iA None); [|destruct It]. destruct (nth j dI None); [|destruct It]. split; [lia|]. split; discriminate.
  - split; [now apply CV|]. intros j Hj. symmetry. apply flat_model; [auto|congruence].
Qed.

(** Three channels at wavelengths of 1, 2 and 3 m, with Stokes I of 4. *)
Definition f_opts : run_opts := mk_opts 1 (Some 1) (Some 1) 10 false false false None Log false.
Definition f_rest : mpin -> pyres mpres := fun _ => PErr.
Definition f_Q : list (option R) := [Some 1; Some 1; Some 1].
Definition f_U : list (option R) := [Some 0; Some 0; Some 0].
Definition f_err : list (option R) := [Some 1; Some 1; Some 1].
Definition f_data : synth_data := Data7 Run1D_Refute.e_freq [Some 4; Some 4; Some 4] f_Q f_U f_err f_err f_err.

Lemma f_input : good_input f_data false Run1D_Refute.e_freq [Some 4; Some 4; Some 4] f_Q f_U f_err f_err f_err.
Proof. split; [left; exists [Some 4; Some 4; Some 4], f_err; repeat split|]. repeat (split; [reflexivity|]). intros f I. repeat destruct I as [<-|I]; try lra. destruct I. Qed.
Lemma f_input5 : good_input (Data5 Run1D_Refute.e_freq f_Q f_U f_err f_err) false Run1D_Refute.e_freq (repeat (Some 1) 3) f_Q f_U (repeat (Some 0) 3) f_err f_err.
Proof. split; [right; repeat split|]. repeat (split; [reflexivity|]). intros f I. repeat destruct I as [<-|I]; try lra. destruct I. Qed.
Lemma f_good_opts : forall fuel, good_opts (mpfit_code (S fuel) f_rest) f_opts 3.
Proof.
  intros fuel. split; [|split; [discriminate|discriminate]]. intros qn r H. unfold mpfit_code, f_rest in H.
  repeat match type of H with match ?x with _ => _ end = _ => destruct x; try discriminate H | (if ?x then _ else _) = _ => destruct x; try discriminate H end;
  injection H as <-; reflexivity.
Qed.
Lemma f_flat : flat_I Run1D_Refute.e_freq [Some 4; Some 4; Some 4] f_err 4.
Proof.
  split; [discriminate|]. split; [|split; [|lra]].
  - intros t Ht. unfold with_errors, finite_chans, Run1D_Refute.e_freq, f_err in Ht. cbn [length seq flat_map nth app forallb snd] in Ht.
    destruct (Req_EM_T 1 0); [lra|]. cbn [andb] in Ht. destruct Ht as [<-|[<-|[<-|[]]]]; cbn [snd]; lra.
  - intros t [<-|[<-|[<-|[]]]]; reflexivity.
Qed.
Lemma f_ready : forall c, c <> 0 -> run_ready f_opts Run1D_Refute.e_freq f_Q f_U f_err f_err (fun _ => c).
Proof.
  intros c Nc. split; [|split; [|split]].
  - exists 299792458, (299792458 / 2). cbn. split; [auto|]. split; [auto|]. lra.
  - discriminate.
  - discriminate.
  - cbv zeta. change (map _ (seq 0 (length Run1D_Refute.e_freq))) with [1; 1; 1].
    assert (E : used_chans Run1D_Refute.e_freq f_Q f_U (fun _ => c) [1; 1; 1] = map (scale_chan 1 (/ c)) (Run1D_Refute.e_chans (Some 0))).
    { unfold Run1D_Refute.e_chans, used_chans, Run1D_Refute.e_freq, f_Q, f_U. cbn [length seq flat_map nth]. destruct (Req_EM_T 1 0); [lra|]. destruct (Req_EM_T c 0); [contradiction|].
      cbn [app map]. unfold scale_chan. cbn [c_l2 c_w c_P]. rewrite Rmult_1_l. unfold RtoC, Cmult. cbn [fst snd].
      replace (1 / 1 * / c - 0 / 1 * 0) with (1 / c) by (field; auto). replace (1 / 1 * 0 + 0 / 1 * / c) with (0 / c) by (field; auto). reflexivity. }
    destruct (Run1D_Refute.e_ready (Some 0) 1 (or_intror eq_refl) ltac:(lra)) as (_ & _ & _ & W & G). cbv zeta in W, G.
    change (map _ (seq 0 (length Run1D_Refute.e_freq))) with [1; 1; 1] in W, G. fold (Run1D_Refute.e_chans (Some 0)) in W, G.
    rewrite E. split; [rewrite scale_wsum by (auto; lra); lra|]. intros st pm CG. destruct (G st pm) as (G1 & G2 & z & G3 & G4); [exact CG|].
    split; [exact G1|]. split; [exact G2|]. exists z. split; [exact G3|]. cbn [o_super f_opts]. cbn [o_super Run1D_Refute.e_opts] in G4.
    rewrite scale_FDF_spec, scale_mean by (auto; lra). intros X. apply G4.
    assert (RtoC (/ c) <> RtoC 0) by (apply RtoC_neq0; now apply Rinv_neq_0_compat).
    rewrite <- (Cmult_1_r (FDF_spec _ _ _)). rewrite <- (Cinv_r (RtoC (/ c))) by auto. rewrite Cmult_assoc, X. ring.
Qed.
Lemma f_run : forall fuel fit, exists out, run_rmsynth (mpfit_code (S fuel) f_rest) fit f_data f_opts = POk out.
Proof. intros fuel fit. eapply flat_ends; [apply f_input|apply f_good_opts|reflexivity|apply f_flat|cbn; lia|apply f_ready; lra]. Qed.
Lemma f_run5 : forall fuel fit, exists out, run_rmsynth (mpfit_code (S fuel) f_rest) fit (Data5 Run1D_Refute.e_freq f_Q f_U f_err f_err) f_opts = POk out.
Proof. intros fuel fit. eapply flat_ends; [apply f_input5|apply f_good_opts|reflexivity|apply (fractional_flat Run1D_Refute.e_freq); discriminate|cbn; lia|apply f_ready; lra]. Qed.

(** A table of Stokes I values in other units. *)
Definition ysc (k : R) (p : R * R) : R * R := (fst p, k * snd p).
Lemma pinsert_ysc : forall k p l, pinsert (ysc k p) (map (ysc k) l) = map (ysc k) (pinsert p l).
Proof. intros k p l. induction l as [|q l IH]; [reflexivity|]. cbn [map pinsert ysc fst]. destruct (Rlt_dec (fst q) (fst p)); cbn [map]; [now rewrite <- IH|reflexivity]. Qed.
Lemma psort_ysc : forall k l, psort (map (ysc k) l) = map (ysc k) (psort l).
Proof. intros k l. induction l as [|p l IH]; [reflexivity|]. cbn [map psort fold_right]. fold (psort (map (ysc k) l)). rewrite IH. apply pinsert_ysc. Qed.
Lemma combine_ysc : forall k xs ys, combine xs (map (Rmult k) ys) = map (ysc k) (combine xs ys).
Proof. intros k xs. induction xs as [|x xs IH]; intros [|y ys]; [reflexivity..|]. cbn [map combine]. now rewrite IH. Qed.

Lemma interp_scale : forall k xs ys x a b, interp1d xs ys x = POk (Some a) -> interp1d xs (map (Rmult k) ys) x = POk (Some b) -> b = k * a.
Proof.
  intros k xs ys x a b. unfold interp1d. rewrite map_length. destruct (negb _); [discriminate|]. cbv zeta. rewrite combine_ysc, psort_ysc, map_length.
  set (l := psort (combine xs ys)).
  assert (NT : forall i, nth i (map (ysc k) l) (0, 0) = ysc k (nth i l (0, 0))).
  { intros i. replace (0, 0) with (ysc k (0, 0)) at 1 by (unfold ysc; cbn; f_equal; ring). apply map_nth. }
  assert (FL : length (filter (fun a => if Rlt_dec (fst a) x then true else false) (map (ysc k) l)) = length (filter (fun a => if Rlt_dec (fst a) x then true else false) l)).
  { clear. induction l as [|p l IH]; [reflexivity|]. cbn [map filter ysc fst]. destruct (Rlt_dec (fst p) x); cbn [length]; auto. }
  rewrite FL, !NT. unfold ysc. cbn [fst snd].
  destruct l as [|p0 l0] eqn:El; [discriminate|]. cbn [map]. rewrite <- El in *.
  destruct (Rlt_dec _ _); [discriminate|]. destruct (Rlt_dec _ _); [discriminate|].
  set (A := nth _ l (0, 0)). set (B := nth _ l (0, 0)). unfold odiv. destruct (Req_EM_T _ 0) as [|N]; [discriminate|]. cbn.
  intros E1 E2. injection E1 as <-. injection E2 as <-. field. exact N.
Qed.

Theorem table_same : forall mpfit1 mpfit2 fit d1 d2 o1 o2 freq I1 I2 Q U dI1 dI2 dQ dU out1 out2 k m,
  good_input d1 (o_noStokesI o1) freq I1 Q U dI1 dQ dU -> good_input d2 (o_noStokesI o2) freq I2 Q U dI2 dQ dU ->
  good_opts mpfit1 o1 (length freq) -> good_opts mpfit2 o2 (length freq) ->
  k <> 0 -> o_modStokesI o1 = Some (map (Rmult k) m) -> o_modStokesI o2 = Some m -> same_setup o1 o2 -> o_super o2 = false ->
  run_rmsynth mpfit1 fit d1 o1 = POk out1 -> run_rmsynth mpfit2 fit d2 o2 = POk out2 ->
  same_spectrum out1 out2 /\ (forall p, r_fracPol out2 = Some p -> r_fracPol out1 = Some (p / k)).
Proof.
  intros mpfit1 mpfit2 fit d1 d2 o1 o2 freq I1 I2 Q U dI1 dI2 dQ dU out1 out2 k m GI1 GI2 GO1 GO2 Nk M1 M2 SO SU R1 R2.
  assert (PR : forall j, (j < length freq)%nat -> stokes_model o1 (r_fit out1) freq j = k * stokes_model o2 (r_fit out2) freq j).
  { intros j Hj. unfold stokes_model. rewrite M1, M2. replace 0 with (k * 0) at 1 by ring. apply map_nth. }
  assert (SF : r_freq0 out1 = r_freq0 out2) by exact (proj2 (same_lam0 mpfit1 mpfit2 fit d1 d2 o1 o2 freq I1 I2 Q U dI1 dI2 dQ dU out1 out2 k GI1 GI2 GO1 GO2 R1 R2 SO Nk PR) SU).
  destruct (run_refines _ _ _ _ _ _ _ _ _ _ _ _ GI1 GO1 R1) as (_ & _ & _ & i1 & _ & _ & _ & _ & _ & _ & _ & _ & _ & _ & _ & _ & EI1 & E1 & _). rewrite M1 in E1.
  destruct (run_refines _ _ _ _ _ _ _ _ _ _ _ _ GI2 GO2 R2) as (_ & _ & _ & i2 & _ & _ & _ & _ & _ & _ & _ & _ & _ & _ & _ & _ & EI2 & E2 & _). rewrite M2 in E2.
  rewrite SF in E1. destruct (same_run _ _ _ _ _ _ _ _ _ _ _ _ _ _ _ _ _ _ k GI1 GI2 GO1 GO2 R1 R2 SO Nk PR) as (S1 & _ & S3 & _); [|split; [exact S1|exact S3]].
  intros j1 j2 X1 X2. rewrite EI1 in X1. rewrite EI2 in X2. injection X1 as <-. injection X2 as <-. exact (interp_scale k freq m _ i2 i1 E2 E1).
Qed.
