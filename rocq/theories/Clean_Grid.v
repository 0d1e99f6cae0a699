(** CLEAN on the grids that the tools build, and the prediction of the removed
    data from the components. *)
From Coq Require Import Reals List Arith ZArith Bool Lia Lra Permutation.
Set Warnings "-ambiguous-paths".
From Coquelicot Require Import Coquelicot.
From Verif Require Import PyRes CBase NdArray PyList PyList_Proofs Interp_Model Synth_Model Synth_Spec Synth_Proofs Synth_Laws
  Rmsf_Proofs Clean_Model Clean_Spec Clean_Proofs Clean_Cube Clean_Laws StokesI_Model CleanTop_Model.
Import ListNotations.
Local Open Scope R_scope.

Lemma centred_antisym : forall phi h step, centred_grid phi h step -> antisym phi.
Proof.
  intros phi h step [Hh [HL H]] k Hk. rewrite !H by lia. rewrite HL in *.
  rewrite minus_INR, minus_INR, plus_INR, mult_INR by lia. simpl. ring.
Qed.

Lemma ext_centred : forall phi h step i, centred_grid phi h step ->
  ext_index phi i = (IZR i - INR h) * step.
Proof.
  intros phi h step i [Hh [HL H]]. unfold ext_index.
  destruct (Z.ltb_spec i 0).
  - rewrite !H by lia. simpl INR. ring.
  - destruct (Z.ltb_spec i (Z.of_nat (length phi))).
    + rewrite H by lia. rewrite INR_IZR_INZ, Z2Nat.id by lia. reflexivity.
    + rewrite !H by lia. replace (length phi - 1)%nat with (S (length phi - 2)) by lia. rewrite S_INR. ring.
Qed.

(** C10 *)
Theorem rmsf_grid_fits_clean : forall phi h step,
  centred_grid phi h step ->
  exists phi2, phi2_grid true phi = Some phi2 /\
    centred_grid phi2 (length phi) step /\
    length phi2 = (length phi + 2 * (h + 1))%nat /\
    (forall k, (k < length phi)%nat -> nth (h + 1 + k) phi2 0 = nth k phi 0) /\
    nth (length phi) phi2 0 = 0 /\
    roomy (length phi) (length phi2) (length phi).
Proof.
  intros phi h step G. pose proof G as [Hh [HL H]].
  assert (E : Nat.div2 (length phi + 1) = (h + 1)%nat).
  { rewrite HL. replace (2 * h + 1 + 1)%nat with (2 * (h + 1))%nat by lia. apply Nat.div2_double. }
  eexists. split; [apply phi2_double; lia|]. cbv zeta. rewrite E.
  set (phi2 := map _ _).
  assert (L2 : length phi2 = (2 * (h + 1) + length phi)%nat) by (unfold phi2; now rewrite map_length, seq_length).
  assert (N2 : forall k, (k < length phi2)%nat -> nth k phi2 0 = (INR k - INR (length phi)) * step).
  { intros k Hk. rewrite L2 in Hk. unfold phi2. rewrite nth_map_seq by lia. rewrite (ext_centred phi h step) by auto.
    rewrite minus_IZR, <- !INR_IZR_INZ, HL. rewrite !plus_INR, mult_INR. simpl. ring. }
  repeat split.
  - lia.
  - lia.
  - exact N2.
  - lia.
  - intros k Hk. rewrite N2, H by lia. rewrite HL, !plus_INR, mult_INR. simpl. ring.
  - rewrite N2 by lia. ring.
  - exists (h + 1)%nat. lia.
  - lia.
  - lia.
Qed.

(** C15: the sample CLEAN subtracts at channel j for a component at channel i
    is the RMSF at the difference of their depths. *)
Theorem clean_shift_is_depth_difference : forall fit l2 phi h step wA msk lam0in fitRMSF r p l0 rm,
  valid_rmsf l2 wA msk -> centred_grid phi h step -> (p < mpix msk)%nat ->
  get_rmsf_planes fit l2 phi wA (Some msk) lam0in true fitRMSF = RetOk r ->
  rmsf_lam0 r = Some l0 ->
  let chs := mask_chans (length l2) (mpix msk) (flat msk) l2 (weights_of (length l2) wA) p in
  wsum chs <> 0 ->
  length rm = length (phi2Arr r) -> has_spec (mpix msk) p (flat (RMSFcube r)) rm ->
  let pad := Nat.div2 (length rm - length phi) in
  forall i j, (i < length phi)%nat -> (j < length phi)%nat ->
    length (shifted rm (length phi) pad i) = length phi /\
    nth j (shifted rm (length phi) pad i) czero = RMSF_spec chs l0 (nth j phi 0 - nth i phi 0) /\
    zsample rm (Z.of_nat (length phi) + Z.of_nat j - Z.of_nat i) = RMSF_spec chs l0 (nth j phi 0 - nth i phi 0).
Proof.
  intros fit l2 phi h step wA msk lam0in fitRMSF r p l0 rm V G Hp Er HL chs HW Lrm HS pad i j Hi Hj.
  pose proof G as [Hh1 [Hn1 _]].
  destruct (rmsf_grid_fits_clean phi h step G) as [phi2 [E2 [G2 [L2 [_ [_ RO]]]]]].
  destruct (rmsf_refines fit l2 phi wA msk lam0in true fitRMSF phi2 V E2) as [r' [Er' [Ep F]]].
  rewrite Er in Er'. injection Er' as <-. rewrite Ep in Lrm.
  assert (Z : forall k, (k < length phi2)%nat -> nth k rm czero = RMSF_spec chs l0 (nth k phi2 0)).
  { intros k Hk. specialize (F k p l0 Hk Hp HL HW (or_introl (centred_antisym _ _ _ G))).
    unfold at2 in F. rewrite HS in F by lia. now injection F. }
  assert (R : zsample rm (Z.of_nat (length phi) + Z.of_nat j - Z.of_nat i) = RMSF_spec chs l0 (nth j phi 0 - nth i phi 0)).
  { unfold zsample. destruct (Z.ltb_spec (Z.of_nat (length phi) + Z.of_nat j - Z.of_nat i) 0); [lia|].
    rewrite Z by lia. f_equal. destruct G2 as [_ [_ G2]]. rewrite G2 by lia.
    destruct G as [_ [_ G]]. rewrite !G by auto.
    rewrite INR_IZR_INZ, Z2Nat.id by lia. rewrite minus_IZR, plus_IZR, <- !INR_IZR_INZ. ring. }
  rewrite <- Lrm in RO.
  destruct (shifted_spec rm (length phi) (length phi) i pad RO eq_refl Hi) as [S1 S2].
  split; [exact S1|]. split; [|exact R]. rewrite S2 by auto. exact R.
Qed.

(* ---------------------------------------------------------------- C17 *)

Lemma Rpower_0 : forall x, Rpower x 0 = 1.
Proof. intros. unfold Rpower. rewrite Rmult_0_l. apply exp_0. Qed.

Lemma combine_map_self : forall {A B D} (f : A -> B) (g : A -> D) l,
  combine (map f l) (map g l) = map (fun x => (f x, g x)) l.
Proof. induction l; simpl; auto. now rewrite IHl. Qed.

(** the default Stokes I model is one *)
Lemma QU_model_default : forall freq phi CC l0,
  calculate_QU_model freq phi CC l0 None =
  POk (map (fun f => csum (map (fun pc => (snd pc * cis (2 * (fst pc * ((c_light / f) ^ 2 - l0))))%C) (combine phi CC))) freq,
       map (fun _ => 1) freq).
Proof.
  intros. unfold calculate_QU_model, calculate_StokesI_model, pad6, pybind.
  cbn [params fit_function ref_freq length Nat.ltb Nat.leb Nat.sub repeat app].
  f_equal. f_equal.
  - rewrite map_map, combine_map_self, map_map. apply map_ext. intros f. simpl fst. simpl snd.
    unfold powerlaw_poly5. simpl.
    match goal with |- (RtoC (1 * Rpower _ ?y) * _)%C = _ => replace y with 0 by ring end.
    rewrite Rpower_0, Rmult_1_r. apply Cmult_1_l.
  - apply map_ext. intros f. unfold powerlaw_poly5. simpl.
    match goal with |- 1 * Rpower _ ?y = _ => replace y with 0 by ring end. rewrite Rpower_0. ring.
Qed.

Lemma csum_combine_nth : forall (phi : list R) (cs : list C) (g : R -> C -> C), length cs = length phi ->
  csum (map (fun pc => g (fst pc) (snd pc)) (combine phi cs)) =
  csum (map (fun i => g (nth i phi 0) (nth i cs czero)) (seq 0 (length cs))).
Proof.
  intros phi cs g HL. f_equal. apply nth_ext with (d := czero) (d' := czero).
  - rewrite !map_length, combine_length, seq_length. lia.
  - intros k Hk. rewrite map_length, combine_length in Hk.
    rewrite (nth_map_combine _ _ _ _ _ 0 czero) by lia. rewrite nth_map_seq by lia. reflexivity.
Qed.

Lemma nth_map_lt : forall {A B} (f : A -> B) l k d d', (k < length l)%nat -> nth k (map f l) d = f (nth k l d').
Proof.
  intros. rewrite nth_indep with (d' := f d') by (rewrite map_length; lia). apply map_nth.
Qed.

(** synthesis of the prediction, at the level of the specification *)
Lemma FDF_of_prediction : forall (N : nat) flags l2 w phi cs (Q U : list (option R)) l0 f,
  length cs = length phi ->
  (forall j, (j < N)%nat -> nth j flags false = true -> nth (j * 1 + 0) Q None = None \/ nth (j * 1 + 0) U None = None) ->
  (forall j, (j < N)%nat -> nth j flags false = false ->
     exists q u, nth (j * 1 + 0) Q None = Some q /\ nth (j * 1 + 0) U None = Some u /\
       (q, u) = csum (map (fun pc => (snd pc * cis (2 * (fst pc * (nth j l2 0 - l0))))%C) (combine phi cs))) ->
  wsum (pixel_chans N 1 Q U l2 w 0) = wsum (mask_chans N 1 flags l2 w 0) /\
  FDF_spec (pixel_chans N 1 Q U l2 w 0) l0 f =
  csum (map (fun i => (nth i cs czero * RMSF_spec (mask_chans N 1 flags l2 w 0) l0 (f - nth i phi 0))%C) (seq 0 (length cs))).
Proof.
  intros N flags l2 w phi cs Q U l0 f HL HF HG.
  assert (W : wsum (pixel_chans N 1 Q U l2 w 0) = wsum (mask_chans N 1 flags l2 w 0)).
  { unfold wsum, pixel_chans, mask_chans. rewrite !rsum_flat_map. apply rsum_map_ext. intros j Hj. apply in_seq in Hj.
    replace (j * 1 + 0)%nat with j in * by lia.
    destruct (nth j flags false) eqn:E.
    - destruct (HF j ltac:(lia) E) as [E'|E']; replace (j * 1 + 0)%nat with j in E' by lia; rewrite E'; auto.
      destruct (nth j Q None); auto.
    - destruct (HG j ltac:(lia) E) as (q & u & E1 & E2 & _); replace (j * 1 + 0)%nat with j in * by lia; rewrite E1, E2; auto. }
  split; [exact W|].
  unfold FDF_spec, RMSF_spec. rewrite W. set (K := RtoC (wsum _)).
  rewrite (csum_map_ext (fun i => (nth i cs czero * (_ / K))%C)
    (fun i => (/ K * (nth i cs czero * csum (map (fun c => (RtoC (c_w c) * cis (-2 * (f - nth i phi 0) * (c_l2 c - l0)))%C)
        (mask_chans N 1 flags l2 w 0))))%C)) by (intros; unfold Cdiv; ring).
  rewrite csum_map_scal. unfold Cdiv. rewrite Cmult_comm. f_equal.
  rewrite (csum_map_ext (fun i => (nth i cs czero * csum _)%C)
    (fun i => csum (map (fun c => (nth i cs czero * (RtoC (c_w c) * cis (-2 * (f - nth i phi 0) * (c_l2 c - l0))))%C)
        (mask_chans N 1 flags l2 w 0)))) by (intros; now rewrite csum_map_scal).
  rewrite csum_swap.
  unfold pixel_chans, mask_chans. rewrite !csum_flat_map. apply csum_map_ext. intros j Hj. apply in_seq in Hj.
  replace (j * 1 + 0)%nat with j in * by lia.
  destruct (nth j flags false) eqn:E.
  - assert (H0 : csum (map (fun c => (RtoC (c_w c) * c_P c * cis (-2 * f * (c_l2 c - l0)))%C)
       match nth j Q None with Some q => match nth j U None with Some u => [mk_chan (nth j l2 0) (nth j w 0) (q, u)] | None => [] end | None => [] end) = RtoC 0).
    { destruct (HF j ltac:(lia) E) as [E'|E']; replace (j * 1 + 0)%nat with j in E' by lia; rewrite E'; auto.
      destruct (nth j Q None); auto. }
    exact H0.
  - destruct (HG j ltac:(lia) E) as (q & u & E1 & E2 & E3). replace (j * 1 + 0)%nat with j in * by lia. rewrite E1, E2.
    simpl. rewrite !csum_cons, !csum_nil. rewrite E3.
    rewrite (csum_combine_nth phi cs (fun a b => (b * cis (2 * (a * (nth j l2 0 - l0))))%C)) by auto.
    rewrite !Cplus_0_r. rewrite <- Cmult_assoc, (Cmult_comm (csum _)), Cmult_assoc, <- csum_map_scal.
    apply csum_map_ext. intros i Hi.
    replace (-2 * (f - nth i phi 0) * (nth j l2 0 - l0)) with
      (2 * (nth i phi 0 * (nth j l2 0 - l0)) + -2 * f * (nth j l2 0 - l0)) by ring.
    rewrite cis_plus. ring.
Qed.

Lemma nth_flagged : forall flags v j, length flags = length v -> (j < length v)%nat ->
  nth j (flagged_data flags v) None = if nth j flags false then None else Some (nth j v 0).
Proof.
  intros. unfold flagged_data. rewrite (nth_map_combine _ _ _ _ _ false 0) by lia. reflexivity.
Qed.

Theorem clean_components_predict : forall fit freq phi h step wA flags l0 fitRMSF r rm d fw cutoff maxIter gain window q,
  centred_grid phi h step -> freq <> [] -> length flags = length freq ->
  match wA : option (list (option R)) with None => True | Some w => length w = length freq end ->
  let l2 := map (fun f => (c_light / f) ^ 2) freq in
  let msk := mk_nd [length freq] flags in
  wsum (mask_chans (length l2) 1 flags l2 (weights_of (length l2) wA) 0) <> 0 ->
  get_rmsf_planes fit l2 phi wA (Some msk) (Some l0) true fitRMSF = RetOk r ->
  length rm = length (phi2Arr r) -> has_spec 1 0 (flat (RMSFcube r)) rm -> peak_at rm (length phi) ->
  fw <> 0 -> 0 < cutoff -> length d = length phi ->
  do_rmclean_hogbom (mk_nd [length phi] (map Some d)) phi (mk_nd [length rm] (map Some rm)) (phi2Arr r) [Some fw]
     cutoff maxIter gain None None window = CRetOk q ->
  exists res comp QU Imod s,
    has_spec 1 0 (flat (residFDF q)) res /\ length res = length phi /\
    has_spec 1 0 (flat (ccArr q)) comp /\ length comp = length phi /\
    calculate_QU_model freq phi comp l0 None = POk (QU, Imod) /\
    do_rmsynth_planes (mk_nd [length freq] (flagged_data flags (map fst QU)))
                      (mk_nd [length freq] (flagged_data flags (map snd QU))) l2 phi wA (Some l0) = Some s /\
    forall k, (k < length phi)%nat ->
      blank0 (nth k (flat (FDFcube s)) None) = (nth k d czero - nth k res czero)%C.
Proof.
  intros fit freq phi h step wA flags l0 fitRMSF r rm d fw cutoff maxIter gain window q
    G NE LF LW l2 msk HW Er Lrm HS HP Hfw Hc Ld Eq.
  assert (Ll2 : length l2 = length freq) by (unfold l2; apply map_length).
  assert (V : valid_rmsf l2 wA msk).
  { repeat split; simpl; try lia.
    - unfold l2. destruct freq; [congruence|discriminate].
    - destruct wA; lia. }
  assert (M1 : mpix msk = 1%nat) by reflexivity.
  destruct (rmsf_grid_fits_clean phi h step G) as [phi2 [E2 [_ [L2 [_ [_ RO]]]]]].
  destruct (rmsf_refines fit l2 phi wA msk (Some l0) true fitRMSF phi2 V E2) as [r' [Er' [Ep _]]].
  rewrite Er in Er'. injection Er' as <-.
  assert (HL0 : rmsf_lam0 r = Some l0) by (rewrite (rmsf_lam0_ret _ _ _ _ _ _ _ _ _ Er); reflexivity).
  assert (HSm : forall l : list C, has_spec 1 0 (map Some l) l).
  { intros l k Hk. rewrite nth_indep with (d' := Some czero) by (rewrite map_length; lia).
    replace (k * 1 + 0)%nat with k by lia. now rewrite map_nth. }
  destruct (rmclean_conserves_restores _ _ _ _ _ _ _ _ _ _ _ _ 0 d rm fw (length phi) Eq Hc I ltac:(simpl; lia) Ld Lrm
    (HSm d) (HSm rm) eq_refl Hfw HP) as (res & comp & clean & Lr & Lc & _ & S1 & S2 & _ & HH).
  { rewrite Ep. exact RO. }
  exists res, comp. rewrite QU_model_default.
  remember (fun f : R => csum (map (fun pc => (snd pc * cis (2 * (fst pc * ((c_light / f) ^ 2 - l0))))%C) (combine phi comp))) as qf eqn:Eqf.
  set (QU := map qf freq).
  assert (LQ : length QU = length freq) by (unfold QU; apply map_length).
  assert (LQ1 : length (map fst QU) = length freq) by (rewrite map_length; exact LQ).
  assert (LQ2 : length (map snd QU) = length freq) by (rewrite map_length; exact LQ).
  exists QU. eexists.
  assert (VS : valid_synth (mk_nd [length freq] (flagged_data flags (map fst QU)))
                           (mk_nd [length freq] (flagged_data flags (map snd QU))) l2 wA).
  { repeat split; simpl; try lia. destruct wA; lia. }
  destruct (synth_refines _ _ l2 phi wA (Some l0) VS (centred_antisym _ _ _ G)) as [s [Es [Hl F]]].
  exists s. split; [exact S1|]. split; [exact Lr|]. split; [exact S2|]. split; [exact Lc|]. split; [reflexivity|].
  split; [exact Es|]. intros k Hk. simpl in Hl.
  specialize (F k 0%nat Hk). unfold npix in F. cbn [flat shape tl] in F. change (prodn []) with 1%nat in F.
  specialize (F ltac:(lia)). cbv zeta in F.
  destruct (FDF_of_prediction (length l2) flags l2 (weights_of (length l2) wA) phi comp
     (flagged_data flags (map fst QU)) (flagged_data flags (map snd QU)) l0 (nth k phi 0) Lc) as [WE FE].
  { intros j Hj Hfl. left. replace (j * 1 + 0)%nat with j by lia. rewrite nth_flagged by (rewrite ?LQ1, ?LQ2; lia).
    rewrite Hfl. reflexivity. }
  { intros j Hj Hfl. replace (j * 1 + 0)%nat with j by lia. rewrite !nth_flagged by (rewrite ?LQ1, ?LQ2; lia).
    rewrite Hfl. do 2 eexists. split; [reflexivity|]. split; [reflexivity|].
    change 0 with (fst czero) at 1. rewrite map_nth. change 0 with (snd czero) at 1. rewrite map_nth.
    rewrite <- surjective_pairing.
    assert (X1 : nth j QU czero = qf (nth j freq 0)) by (apply nth_map_lt; lia).
    assert (X2 : nth j l2 0 = (c_light / nth j freq 0) ^ 2) by (apply (nth_map_lt (fun f => (c_light / f) ^ 2)); lia).
    refine (eq_trans X1 _). rewrite X2, Eqf. reflexivity. }
  rewrite Hl in F. destruct F as [_ F]. rewrite WE in F. destruct (F HW) as [F1 F2].
  destruct (HH k Hk) as [HD _]. rewrite HD.
  replace (nth k res czero + response rm (length phi) comp k - nth k res czero)%C with (response rm (length phi) comp k) by ring.
  assert (RE : response rm (length phi) comp k = FDF_spec
     (pixel_chans (length l2) 1 (flagged_data flags (map fst QU)) (flagged_data flags (map snd QU)) l2 (weights_of (length l2) wA) 0)
     l0 (nth k phi 0)).
  { rewrite FE. unfold response. apply csum_map_ext. intros i Hi. apply in_seq in Hi. f_equal.
    apply (clean_shift_is_depth_difference fit l2 phi h step wA msk (Some l0) fitRMSF r 0 l0 rm V G ltac:(simpl; auto) Er HL0 HW Lrm HS i k); lia. }
  rewrite RE.
  assert (A2 : at2 1 None (flat (FDFcube s)) k 0 = nth k (flat (FDFcube s)) None) by (unfold at2; f_equal; lia).
  rewrite A2 in F1, F2.
  destruct (nth k (flat (FDFcube s)) None) as [z|] eqn:Ez; simpl.
  - now apply F2.
  - symmetry. apply F1; auto. apply nth_In. auto.
Qed.

(* ---------------------------------------------------------------- C41 *)
Theorem rmclean_sigma_levels : forall dirty RMSF phi phi2 fw noise k w maxIter gain,
  0 <= noise -> 0 < k -> 0 < w ->
  run_rmclean_1d dirty RMSF phi phi2 fw noise (- k) maxIter gain None =
    run_rmclean_1d dirty RMSF phi phi2 fw noise (k * noise) maxIter gain None /\
  run_rmclean_1d dirty RMSF phi phi2 fw noise (- k) maxIter gain (Some (- w)) =
    run_rmclean_1d dirty RMSF phi phi2 fw noise (k * noise) maxIter gain (Some (w * noise)).
Proof.
  intros. unfold run_rmclean_1d, window_level.
  assert (L : forall x, 0 < x -> level noise (- x) = level noise (x * noise)).
  { intros x Hx. unfold level. assert (0 <= x * noise) by (apply Rmult_le_pos; lra).
    destruct (Rlt_dec (- x) 0); [|lra]. destruct (Rlt_dec (x * noise) 0); [lra|]. ring. }
  rewrite !L by auto. auto.
Qed.

Theorem rmclean_absolute_levels : forall dirty RMSF phi phi2 fw noise c w maxIter gain,
  0 <= c -> 0 <= w ->
  run_rmclean_1d dirty RMSF phi phi2 fw noise c maxIter gain (Some w) =
  do_rmclean_hogbom (mk_nd [length dirty] dirty) phi (mk_nd [length RMSF] RMSF) phi2 [fw] c maxIter gain None None (Some w).
Proof.
  intros. unfold run_rmclean_1d, window_level, level. destruct (Rlt_dec c 0), (Rlt_dec w 0); try lra. reflexivity.
Qed.
