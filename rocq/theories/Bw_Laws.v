(** Laws of adjoint RM-synthesis at the level of its functions. *)
From Coq Require Import Reals List Arith ZArith Bool Lra Lia.
Set Warnings "-ambiguous-paths".
From Coquelicot Require Import Coquelicot.
From Verif Require Import CBase NdArray PyRes PyList PyList_Proofs Interp_Model Synth_Model Synth_Spec Synth_Proofs Synth_Laws CleanTop_Model Setup_Model Setup_Proofs
  StokesI_Model Measure_Model Measure_Laws Rmsf_Proofs Clean_Grid Bw_Model Bw_Spec Bw_Rot Bw_Proofs.
Import ListNotations.
Local Open Scope R_scope.

Lemma valid_1d : forall Q U freq wA, length Q = length freq -> length U = length freq ->
  match wA with None => True | Some w => length w = length freq end -> valid_synth (spec1 Q) (spec1 U) freq wA.
Proof.
  intros Q U freq wA A B D. unfold valid_synth, spec1. cbn [shape length nth]. rewrite A, B. repeat split; auto.
Qed.

(** one spectrum *)
Theorem adjoint_spectrum : forall freq Q U phi w wA lam0in b,
  length Q = length freq -> length U = length freq -> match wA with None => True | Some w => length w = length freq end ->
  width_used w freq b -> (forall f, In f freq -> channel_ok b f) ->
  exists r, do_adjoint_rmsynth_planes freq (spec1 Q) (spec1 U) phi w wA lam0in = POk (Some r) /\
    forall d, length d = length freq ->
    let chs := spectrum_chans freq Q U wA d in bwsum chs <> 0 ->
    let l0 := match lam0in with Some l => l | None => mean_lam2 chs end in
    adj_lam0 r = Some l0 /\
    flat (adj_FDF r) = map (fun f => Some (adj_spec b chs l0 f)) phi /\
    adjoint_theory (adj_vars r) (map Some d) = (map (fun f => Some (sens_spec b chs f)) phi, map (fun f => Some (noise_spec b chs f)) phi).
Proof.
  intros freq Q U phi w wA lam0in b LQ LU LW Hw Hok.
  pose proof (valid_1d Q U freq wA LQ LU LW) as V.
  destruct (adjoint_refines freq (spec1 Q) (spec1 U) phi w wA lam0in b V Hw Hok) as (r & Er & H).
  exists r. split; [exact Er|]. intros d Ld chs NZ l0. specialize (H d Ld). cbv zeta in H. change (npix (spec1 Q)) with 1%nat in H. cbn [spec1 flat] in H.
  destruct (live_pixel_1 (length freq) Q U freq (weights_of (length freq) wA) d b) as (S1 & S2 & S3 & S4). fold (spectrum_chans freq Q U wA d) in S1, S2, S3, S4. fold chs in S1, S2, S3, S4.
  rewrite S1 in H. destruct H as (H1 & H2 & H3). rewrite S4 in H1.
  assert (L0 : adj_lam0 r = Some l0). { rewrite H1. unfold l0. destruct lam0in; [reflexivity|]. destruct (Req_EM_T (bwsum chs) 0); [contradiction|reflexivity]. }
  split; [exact L0|]. split.
  - assert (LF : length (flat (adj_FDF r)) = length phi).
    { clear -Er LQ LU LW Hw V. destruct V as (V1 & V2 & V3 & V4). unfold do_adjoint_rmsynth_planes in Er. 
      assert (LS : length (lambda_sq freq) = length freq) by (unfold lambda_sq; now rewrite map_length). rewrite LS in Er. cbv zeta in Er.
      rewrite prep_len in Er by auto. rewrite Nat.eqb_refl in Er. cbn [negb] in Er.
      destruct (list_eq_dec Nat.eq_dec (shape (spec1 Q)) (shape (spec1 U))) as [_|]; [|contradiction]. cbn [negb] in Er.
      replace (Nat.leb (length (shape (spec1 Q))) 3) with true in Er by reflexivity. cbn [negb] in Er.
      rewrite V3, Nat.eqb_refl in Er. cbn [negb] in Er. rewrite (channel_widths_eq w freq b Hw) in Er. cbn [pybind] in Er. injection Er as <-.
      cbn [adj_FDF squeeze flat]. rewrite length_tab2. change (prodn (tl (shape (spec1 Q)))) with 1%nat. lia. }
    apply nth_ext with (d := None) (d' := None); [rewrite map_length; exact LF|]. intros k Hk. rewrite LF in Hk. 
    specialize (H2 k 0%nat Hk (le_n 1)). unfold at2 in H2. replace (k * 1 + 0)%nat with k in H2 by lia. rewrite H2, L0. cbn [option_map].
    fold (spectrum_chans freq Q U wA d). fold chs. destruct (Req_EM_T (bwsum chs) 0); [contradiction|]. rewrite (nth_map_lt _ _ _ _ 0) by auto. reflexivity.
  - rewrite (H3 NZ). f_equal; apply map_ext; intros f; [rewrite S2|rewrite S3]; reflexivity.
Qed.

Lemma spectrum_In : forall freq Q U wA d c, In c (spectrum_chans freq Q U wA d) ->
  exists j q u, (j < length freq)%nat /\ nth j Q None = Some q /\ nth j U None = Some u /\ b_nu c = nth j freq 0 /\ b_w c = nth j (weights_of (length freq) wA) 0 /\
    b_d c = nth j d 0 /\ b_P c = (q, u).
Proof.
  intros freq Q U wA d c I. apply pixel_bchans_In in I. destruct I as (j & q & u & Hj & E1 & E2 & ->). exists j, q, u. repeat split; auto.
Qed.

(** a source at a sampled depth *)
Theorem bw_thin_source : forall freq Q U phi w wA lam0in b d amp psi RM,
  length Q = length freq -> length U = length freq -> match wA with None => True | Some w => length w = length freq end ->
  width_used w freq b -> (forall f, In f freq -> channel_ok b f) -> length d = length freq ->
  bwsum (spectrum_chans freq Q U wA d) <> 0 -> bw_source b Q U freq amp psi RM ->
  exists r l0 sens noise, do_adjoint_rmsynth_planes freq (spec1 Q) (spec1 U) phi w wA lam0in = POk (Some r) /\
    adj_lam0 r = Some l0 /\ adjoint_theory (adj_vars r) (map Some d) = (sens, noise) /\
    forall k, (k < length phi)%nat -> nth k phi 0 = RM ->
    exists s z, nth k sens None = Some s /\ nth k (flat (adj_FDF r)) None = Some z /\
      z = (RtoC amp * cis (2 * (psi + RM * l0)) * RtoC s)%C /\
      (s <> 0 -> 0 <= amp -> 0 <= s -> Cmod z / s = amp).
Proof.
  intros freq Q U phi w wA lam0in b d amp psi RM LQ LU LW Hw Hok Ld NZ Src.
  destruct (adjoint_spectrum freq Q U phi w wA lam0in b LQ LU LW Hw Hok) as (r & Er & H). destruct (H d Ld NZ) as (L0 & EF & ET).
  set (chs := spectrum_chans freq Q U wA d) in *. set (l0 := match lam0in with Some l => l | None => mean_lam2 chs end) in *.
  exists r, l0. eexists. eexists. split; [exact Er|]. split; [exact L0|]. split; [exact ET|]. intros k Hk Ek. 
  assert (T : forall c, In c chs -> b_P c = thin_chan b amp psi RM (b_nu c)).
  { intros c I. apply spectrum_In in I. destruct I as (j & q & u & Hj & E1 & E2 & E3 & E4 & E5 & E6). rewrite E6, E3. apply (Src j); auto. }
  destruct (adj_thin b chs l0 amp psi RM T) as [E|E]; [|contradiction].
  exists (sens_spec b chs RM), (adj_spec b chs l0 RM). rewrite EF. rewrite !(nth_map_lt _ _ _ _ 0) by auto. rewrite Ek. split; [reflexivity|]. split; [reflexivity|]. split; [exact E|].
  intros S0 Ha Hs. rewrite E, !Cmod_mult, Cmod_cis, !Cmod_R, !Rabs_pos_eq by auto. field. auto.
Qed.

(** sensitivity and noise at every depth *)
Theorem bw_theory_bounds : forall freq Q U phi w wA lam0in b d,
  length Q = length freq -> length U = length freq -> match wA with None => True | Some w => length w = length freq end ->
  width_used w freq b -> (forall f, In f freq -> channel_ok b f) -> length d = length freq -> nonneg_w wA ->
  bwsum (spectrum_chans freq Q U wA d) <> 0 ->
  exists r sens noise n0, do_adjoint_rmsynth_planes freq (spec1 Q) (spec1 U) phi w wA lam0in = POk (Some r) /\
    adjoint_theory (adj_vars r) (map Some d) = (sens, noise) /\ length sens = length phi /\ length noise = length phi /\
    forall k, (k < length phi)%nat -> exists s n, nth k sens None = Some s /\ nth k noise None = Some n /\
      0 <= s <= 1 /\ 0 <= n <= n0 /\ (nth k phi 0 = 0 -> s = 1 /\ n = n0).
Proof.
  intros freq Q U phi w wA lam0in b d LQ LU LW Hw Hok Ld Nn NZ.
  destruct (adjoint_spectrum freq Q U phi w wA lam0in b LQ LU LW Hw Hok) as (r & Er & H). destruct (H d Ld NZ) as (L0 & EF & ET).
  set (chs := spectrum_chans freq Q U wA d) in *.
  assert (Ok : chans_ok b chs).
  { intros c I. apply spectrum_In in I. destruct I as (j & q & u & Hj & E1 & E2 & E3 & E4 & E5 & E6). rewrite E3, E4. split; [apply Hok, nth_In; auto|]. apply (prep_nonneg (length freq) wA j Nn). }
  assert (W : 0 < bwsum chs).
  { assert (0 <= bwsum chs); [|lra]. unfold bwsum. apply rsum_nonneg. intros x I. apply in_map_iff in I. destruct I as (c & <- & I). apply Ok, I. }
  exists r. eexists. eexists. exists (noise_spec b chs 0). split; [exact Er|]. split; [exact ET|]. rewrite !map_length. split; [auto|]. split; [auto|].
  intros k Hk. exists (sens_spec b chs (nth k phi 0)), (noise_spec b chs (nth k phi 0)). rewrite !(nth_map_lt _ _ _ _ 0) by auto. split; [reflexivity|]. split; [reflexivity|].
  split; [apply sens_range; auto|]. split; [apply noise_le_zero; auto; intros c I; apply Ok, I|]. intros ->. split; [apply sens_zero; auto; intros c I; apply Ok, I|reflexivity].
Qed.

(** ** Where the signal-to-noise spectrum peaks *)

Lemma nth_combine2 : forall {A B} (l : list A) (m : list B) k a b, (k < length l)%nat -> (k < length m)%nat -> nth k (combine l m) (a, b) = (nth k l a, nth k m b).
Proof.
  intros A B l. induction l as [|x l IH]; intros [|y m] k a b H1 H2; cbn in *; try lia. destruct k; auto. apply IH; lia.
Qed.

Lemma nth_sn : forall F N k, length F = length N -> (k < length F)%nat -> nth k (sn_spectrum F N) None = odiv (option_map Cmod (nth k F None)) (nth k N None).
Proof.
  intros F N k L H. unfold sn_spectrum. rewrite (nth_map_lt _ _ _ _ (None, None)) by (rewrite combine_length; lia).
  rewrite nth_combine2 by lia. reflexivity.
Qed.

Lemma variance_chans : forall freq Q U d, length d = length freq -> (forall x, In x d -> x <> 0) ->
  variance_w (spectrum_chans freq Q U (Some (inverse_variance d)) d).
Proof.
  intros freq Q U d L H c I. apply spectrum_In in I. destruct I as (j & q & u & Hj & E1 & E2 & E3 & E4 & E5 & E6). rewrite E4, E5.
  split; [apply H, nth_In; lia|]. unfold weights_of, inverse_variance. rewrite map_map. rewrite (nth_map_lt _ _ _ _ 0) by lia. reflexivity.
Qed.

Lemma variance_pos : forall chs, variance_w chs -> bwsum chs <> 0 -> 0 < bwsum chs.
Proof.
  intros chs V N. assert (0 <= bwsum chs); [|lra]. unfold bwsum. apply rsum_nonneg. intros x I. apply in_map_iff in I. destruct I as (c & <- & I).
  destruct (V c I) as [D ->]. apply Rdiv_le_0_compat; [lra|]. apply pow2_gt_0; auto.
Qed.

Lemma noise_sens_pos : forall b chs phi, variance_w chs -> 0 < bwsum chs -> 0 < sens_spec b chs phi -> 0 < noise_spec b chs phi.
Proof.
  intros b chs phi V W S. rewrite noise_variance by auto. unfold sens_spec in S. apply Rdiv_lt_0_compat; auto. apply sqrt_lt_R0.
  apply Rmult_lt_reg_r with (/ bwsum chs); [now apply Rinv_0_lt_compat|]. rewrite Rmult_0_l. exact S.
Qed.

(** With inverse-variance weights the source's own depth has the largest
    signal-to-noise ratio of all depths. *)
Theorem bw_sn_peak : forall freq Q U phi w lam0in b d amp psi RM k,
  length Q = length freq -> length U = length freq -> width_used w freq b -> (forall f, In f freq -> channel_ok b f) ->
  length d = length freq -> (forall x, In x d -> x <> 0) -> 0 <= amp -> bw_source b Q U freq amp psi RM ->
  (k < length phi)%nat -> nth k phi 0 = RM ->
  exists r, do_adjoint_rmsynth_planes freq (spec1 Q) (spec1 U) phi w (Some (inverse_variance d)) lam0in = POk (Some r) /\
    (bwsum (spectrum_chans freq Q U (Some (inverse_variance d)) d) <> 0 ->
    forall sens noise s, adjoint_theory (adj_vars r) (map Some d) = (sens, noise) -> nth k sens None = Some s -> 0 < s ->
    exists v, nth k (sn_spectrum (flat (adj_FDF r)) noise) None = Some v /\
      (forall j x, nth j (sn_spectrum (flat (adj_FDF r)) noise) None = Some x -> x <= v) /\
      ((0 < k < length phi - 1)%nat -> exists i, peak_channel (flat (adj_FDF r)) noise = POk i /\ (0 < i < length phi - 1)%nat /\
          nth i (sn_spectrum (flat (adj_FDF r)) noise) None = Some v)).
Proof.
  intros freq Q U phi w lam0in b d amp psi RM k LQ LU Hw Hok Ld Hd Ha Src Hk Ek.
  destruct (adjoint_spectrum freq Q U phi w (Some (inverse_variance d)) lam0in b LQ LU) as (r & Er & H); auto.
  { unfold inverse_variance. now rewrite map_length. }
  exists r. split; [exact Er|]. intros NZ sens noise s ET Es Sp. destruct (H d Ld NZ) as (L0 & EF & ET'). rewrite ET in ET'. injection ET' as E1 E2.
  set (chs := spectrum_chans freq Q U (Some (inverse_variance d)) d) in *. set (l0 := match lam0in with Some l => l | None => mean_lam2 chs end) in *.
  pose proof (variance_chans freq Q U d Ld Hd) as V. fold chs in V. pose proof (variance_pos chs V NZ) as W.
  assert (T : forall c, In c chs -> b_P c = thin_chan b amp psi RM (b_nu c)).
  { intros c I. apply spectrum_In in I. destruct I as (j & q & u & Hj & E3 & E4 & E5 & E6 & E7 & E8). rewrite E8, E5. apply (Src j); auto. }
  rewrite E1, (nth_map_lt _ _ _ _ 0), Ek in Es by auto. injection Es as Es. rewrite <- Es in Sp. pose proof (noise_sens_pos b chs RM V W Sp) as NP.
  assert (LF : length (flat (adj_FDF r)) = length phi) by (rewrite EF; apply map_length). assert (LN : length noise = length phi) by (rewrite E2; apply map_length).
  assert (SN : forall j, (j < length phi)%nat -> nth j (sn_spectrum (flat (adj_FDF r)) noise) None = odiv (Some (Cmod (adj_spec b chs l0 (nth j phi 0)))) (Some (noise_spec b chs (nth j phi 0)))).
  { intros j Hj. rewrite nth_sn by lia. rewrite EF, E2, !(nth_map_lt _ _ _ _ 0) by auto. reflexivity. }
  assert (LS : length (sn_spectrum (flat (adj_FDF r)) noise) = length phi) by (unfold sn_spectrum; rewrite map_length, combine_length; lia).
  set (v := Cmod (adj_spec b chs l0 RM) / noise_spec b chs RM).
  assert (Ev : nth k (sn_spectrum (flat (adj_FDF r)) noise) None = Some v).
  { rewrite SN, Ek by auto. cbn. destruct (Req_EM_T _ 0); [lra|reflexivity]. }
  assert (M : forall j x, nth j (sn_spectrum (flat (adj_FDF r)) noise) None = Some x -> x <= v).
  { intros j x Hx. assert (j < length phi)%nat as Hj. { destruct (le_lt_dec (length phi) j); auto. rewrite nth_overflow in Hx by lia. discriminate. }
    rewrite SN in Hx by auto. cbn in Hx. destruct (Req_EM_T _ 0) as [|NN]; [discriminate|]. injection Hx as <-. pose proof (sn_peak b chs l0 amp psi RM (nth j phi 0) V W Ha T) as P.
    assert (0 < noise_spec b chs (nth j phi 0)) as NJ. { assert (0 <= noise_spec b chs (nth j phi 0)); [|lra]. unfold noise_spec. apply Rdiv_le_0_compat; [apply sqrt_pos|apply Rabs_pos_lt; auto]. }
    unfold v. apply Rmult_le_reg_r with (noise_spec b chs (nth j phi 0)); auto. apply Rmult_le_reg_r with (noise_spec b chs RM); auto.
    replace (Cmod (adj_spec b chs l0 (nth j phi 0)) / noise_spec b chs (nth j phi 0) * noise_spec b chs (nth j phi 0) * noise_spec b chs RM) with (Cmod (adj_spec b chs l0 (nth j phi 0)) * noise_spec b chs RM) by (field; auto).
    replace (Cmod (adj_spec b chs l0 RM) / noise_spec b chs RM * noise_spec b chs (nth j phi 0) * noise_spec b chs RM) with (Cmod (adj_spec b chs l0 RM) * noise_spec b chs (nth j phi 0)) by (field; lra). exact P. }
  exists v. split; [exact Ev|]. split; [exact M|]. intros [K0 K1].
  set (sn := sn_spectrum (flat (adj_FDF r)) noise) in *. destruct (inner_slice sn None) as [L1 L2]; [lia|].
  assert (Ek' : nth (k - 1) (py_slice sn 1 (-1)) None = Some v). { rewrite L2 by lia. replace (S (k - 1)) with k by lia. exact Ev. }
  destruct (nanargmax_some _ _ _ Ek') as [i Ei]. exists (S i). destruct (nanargmax_spec _ _ Ei) as (Hi & x & Ex & Mx & _).
  split; [unfold peak_channel; fold sn; now rewrite Ei|]. rewrite L1, LS in Hi. split; [lia|]. rewrite L2 in Ex by lia. rewrite Ex. f_equal. apply Rle_antisym; [apply (M _ _ Ex)|apply (Mx _ _ Ek')].
Qed.

(** ** Spread function *)

Lemma all_live : forall (P : list C) j, (j < length P)%nat -> nth j (map Some (map fst P)) None = Some (fst (nth j P (RtoC 0))) /\ nth j (map Some (map snd P)) None = Some (snd (nth j P (RtoC 0))).
Proof.
  intros P j H. rewrite !map_map. rewrite !(nth_map_lt _ _ _ _ (RtoC 0)) by auto. auto.
Qed.

Lemma chan_pol_eq : forall b f RM p, b <> 0 -> analytical_chan_pol f b RM p = (RtoC p * rotation_operator b f RM)%C.
Proof.
  intros b f RM p H. unfold analytical_chan_pol, rotation_operator. rewrite !(Rmult_comm (1 / 2)).
  replace (b * (1 / 2)) with (b / 2) by field. rewrite RtoC_div by auto. assert (RtoC b <> RtoC 0) by now apply RtoC_neq0. field. auto.
Qed.

Lemma nth_combine_w : forall b freq j, (j < length freq)%nat -> nth j (combine (repeat b (length freq)) freq) (0, 0) = (b, nth j freq 0).
Proof.
  intros b freq j H. rewrite nth_combine2 by (rewrite ?repeat_length; auto). f_equal. apply nth_error_nth. apply nth_error_repeat. auto.
Qed.

Lemma flat_map_map : forall {A B} (f : A -> list B) (g : A -> B) l, (forall x, In x l -> f x = [g x]) -> flat_map f l = map g l.
Proof.
  intros A B f g l. induction l as [|x l IH]; intros H; [auto|]. cbn [flat_map map]. rewrite (H x) by (left; auto). cbn [app]. f_equal. apply IH. intros y I. apply H. now right.
Qed.

Lemma rmsf_chans : forall b freq w msk RM (P : list C), length P = length freq -> length w = length freq -> length msk = length freq ->
  (forall j, (j < length freq)%nat -> nth j P (RtoC 0) = thin_chan b 1 0 RM (nth j freq 0)) ->
  let we := map (fun wm : R * bool => if snd wm then 0 else fst wm) (combine w msk) in
  let chs := spectrum_chans freq (map Some (map fst P)) (map Some (map snd P)) (Some (map Some we)) (repeat 0 (length freq)) in
  bwsum chs = bwsum (unit_chans b freq w msk RM) /\ (forall l0 phi, adj_spec b chs l0 phi = adj_spec b (unit_chans b freq w msk RM) l0 phi) /\
  mean_lam2 chs = mean_lam2 (unit_chans b freq w msk RM).
Proof.
  intros b freq w msk RM P LP Lw Lm HP we chs.
  assert (Lwe : length we = length freq) by (unfold we; rewrite map_length, combine_length; lia).
  assert (E : chs = map (fun j => mk_bchan (nth j freq 0) (if nth j msk false then 0 else nth j w 0) 0 (thin_chan b 1 0 RM (nth j freq 0))) (seq 0 (length freq))).
  { unfold chs, spectrum_chans, pixel_bchans. apply flat_map_map. intros j I. apply in_seq in I.
    replace (j * 1 + 0)%nat with j by lia. destruct (all_live P j) as [-> ->]; [lia|]. rewrite <- surjective_pairing, HP by lia. unfold weights_of. rewrite map_map. rewrite map_id.
    unfold we. rewrite (nth_map_lt _ _ _ _ (0, false)) by (rewrite combine_length; lia). rewrite nth_combine2 by lia. cbn [fst snd]. rewrite nth_repeat. reflexivity. }
  assert (B : bwsum chs = bwsum (unit_chans b freq w msk RM)).
  { rewrite E. unfold bwsum, unit_chans. rewrite map_map, rsum_flat_map. apply rsum_map_ext. intros j _. destruct (nth j msk false); cbn [map b_w]; rewrite ?rsum_cons, ?rsum_nil; ring. }
  split; [exact B|]. split.
  - intros l0 phi. unfold adj_spec. rewrite B. do 2 f_equal. rewrite E. unfold unit_chans. rewrite map_map, csum_flat_map. apply csum_map_ext. intros j _.
    destruct (nth j msk false); cbn [map b_w b_P b_nu]; rewrite ?csum_cons, ?csum_nil; ring.
  - unfold mean_lam2. rewrite B. f_equal. rewrite E. unfold unit_chans. rewrite map_map, rsum_flat_map. apply rsum_map_ext. intros j _.
    destruct (nth j msk false); cbn [map b_w b_P b_nu]; rewrite ?rsum_cons, ?rsum_nil; ring.
Qed.

(** Sample k of the spread function is the response at depth phi[k] to a unit
    source at the peak. *)
Theorem bw_rmsf_response : forall fit freq w phi RM wA msk lam0in fitRMSF b,
  match wA with None => True | Some w => length w = length freq end -> length msk = length freq ->
  width_used w freq b -> (forall f, In f freq -> channel_ok b f) -> (2 <= length phi)%nat ->
  let chs := unit_chans b freq (weights_of (length freq) wA) msk RM in bwsum chs <> 0 ->
  let l0 := match lam0in with Some l => l | None => mean_lam2 chs end in
  exists s, bwdepol_get_rmsf_planes fit freq w phi RM wA (Some msk) lam0in true fitRMSF = POk (Some s) /\
    length (bw_RMSF s) = length phi /\ length (bw_phi2 s) = (length phi + 2 * Nat.div2 (length phi + 1))%nat /\
    (forall k, (k < length phi)%nat -> nth k (bw_RMSF s) None = Some (adj_spec b chs l0 (nth k phi 0))) /\
    (forall k, (k < length (bw_phi2 s))%nat -> nth k (bw_phi2 s) 0 = ext_index phi (Z.of_nat k - Z.of_nat (Nat.div2 (length phi + 1)))) /\
    (forall k, (k < length phi)%nat -> nth k phi 0 = RM -> nth k (bw_RMSF s) None = Some (cis (2 * RM * l0) * RtoC (sens_spec b chs RM))%C) /\
    (fitRMSF = false -> bw_stat s = (-1)%Z).
Proof.
  intros fit freq w phi RM wA msk lam0in fitRMSF b LW Lm Hw Hok Lphi chs NZ l0.
  assert (NE : freq <> []). { intros ->. apply NZ. reflexivity. }
  unfold bwdepol_get_rmsf_planes. rewrite (phi2_double phi Lphi).
  assert (LP : length (prep_weights (length freq) wA) = length freq) by (apply prep_len; auto). rewrite LP, Lm, Nat.eqb_refl. cbn [negb].
  assert (PW : prep_weights (length freq) wA = weights_of (length freq) wA) by reflexivity. rewrite PW in *.
  set (w0 := weights_of (length freq) wA) in *. destruct freq as [|f0 ft]; [contradiction|]. set (freq := f0 :: ft) in *. clear NE.
  unfold bwdepol_simulation. rewrite (channel_widths_eq w freq b Hw). cbn [pybind fst snd].
  set (P := map (fun wf => analytical_chan_pol (snd wf) (fst wf) RM 1) (combine (repeat b (length freq)) freq)).
  assert (LPP : length P = length freq) by (unfold P; rewrite map_length, combine_length, repeat_length; lia).
  set (we := map (fun wm : R * bool => if snd wm then 0 else fst wm) (combine w0 msk)).
  assert (HP : forall j, (j < length freq)%nat -> nth j P (RtoC 0) = thin_chan b 1 0 RM (nth j freq 0)).
  { intros j Hj. unfold P. rewrite (nth_map_lt _ _ _ _ (0, 0)) by (rewrite combine_length, repeat_length; lia). rewrite nth_combine_w by auto. cbn [fst snd].
    pose proof (Hok _ (nth_In freq 0 Hj)) as CK. rewrite chan_pol_eq by apply CK. rewrite mean_rotation_eq by auto. unfold thin_chan. rewrite Rmult_0_r, cis_0. ring. }
  clearbody P.
  destruct (rmsf_chans b freq w0 msk RM P LPP LP Lm HP) as (B & A & ML). fold we in B, A, ML. fold chs in B, A, ML.
  assert (Efst : mk_nd [length freq] (map Some (map fst P)) = spec1 (map Some (map fst P))) by (unfold spec1; rewrite !map_length, <- LPP; reflexivity). rewrite Efst.
  assert (Esnd : mk_nd [length freq] (map Some (map snd P)) = spec1 (map Some (map snd P))) by (unfold spec1; rewrite !map_length, <- LPP; reflexivity). rewrite Esnd.
  destruct (adjoint_spectrum freq (map Some (map fst P)) (map Some (map snd P)) phi w (Some (map Some we)) lam0in b) as (r & Er & H); auto; try (rewrite !map_length; auto).
  { unfold we. rewrite map_length, combine_length. lia. }
  rewrite Er. cbn [pybind]. specialize (H (repeat 0 (length freq)) (repeat_length _ _)). cbv zeta in H. rewrite B, ML in H. destruct (H NZ) as (L0 & EF & _). fold l0 in EF, L0.
  replace (Nat.eqb (length phi) 1) with false by (symmetry; apply Nat.eqb_neq; lia).
  cbv zeta.
  match goal with |- exists s, (let '(st, fw) := ?e in POk (Some (mk_bwrmsf ?a ?p fw st))) = _ /\ _ =>
    exists (mk_bwrmsf a p (snd e) (fst e)); split; [destruct e; reflexivity|] end.
  cbn [bw_RMSF bw_phi2 bw_stat]. rewrite EF, !map_length, seq_length. split; [auto|]. split; [lia|].
  assert (K : forall k, (k < length phi)%nat -> nth k (map (fun f => Some (adj_spec b (spectrum_chans freq (map Some (map fst P)) (map Some (map snd P)) (Some (map Some we)) (repeat 0 (length freq))) l0 f)) phi) None = Some (adj_spec b chs l0 (nth k phi 0))).
  { intros k Hk. rewrite (nth_map_lt _ _ _ _ 0) by auto. now rewrite A. }
  split; [exact K|]. split; [|split].
  - intros k Hk. rewrite nth_map_seq by lia. reflexivity.
  - intros k Hk Ek. rewrite K, Ek by auto. f_equal.
    destruct (adj_thin b chs l0 1 0 RM) as [E|E]; [|rewrite E; rewrite Rplus_0_l, <- Rmult_assoc; ring|contradiction].
    intros c I. unfold chs, unit_chans in I. apply in_flat_map in I. destruct I as (j & _ & I). destruct (nth j msk false); [contradiction|]. destruct I as [<-|[]]. reflexivity.
  - intros ->. reflexivity.
Qed.

(** On an evenly spaced grid the depths returned beside the spread function are
    the wrong ones for every sample. *)
Theorem bw_rmsf_depths_shifted : forall fit freq w phi RM wA msk lam0in fitRMSF b s h,
  match wA with None => True | Some w => length w = length freq end -> length msk = length freq ->
  width_used w freq b -> (forall f, In f freq -> channel_ok b f) -> (2 <= length phi)%nat ->
  bwsum (unit_chans b freq (weights_of (length freq) wA) msk RM) <> 0 -> even_grid phi h -> h <> 0 ->
  bwdepol_get_rmsf_planes fit freq w phi RM wA (Some msk) lam0in true fitRMSF = POk (Some s) ->
  forall k, (k < length phi)%nat -> nth k (bw_phi2 s) 0 = nth k phi 0 - INR (Nat.div2 (length phi + 1)) * h /\ nth k (bw_phi2 s) 0 <> nth k phi 0.
Proof.
  intros fit freq w phi RM wA msk lam0in fitRMSF b s h LW Lm Hw Hok Lphi NZ G Hh Es k Hk.
  destruct (bw_rmsf_response fit freq w phi RM wA msk lam0in fitRMSF b LW Lm Hw Hok Lphi NZ) as (s' & Es' & _ & L2 & _ & E2 & _).
  rewrite Es in Es'. injection Es' as <-. assert (GK : forall k, (k < length phi)%nat -> nth k phi 0 = nth 0 phi 0 + INR k * h).
  { induction k0 as [|k' IH]; intros Hk'; [cbn [INR]; ring|]. rewrite G by lia. rewrite IH by lia. rewrite S_INR. ring. }
  set (e := Nat.div2 (length phi + 1)) in *.
  assert (HE : (0 < e)%nat). { unfold e. destruct (length phi) as [|[|n]]; [lia|lia|]. cbn [Nat.add Nat.div2]. lia. }
  assert (E : nth k (bw_phi2 s) 0 = nth k phi 0 - INR e * h).
  { rewrite E2 by lia. unfold ext_index. destruct (Z.ltb_spec (Z.of_nat k - Z.of_nat e) 0) as [N|N].
    - rewrite (G 0%nat) by lia. rewrite (GK k) by auto. rewrite minus_IZR, <- !INR_IZR_INZ. ring.
    - destruct (Z.ltb_spec (Z.of_nat k - Z.of_nat e) (Z.of_nat (length phi))) as [N'|N']; [|lia].
      rewrite GK by lia. rewrite (GK k) by auto. rewrite INR_IZR_INZ, Z2Nat.id, minus_IZR, <- !INR_IZR_INZ by lia. ring. }
  split; [exact E|]. rewrite E. assert (INR e * h <> 0); [|lra]. apply Rmult_integral_contrapositive. split; auto. apply not_0_INR. lia.
Qed.

(** ** Predictions *)

Lemma rotation_at : forall ws freq phi j, length ws = length freq -> (j < length freq)%nat ->
  nth j (rotation_channels ws freq phi) (RtoC 0) = rotation_operator (nth j ws 0) (nth j freq 0) phi.
Proof.
  intros ws freq phi j L H. unfold rotation_channels. rewrite (nth_map_lt _ _ _ _ (0, 0)) by (rewrite combine_length; lia). now rewrite nth_combine2 by lia.
Qed.

Lemma combine_ones : forall {A} (l : list A) (d : A), combine (repeat 1 (length l)) l = map (fun j => (1, nth j l d)) (seq 0 (length l)).
Proof.
  intros A l d. rewrite (list_as_seq l d) at 2. replace (repeat 1 (length l)) with (map (fun _ : nat => 1) (seq 0 (length l))).
  - rewrite combine_map_same. reflexivity.
  - generalize 0%nat. induction (length l) as [|n IH]; intros s; [auto|]. cbn [seq map repeat]. f_equal. apply IH.
Qed.

Lemma rsum_ones : forall n, rsum (repeat 1 n) = INR n.
Proof. induction n as [|n IH]; [reflexivity|]. cbn [repeat]. rewrite rsum_cons, IH, S_INR. ring. Qed.

Lemma rsum_map_const_1 : forall {A} (l : list A), rsum (map (fun _ => 1) l) = INR (length l).
Proof. intros A l. induction l as [|x l IH]; [reflexivity|]. cbn [map length]. rewrite rsum_cons, IH, S_INR. ring. Qed.

Lemma uniform_theory : forall ws freq phi, length ws = length freq -> freq <> [] ->
  (forall j, (j < length freq)%nat -> channel_ok (nth j ws 0) (nth j freq 0)) ->
  let n := length freq in
  let v := mk_vars ws freq phi (odiv (Some 1) (Some (rsum (repeat 1 n)))) (repeat 1 n) in
  adjoint_theory v (map Some (repeat 1 n)) =
  (map (fun f => Some (sens_uniform ws freq f)) phi, map (fun f => Some (sqrt (sens_uniform ws freq f) / sqrt (INR n))) phi).
Proof.
  intros ws freq phi L NE Ok n v.
  assert (Hn : 0 < INR n). { unfold n. apply lt_0_INR. destruct freq; [contradiction|cbn; lia]. }
  assert (SU : forall f, rsum (map (fun j => 1 * Cmod (nth j (rotation_channels ws freq f) (RtoC 0)) ^ 2) (seq 0 n)) = INR n * sens_uniform ws freq f).
  { intros f. unfold sens_uniform. fold n. replace (INR n * (rsum (map (fun j => Cmod (mean_rotation (nth j ws 0) (nth j freq 0) f) ^ 2) (seq 0 n)) / INR n)) with (rsum (map (fun j => Cmod (mean_rotation (nth j ws 0) (nth j freq 0) f) ^ 2) (seq 0 n))) by (field; lra).
    apply rsum_map_ext. intros j I. apply in_seq in I. assert (Hj : (j < length freq)%nat) by (unfold n in I; lia). rewrite rotation_at by auto. rewrite mean_rotation_eq by (apply Ok; auto). ring. }
  assert (LR : forall f, length (rotation_channels ws freq f) = n) by (intros f; unfold rotation_channels; rewrite map_length, combine_length; unfold n; lia).
  unfold adjoint_theory. f_equal.
  - apply map_ext. intros f. unfold theory_sens, v. cbn [av_widths av_freq av_K av_weight]. rewrite <- (LR f) at 2. rewrite (combine_ones _ (RtoC 0)), LR, map_map. cbn [fst snd]. rewrite SU, rsum_ones.
    unfold odiv, omul, o2. destruct (Req_EM_T (INR n) 0); [lra|]. f_equal. field. lra.
  - apply map_ext. intros f. unfold theory_noise, v. cbn [av_widths av_freq av_K av_weight].
    rewrite (combine3 n) by (try apply repeat_length; apply LR). rewrite map_map. cbn [fst snd].
    unfold osum. rewrite (all_some_map _ (fun j => 1 * Cmod (nth j (rotation_channels ws freq f) (RtoC 0)) ^ 2)).
    2:{ intros j I. apply in_seq in I. f_equal. assert (E : nth j (repeat 1 n) 0 = 1) by (apply nth_error_nth; apply nth_error_repeat; lia). rewrite E. ring. }
    cbn [option_map]. rewrite SU, rsum_ones. 
    assert (S0 : 0 <= sens_uniform ws freq f). { unfold sens_uniform. apply Rdiv_le_0_compat; auto. apply rsum_nonneg. intros x I. apply in_map_iff in I. destruct I as (j & <- & _). apply pow2_ge_0. }
    unfold odiv, osqrt. destruct (Req_EM_T (INR n ^ 2) 0) as [Z|_]; [nra|].
    destruct (Rle_dec 0 _) as [_|N].
    2:{ exfalso. apply N. apply Rdiv_le_0_compat; nra. }
    f_equal. rewrite <- sqrt_div_alt by auto. f_equal. field. lra.
Qed.

Lemma predict_widths_eq : forall w freq ws, widths_used w freq ws -> predict_widths w freq = POk ws /\ length ws = length freq.
Proof.
  intros [|b|l] freq ws H; cbn in *.
  - destruct H as [H ->]. destruct freq as [|x [|y t]]; cbn in *; try lia. split; [reflexivity|]. now rewrite repeat_length.
  - subst. split; [reflexivity|apply repeat_length].
  - destruct H as [-> E]. rewrite E, Nat.eqb_refl. auto.
Qed.

Theorem bw_predictions : forall freq w phiMax dPhi ws p d,
  (2 <= length freq)%nat -> widths_used w freq ws -> (forall j, (j < length freq)%nat -> channel_ok (nth j ws 0) (nth j freq 0)) ->
  range_used phiMax freq p -> step_used dPhi freq d -> 0 <= p -> 0 < d ->
  exists phi sens noise, bwdepol_compute_predictions freq w phiMax dPhi = POk (phi, sens, noise) /\
    (forall k, (k < length phi)%nat -> nth k phi 0 = INR k * d) /\ (forall k, INR k * d <= p -> (k < length phi)%nat) /\
    (forall k, (k < length phi)%nat -> INR k * d < p + 1 / 1000000) /\
    length sens = length phi /\ length noise = length phi /\
    (forall k, (k < length phi)%nat -> exists s, s = sens_uniform ws freq (INR k * d) /\ nth k sens None = Some s /\ nth k noise None = Some (sqrt s) /\ 0 <= s <= 1) /\
    nth 0 sens None = Some 1 /\ nth 0 noise None = Some 1.
Proof.
  intros freq w phiMax dPhi ws p d Hn Hw Ok Hp Hd P0 D0. unfold bwdepol_compute_predictions.
  change (lambda_sq freq) with (l2s freq).
  assert (LL : length (l2s freq) = length freq) by (unfold l2s; apply map_length).
  assert (X1 : exists mx, rmax_list (l2s freq) = Some mx) by (destruct (l2s freq) as [|a t]; [cbn in LL; lia|cbn; eauto]). destruct X1 as [mx E1].
  assert (X2 : exists mn, rmin_list (l2s freq) = Some mn) by (destruct (l2s freq) as [|a t]; [cbn in LL; lia|cbn; eauto]). destruct X2 as [mn E2].
  assert (X3 : exists dm, rmin_list (map Rabs (np_diff (l2s freq))) = Some dm).
  { destruct (l2s freq) as [|a [|c t]]; cbn in LL; try lia. cbn. eauto. } destruct X3 as [dm E3].
  rewrite E1, E2, E3. pose proof (rmax_list_spec _ _ E1) as M1. pose proof (rmin_list_spec _ _ E2) as M2. pose proof (rmin_list_spec _ _ E3) as M3.
  assert (S3 : sqrt 3 <> 0) by (apply Rgt_not_eq, sqrt_lt_R0; lra).
  assert (ED : match dPhi with Some d => Some d | None => odiv (Some (2 * sqrt 3)) (Some (mx - mn)) end = Some d).
  { destruct dPhi as [x|]; cbn in Hd; [now subst|]. destruct Hd as (a & c & A & B & E). assert (a = mx) by (apply Rle_antisym; [apply M1, A|apply A, M1]). assert (c = mn) by (apply Rle_antisym; [apply B, M2|apply M2, B]). subst a c.
    cbn. destruct (Req_EM_T (mx - mn) 0) as [Z|Z]; [rewrite Z in E; lra|]. f_equal. rewrite <- E. field. auto. }
  assert (EP : match phiMax with Some p => Some p | None => odiv (Some (2 * sqrt 3)) (Some dm) end = Some p).
  { destruct phiMax as [x|]; cbn in Hp; [now subst|]. destruct Hp as (c & B & E). assert (c = dm) by (apply Rle_antisym; [apply B, M3|apply M3, B]). subst c.
    cbn. destruct (Req_EM_T dm 0) as [Z|Z]; [rewrite Z in E; lra|]. f_equal. rewrite <- E. field. auto. }
  rewrite ED, EP. unfold arange0. destruct (Req_EM_T d 0); [lra|]. cbn [pybind]. destruct (predict_widths_eq w freq ws Hw) as [-> Lw]. cbn [pybind].
  set (N := Z.to_nat (Rceil ((p + 1 / 1000000) / d))). set (phi := map (fun k => INR k * d) (seq 0 N)).
  assert (NE : freq <> []) by (intros ->; cbn in Hn; lia). rewrite (uniform_theory ws freq phi Lw NE Ok).
  assert (RC : IZR (Rceil ((p + 1 / 1000000) / d)) - 1 < (p + 1 / 1000000) / d <= IZR (Rceil ((p + 1 / 1000000) / d))).
  { unfold Rceil. rewrite opp_IZR. pose proof (Rfloor_spec (- ((p + 1 / 1000000) / d))). lra. }
  assert (Q0 : 0 < (p + 1 / 1000000) / d) by (apply Rdiv_lt_0_compat; lra).
  assert (NP : (0 < Rceil ((p + 1 / 1000000) / d))%Z) by (apply lt_IZR; lra).
  assert (IN : INR N = IZR (Rceil ((p + 1 / 1000000) / d))) by (unfold N; rewrite INR_IZR_INZ, Z2Nat.id by lia; reflexivity).
  assert (PQ : (p + 1 / 1000000) = (p + 1 / 1000000) / d * d) by (field; auto).
  assert (LP : length phi = N) by (unfold phi; now rewrite map_length, seq_length).
  assert (HN : (0 < N)%nat) by (unfold N; lia).
  destruct phi as [|x0 pt] eqn:EPH; [cbn in LP; lia|]. rewrite <- EPH in *.
  assert (NK : forall k, (k < N)%nat -> nth k phi 0 = INR k * d) by (intros k Hk; rewrite EPH; rewrite <- EPH; unfold phi; rewrite nth_map_seq by auto; reflexivity).
  assert (NPos : 0 < INR (length freq)) by (apply lt_0_INR; lia).
  assert (RG : forall f, 0 <= sens_uniform ws freq f <= 1).
  { intros f. unfold sens_uniform. split.
    - apply Rdiv_le_0_compat; auto. apply rsum_nonneg. intros x I. apply in_map_iff in I. destruct I as (j & <- & _). apply pow2_ge_0.
    - apply Rmult_le_reg_r with (INR (length freq)); auto. unfold Rdiv. rewrite Rmult_assoc, Rinv_l, Rmult_1_r, Rmult_1_l by lra.
      apply Rle_trans with (rsum (map (fun _ : nat => 1) (seq 0 (length freq)))).
      + apply rsum_le. intros j I. apply in_seq in I. rewrite <- (pow1 2). apply pow_incr. split; [apply Cmod_ge_0|apply mean_rotation_bound, Ok; lia].
      + rewrite rsum_map_const_1. rewrite seq_length. lra. }
  assert (Z1 : sens_uniform ws freq 0 = 1).
  { unfold sens_uniform. rewrite (rsum_map_ext _ (fun _ => 1)).
    - rewrite rsum_map_const_1, seq_length. field. lra.
    - intros j I. apply in_seq in I. rewrite mean_rotation_zero by (apply Ok; lia). rewrite Cmod_R, Rabs_R1. ring. }
  set (mxn := 1 / sqrt (INR (length freq))). assert (SQ : 0 < sqrt (INR (length freq))) by (apply sqrt_lt_R0; auto).
  assert (MX : omax (map (fun f => Some (sqrt (sens_uniform ws freq f) / sqrt (INR (length freq)))) phi) = Some mxn).
  { unfold omax. rewrite (all_some_map _ (fun f => sqrt (sens_uniform ws freq f) / sqrt (INR (length freq)))) by auto. apply rmax_list_unique. split.
    - apply in_map_iff. exists 0. split; [rewrite Z1, sqrt_1; reflexivity|]. replace 0 with (nth 0 phi 0) at 1 by (rewrite NK by auto; cbn; ring). apply nth_In. lia.
    - intros y I. apply in_map_iff in I. destruct I as (f & <- & _). unfold mxn. apply Rmult_le_compat_r; [left; now apply Rinv_0_lt_compat|]. rewrite <- sqrt_1. apply sqrt_le_1_alt, RG. }
  rewrite MX. eexists. eexists. eexists. split; [reflexivity|]. rewrite LP. split; [exact NK|].
  assert (LN : forall k, (k < N)%nat -> INR k * d < p + 1 / 1000000).
  { intros k Hk. assert (INR k + 1 <= INR N) by (rewrite <- S_INR; apply le_INR; lia). rewrite PQ. apply Rmult_lt_compat_r; auto. lra. }
  split.
  { intros k Hk. apply INR_lt. rewrite IN. apply Rlt_le_trans with ((p + 1 / 1000000) / d); [|lra]. apply Rmult_lt_reg_r with d; auto. rewrite <- PQ. lra. }
  split; [exact LN|]. rewrite !map_length. split; [exact LP|]. split; [exact LP|].
  assert (K : forall k, (k < N)%nat -> nth k (map (fun f => Some (sens_uniform ws freq f)) phi) None = Some (sens_uniform ws freq (INR k * d)) /\
     nth k (map (fun x => odiv x (Some mxn)) (map (fun f => Some (sqrt (sens_uniform ws freq f) / sqrt (INR (length freq)))) phi)) None = Some (sqrt (sens_uniform ws freq (INR k * d)))).
  { intros k Hk. rewrite map_map. rewrite !(nth_map_lt _ _ _ _ 0) by lia. rewrite NK by auto. split; [reflexivity|]. cbn. destruct (Req_EM_T mxn 0) as [Z|Z].
    - exfalso. unfold mxn in Z. assert (0 < 1 / sqrt (INR (length freq))) by (apply Rdiv_lt_0_compat; lra). lra.
    - f_equal. unfold mxn. field. lra. }
  split.
  { intros k Hk. exists (sens_uniform ws freq (INR k * d)). destruct (K k Hk) as [-> ->]. repeat split; auto; apply RG. }
  destruct (K 0%nat HN) as [-> ->]. cbn [INR]. rewrite Rmult_0_l, Z1, sqrt_1. auto.
Qed.
