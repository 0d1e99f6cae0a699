(** The prototypes with one weight per voxel. *)
From Coq Require Import Reals List Arith ZArith Bool Lra Lia.
Set Warnings "-ambiguous-paths".
From Coquelicot Require Import Coquelicot.
From Verif Require Import PyRes CBase NdArray PyList Interp_Model Synth_Model Synth_Spec Synth_Proofs Rmsf_Proofs
  Clean_Model Ref_Model Ref_Spec Ref_Proofs.
Import ListNotations.
Local Open Scope R_scope.

Section Vox.
  Variables (n m : nat) (Q U : list (option R)) (l2 phi w0 : list R).
  Let chs p := voxel_chans n m Q U l2 w0 p.
  Let live p := voxel_live n m Q U l2 w0 p.

  Lemma t_pC_some : forall j p, is_some (t_pC m Q U w0 j p) = finite (nth (j * m + p) Q None) && finite (nth (j * m + p) U None).
  Proof. intros. unfold t_pC, at2, pcell, is_some, is_none. destruct (nth _ Q None), (nth _ U None); reflexivity. Qed.

  Lemma t_ok_eq : forall j, t_ok m Q U w0 j = existsb (fun q => finite (nth (j * m + q) Q None) && finite (nth (j * m + q) U None)) (seq 0 m).
  Proof. intros j. unfold t_ok. induction (seq 0 m) as [|a l IH]; cbn; [reflexivity|]. now rewrite IH, t_pC_some. Qed.

  Lemma t_sum_live : forall p, rsum (map (fun j => t_weff m Q U w0 j p) (seq 0 n)) = wsum (live p).
  Proof.
    intros p. unfold live, wsum, voxel_live. rewrite rsum_flat_map. apply rsum_map_ext. intros j _. unfold t_weff. rewrite t_ok_eq.
    destruct (existsb _ _); cbn [map c_w]; rewrite ?rsum_cons, ?rsum_nil; unfold at2; ring.
  Qed.

  Lemma t_suml2_live : forall p, rsum (map (fun j => t_weff m Q U w0 j p * nth j l2 0) (seq 0 n)) = rsum (map (fun c => c_w c * c_l2 c) (live p)).
  Proof.
    intros p. unfold live, voxel_live. rewrite rsum_flat_map. apply rsum_map_ext. intros j _. unfold t_weff. rewrite t_ok_eq.
    destruct (existsb _ _); cbn [map c_w c_l2]; rewrite ?rsum_cons, ?rsum_nil; unfold at2; ring.
  Qed.

  Lemma t_lam0_eq : forall p, t_lam0 n m Q U l2 w0 p = if Req_EM_T (wsum (live p)) 0 then None else Some (mean_l2 (live p)).
  Proof.
    intros p. unfold t_lam0. rewrite t_sum_live, t_suml2_live. destruct (Req_EM_T (wsum (live p)) 0); [reflexivity|]. f_equal. unfold mean_l2. field. auto.
  Qed.

  Lemma t_K_eq : forall p, (p < m)%nat -> t_K n m Q U w0 p = inv_or_0 (wsum (chs p)).
  Proof.
    intros p Hp. unfold t_K. f_equal. unfold chs, wsum, voxel_chans. rewrite rsum_flat_map. apply rsum_map_ext. intros j _. rewrite t_pC_some. unfold t_weff. rewrite t_ok_eq.
    destruct (nth (j * m + p) Q None) as [q|] eqn:EQ; [|cbn; rewrite ?rsum_nil; ring]. destruct (nth (j * m + p) U None) as [u|] eqn:EU; [|cbn; rewrite ?rsum_nil; ring].
    replace (existsb _ _) with true.
    - cbn. rewrite rsum_cons, rsum_nil. unfold at2. ring.
    - symmetry. apply existsb_exists. exists p. split; [apply in_seq; lia|]. now rewrite EQ, EU.
  Qed.

  Lemma t_FDF_eq : forall l0 i p l, (p < m)%nat -> l0 p = Some l ->
    t_FDF n m Q U l2 phi w0 l0 i p = Some (if Req_EM_T (wsum (chs p)) 0 then RtoC 0 else FDF_spec (chs p) l (nth i phi 0)).
  Proof.
    intros l0 i p l Hp E. unfold t_FDF. rewrite E, t_K_eq by exact Hp. f_equal.
    assert (S : csum (map (fun j => (nan_to_num (t_pC m Q U w0 j p) * cis (-2 * nth i phi 0 * (nth j l2 0 - l)))%C) (seq 0 n)) =
      csum (map (fun c => (RtoC (c_w c) * c_P c * cis (-2 * nth i phi 0 * (c_l2 c - l)))%C) (chs p))).
    { unfold chs, voxel_chans. rewrite csum_flat_map. apply csum_map_ext. intros j _. unfold t_pC, at2, pcell.
      destruct (nth (j * m + p) Q None), (nth (j * m + p) U None); cbn [nan_to_num map c_w c_P c_l2]; rewrite ?csum_cons, ?csum_nil; ring. }
    rewrite S. destruct (Req_EM_T (wsum (chs p)) 0) as [Z|Z]; [rewrite Z, inv_or_0_z; ring|].
    rewrite inv_or_0_nz by exact Z. unfold FDF_spec. rewrite <- RtoC_inv_mult by exact Z. ring.
  Qed.
End Vox.

Lemma bcast_same : forall s, bcast s s = Some s.
Proof.
  intros s. unfold bcast. replace (bcast_rev (rev s) (rev s)) with (Some (rev s)); [cbn; now rewrite rev_involutive|].
  induction (rev s) as [|x t IH]; cbn; [reflexivity|]. now rewrite Nat.eqb_refl, <- IH.
Qed.
Lemma bcast_plane : forall n a b, bcast [n; a; b] [n; 1%nat; 1%nat] = Some [n; a; b].
Proof.
  intros. unfold bcast. cbn. rewrite Nat.eqb_refl. destruct (Nat.eqb_spec a 1) as [->|], (Nat.eqb_spec b 1) as [->|]; reflexivity.
Qed.

Lemma voxel_weights_eq : forall (dQ : nd (option R)) (wA : option (nd (option R))),
  flat (match wA with
        | None => mk_nd (shape dQ) (repeat 1 (prodn (shape dQ)))
        | Some w => mk_nd (shape w) (map (fun x => match x with Some v => v | None => 0 end) (flat w)) end)
  = voxel_weights (prodn (shape dQ)) wA.
Proof. intros dQ [w|]; reflexivity. Qed.

(** The result, for a cube with a cube of weights. *)
Lemma noise_eq : forall dQ dU l2 phi wA l0in, valid_noise dQ dU l2 wA ->
  let m := npix dQ in
  let w := voxel_weights (prodn (shape dQ)) wA in
  threeDnoise_do_rmsynth_planes dQ dU l2 phi wA l0in =
  match match l0in with
        | LamNone => Some (t_lam0 (length l2) m (flat dQ) (flat dU) l2 w)
        | LamNum _ => None
        | LamMap l => if Nat.eqb (length l) m then Some (fun p => nth p l None) else None
        end with
  | None => NRaise
  | Some l0 => NOk (mk_ns
      (squeeze (mk_nd (length phi :: tl (shape dQ)) (tab2 (length phi) m (t_FDF (length l2) m (flat dQ) (flat dU) l2 phi w l0))))
      (squeeze (mk_nd (tl (shape dQ)) (map l0 (seq 0 m)))))
  end.
Proof.
  intros dQ dU l2 phi wA l0in (E1 & E2 & E3 & E4). intros m w. unfold threeDnoise_do_rmsynth_planes. cbv zeta.
  set (W := match wA with None => _ | Some _ => _ end).
  assert (SW : shape W = shape dQ) by (unfold W; destruct wA; [exact E4|reflexivity]).
  assert (FW : flat W = w) by apply voxel_weights_eq. clearbody W w. destruct W as [sw fw]. cbn in SW, FW. subst sw fw.
  unfold m, npix. rewrite <- E1. cbn [shape flat]. destruct (shape dQ) as [|a [|b [|c [|? ?]]]] eqn:ES; try discriminate E2. cbn in E3. subst a. cbn [nth length tl image_axes fst snd].
  destruct (list_eq_dec Nat.eq_dec [length l2; b; c] [length l2; b; c]) as [_|]; [|contradiction]. cbn [negb]. rewrite andb_false_r. cbv iota.
  rewrite Nat.eqb_refl. cbn [negb Nat.leb Nat.ltb]. cbv iota. rewrite bcast_same. cbn [nth shape flat]. rewrite bcast_plane.
  destruct (list_eq_dec Nat.eq_dec [length l2; b; c] [length l2; b; c]) as [_|]; [|contradiction]. cbn [negb].
  replace (prodn [b; c]) with (b * c)%nat by (cbn; lia). reflexivity.
Qed.

Theorem noise_refines : forall dQ dU l2 phi wA, valid_noise dQ dU l2 wA ->
  exists r, threeDnoise_do_rmsynth_planes dQ dU l2 phi wA LamNone = NOk r /\
    let m := npix dQ in
    let w := voxel_weights (prodn (shape dQ)) wA in
    forall p, (p < m)%nat ->
      let chs := voxel_chans (length l2) m (flat dQ) (flat dU) l2 w p in
      let live := voxel_live (length l2) m (flat dQ) (flat dU) l2 w p in
      (wsum live = 0 -> nth p (flat (ns_lam0 r)) None = None /\
         forall i, (i < length phi)%nat -> nth (i * m + p) (flat (ns_FDF r)) None = None) /\
      (wsum live <> 0 -> nth p (flat (ns_lam0 r)) None = Some (mean_l2 live) /\
         forall i, (i < length phi)%nat ->
           (wsum chs <> 0 -> nth (i * m + p) (flat (ns_FDF r)) None = Some (FDF_spec chs (mean_l2 live) (nth i phi 0))) /\
           (wsum chs = 0 -> nth (i * m + p) (flat (ns_FDF r)) None = Some (RtoC 0))).
Proof.
  intros dQ dU l2 phi wA V. rewrite noise_eq by exact V. eexists. split; [reflexivity|]. cbv zeta. intros p Hp. cbn [squeeze flat ns_lam0 ns_FDF].
  rewrite nth_map_seq by exact Hp. rewrite Nat.add_0_l. set (w := voxel_weights _ wA).
  pose proof (t_lam0_eq (length l2) (npix dQ) (flat dQ) (flat dU) l2 w p) as EL.
  split; intros HL.
  - destruct (Req_EM_T _ 0) as [_|]; [|contradiction]. split; [exact EL|]. intros i Hi.
    pose proof (at2_tab2 (length phi) (npix dQ) (t_FDF (length l2) (npix dQ) (flat dQ) (flat dU) l2 phi w (t_lam0 (length l2) (npix dQ) (flat dQ) (flat dU) l2 w)) None i p Hi Hp) as T.
    unfold at2 in T. rewrite T. unfold t_FDF. now rewrite EL.
  - destruct (Req_EM_T _ 0) as [|_]; [contradiction|]. split; [exact EL|]. intros i Hi.
    pose proof (at2_tab2 (length phi) (npix dQ) (t_FDF (length l2) (npix dQ) (flat dQ) (flat dU) l2 phi w (t_lam0 (length l2) (npix dQ) (flat dQ) (flat dU) l2 w)) None i p Hi Hp) as T.
    unfold at2 in T. rewrite T. rewrite (t_FDF_eq _ _ _ _ _ _ _ _ i p _ Hp EL).
    split; intros HC; destruct (Req_EM_T _ 0); try contradiction; reflexivity.
Qed.

(** A map of reference wavelengths is used as it is; a single number raises. *)
Theorem noise_lam0_map : forall dQ dU l2 phi wA l, valid_noise dQ dU l2 wA -> length l = npix dQ ->
  exists r, threeDnoise_do_rmsynth_planes dQ dU l2 phi wA (LamMap l) = NOk r /\
    let m := npix dQ in
    forall p l0, (p < m)%nat -> nth p l None = Some l0 ->
      let chs := voxel_chans (length l2) m (flat dQ) (flat dU) l2 (voxel_weights (prodn (shape dQ)) wA) p in
      wsum chs <> 0 -> nth p (flat (ns_lam0 r)) None = Some l0 /\
      forall i, (i < length phi)%nat -> nth (i * m + p) (flat (ns_FDF r)) None = Some (FDF_spec chs l0 (nth i phi 0)).
Proof.
  intros dQ dU l2 phi wA l V HL. rewrite noise_eq by exact V. cbv zeta. rewrite HL, Nat.eqb_refl. eexists. split; [reflexivity|]. cbv zeta. intros p l0 Hp E HC.
  cbn [squeeze flat ns_lam0 ns_FDF]. rewrite nth_map_seq by exact Hp. split; [exact E|]. intros i Hi.
  set (w := voxel_weights _ wA) in *.
  pose proof (at2_tab2 (length phi) (npix dQ) (t_FDF (length l2) (npix dQ) (flat dQ) (flat dU) l2 phi w (fun p => nth p l None)) None i p Hi Hp) as T.
  unfold at2 in T. rewrite T. rewrite (t_FDF_eq _ _ _ _ _ _ _ _ i p l0 Hp E). destruct (Req_EM_T _ 0); [contradiction|reflexivity].
Qed.

Theorem noise_lam0_number_refuted : forall dQ dU l2 phi wA l0, valid_noise dQ dU l2 wA ->
  threeDnoise_do_rmsynth_planes dQ dU l2 phi wA (LamNum l0) = NRaise.
Proof. intros. rewrite noise_eq by assumption. reflexivity. Qed.

(** Weights with one or two axes, which are documented, always raise. *)
Theorem noise_low_weights_refuted : forall dQ dU l2 phi wA l0in, shape dQ = shape dU -> (1 <= length (shape dQ) <= 3)%nat ->
  nth 0 (shape dQ) 0%nat = length l2 ->
  match wA with
  | None => (length (shape dQ) < 3)%nat
  | Some w => shape w = [length l2] \/ (shape w = shape dQ /\ (length (shape dQ) < 3)%nat)
  end ->
  threeDnoise_do_rmsynth_planes dQ dU l2 phi wA l0in = NRaise.
Proof.
  intros dQ dU l2 phi wA l0in E1 E2 E3 EW. unfold threeDnoise_do_rmsynth_planes. cbv zeta.
  set (W := match wA with None => _ | Some _ => _ end).
  assert (SW : (shape W = [length l2] \/ shape W = shape dQ) /\ (length (shape W) < 3)%nat).
  { unfold W. destruct wA as [w|]; cbn; [|tauto]. destruct EW as [->|[-> L]]; cbn; auto. }
  clearbody W. destruct SW as [SW LW].
  assert (OK : negb (if list_eq_dec Nat.eq_dec (shape W) [length l2] then true else false) &&
               negb (if list_eq_dec Nat.eq_dec (shape W) (shape dQ) then true else false) = false).
  { destruct (list_eq_dec _ (shape W) [length l2]), (list_eq_dec _ (shape W) (shape dQ)); cbn; auto. destruct SW; contradiction. }
  rewrite OK. rewrite <- E1. destruct (list_eq_dec Nat.eq_dec (shape dQ) (shape dQ)) as [_|]; [|contradiction]. cbn [negb].
  rewrite E3, Nat.eqb_refl. cbn [negb]. destruct (Nat.leb_spec (length (shape dQ)) 3); [|lia]. cbn [negb].
  destruct (Nat.ltb_spec (length (shape W)) 3); [|lia].
  assert (RP : forall r w, np_repeat W r = POk w -> exists k, shape w = [k]).
  { intros r w. unfold np_repeat. destruct (Nat.eqb _ _); [intros H1; injection H1 as <-; eexists; reflexivity|].
    destruct r as [|? [|? ?]]; try discriminate. intros H1; injection H1 as <-; eexists; reflexivity. }
  destruct (np_repeat W _) as [w|] eqn:ER; [|reflexivity]. destruct (RP _ _ ER) as [k Ek]. rewrite Ek.
  destruct (bcast _ [k]) as [cube|]; [|reflexivity].
  destruct (bcast [k] [nth 0 cube 0%nat; 1%nat; 1%nat]) as [sh|] eqn:EB; [|reflexivity].
  assert (L3 : length sh = 3%nat).
  { unfold bcast in EB. cbn in EB. destruct (k =? 1)%nat; cbn in EB; injection EB as <-; reflexivity. }
  destruct (list_eq_dec Nat.eq_dec sh [k]) as [->|]; [discriminate L3|reflexivity].
Qed.

(** ** Agreement with the current routine *)
Lemma voxel_pixel : forall n m Q U l2 v w p, (forall j, (j < n)%nat -> nth (j * m + p) v 0 = nth j w 0) ->
  voxel_chans n m Q U l2 v p = pixel_chans n m Q U l2 w p.
Proof.
  intros n m Q U l2 v w p H. unfold voxel_chans, pixel_chans. rewrite !flat_map_concat_map. f_equal. apply map_ext_in. intros j Hj. apply in_seq in Hj. rewrite H by lia. reflexivity.
Qed.
Lemma voxel_live_pixel : forall n m Q U l2 v w p, (forall j, (j < n)%nat -> nth (j * m + p) v 0 = nth j w 0) ->
  voxel_live n m Q U l2 v p = live_chans n m Q U l2 w.
Proof.
  intros n m Q U l2 v w p H. unfold voxel_live, live_chans. rewrite !flat_map_concat_map. f_equal. apply map_ext_in. intros j Hj. apply in_seq in Hj. rewrite H by lia.
  assert (E : existsb (fun q => finite (nth (j * m + q) Q None) && finite (nth (j * m + q) U None)) (seq 0 m) =
    existsb (fun p0 => match nth (j * m + p0) Q None, nth (j * m + p0) U None with Some _, Some _ => true | _, _ => false end) (seq 0 m)).
  { induction (seq 0 m) as [|a l IH]; cbn; [reflexivity|]. rewrite IH. f_equal. destruct (nth _ Q None), (nth _ U None); reflexivity. }
  now rewrite E.
Qed.

Theorem noise_agrees : forall dQ dU l2 phi wA wV r c, antisym phi -> valid_noise dQ dU l2 wV ->
  match wA with None => True | Some w => length w = length l2 end ->
  (forall j p, (j < length l2)%nat -> (p < npix dQ)%nat ->
     nth (j * npix dQ + p) (voxel_weights (prodn (shape dQ)) wV) 0 = nth j (weights_of (length l2) wA) 0) ->
  threeDnoise_do_rmsynth_planes dQ dU l2 phi wV LamNone = NOk r ->
  do_rmsynth_planes dQ dU l2 phi wA None = Some c ->
  forall i p, (i < length phi)%nat -> (p < npix dQ)%nat ->
    wsum (live_chans (length l2) (npix dQ) (flat dQ) (flat dU) l2 (weights_of (length l2) wA)) <> 0 ->
    nth p (flat (ns_lam0 r)) None = Some (synth_lam0 c) /\
    nth (i * npix dQ + p) (flat (ns_FDF r)) None = Some (blank0 (nth (i * npix dQ + p) (flat (FDFcube c)) None)).
Proof.
  intros dQ dU l2 phi wA wV r c A V LW HV ER EC i p Hi Hp HL. pose proof V as (E1 & E2 & E3 & E4).
  assert (V' : valid_synth dQ dU l2 wA) by (unfold valid_synth; rewrite E2; repeat split; auto; lia).
  destruct (noise_refines dQ dU l2 phi wV V) as (r' & ER' & SP). rewrite ER in ER'. injection ER' as <-. cbv zeta in SP. specialize (SP p Hp).
  destruct (synth_refines dQ dU l2 phi wA None V' A) as (c' & EC' & L0 & SC). rewrite EC in EC'. injection EC' as <-. cbv zeta in L0, SC. specialize (SC i p Hi Hp).
  rewrite (voxel_pixel _ _ _ _ _ _ (weights_of (length l2) wA) p) in SP by (intros; now apply HV).
  rewrite (voxel_live_pixel _ _ _ _ _ _ (weights_of (length l2) wA) p) in SP by (intros; now apply HV).
  destruct SP as [_ SP]. destruct (SP HL) as [SL SF]. specialize (SF i Hi).
  destruct (Req_EM_T _ 0) as [|_]; [contradiction|]. rewrite L0. split; [exact SL|]. rewrite L0 in SC.
  set (chs := pixel_chans _ _ _ _ _ _ _) in *. set (l0 := mean_l2 _) in *. unfold at2 in SC.
  destruct (Req_EM_T (wsum chs) 0) as [Z|Z].
  - rewrite (proj2 SF Z), (proj1 SC Z). reflexivity.
  - rewrite (proj1 SF Z). destruct (proj2 SC Z) as [S1 S2]. destruct (nth (i * npix dQ + p) (flat (FDFcube c)) None) as [z|].
    + cbn. f_equal. symmetry. now apply S2.
    + cbn. f_equal. apply (proj1 S1 eq_refl). now apply nth_In.
Qed.

(** ** The RMSF *)
Lemma wsum_weight_chans : forall n m l2 w p, wsum (weight_chans n m l2 w p) = tr_sum n m w p.
Proof. intros. unfold wsum, weight_chans, tr_sum. rewrite map_map. reflexivity. Qed.

Lemma tr_lam0_eq : forall n m l2 w p, tr_sum n m w p <> 0 -> tr_lam0 n m l2 w p = Some (mean_l2 (weight_chans n m l2 w p)).
Proof.
  intros n m l2 w p H. unfold tr_lam0. destruct (Req_EM_T _ 0); [contradiction|]. f_equal. unfold mean_l2. rewrite wsum_weight_chans.
  unfold weight_chans at 1. rewrite map_map. cbn. unfold at2. field. exact H.
Qed.

Lemma tr_rmsf : forall n m l2 phi2 w p i, tr_sum n m w p <> 0 ->
  (RtoC (1 / tr_sum n m w p) * csum (map (fun j => RtoC (at2 m 0 w j p) * cis (-2 * nth i phi2 0 * (nth j l2 0 - mean_l2 (weight_chans n m l2 w p)))) (seq 0 n)))%C
  = RMSF_spec (weight_chans n m l2 w p) (mean_l2 (weight_chans n m l2 w p)) (nth i phi2 0).
Proof.
  intros n m l2 phi2 w p i H. unfold RMSF_spec. rewrite wsum_weight_chans, <- RtoC_inv_mult by exact H. rewrite Cmult_comm. f_equal. f_equal.
  generalize (mean_l2 (weight_chans n m l2 w p)). intros l0. unfold weight_chans. rewrite map_map. reflexivity.
Qed.

Theorem noise_rmsf_refines : forall fit l2 phi wA lam0in double fitRMSF fitReal phi2,
  l2 <> [] -> match wA with None => True | Some w => (1 <= length (shape w) <= 3)%nat /\ nth 0 (shape w) 0%nat = length l2 end ->
  phi2_grid double phi = Some phi2 ->
  exists r, threeDnoise_get_rmsf_planes fit l2 phi wA lam0in double fitRMSF fitReal = OROk r /\ or_phi2 r = phi2 /\
    let m := prodn (tl (match wA with None => [length l2] | Some w => shape w end)) in
    let w := voxel_weights (length l2) wA in
    forall p, (p < m)%nat ->
      let chs := weight_chans (length l2) m l2 w p in
      wsum chs <> 0 ->
      forall i, (i < length phi2)%nat -> nth (i * m + p) (flat (or_cube r)) None = Some (RMSF_spec chs (mean_l2 chs) (nth i phi2 0)).
Proof.
  intros fit l2 phi wA lam0in double fitRMSF fitReal phi2 HN HW HP. unfold threeDnoise_get_rmsf_planes. rewrite HP. cbv zeta.
  set (W := match wA with None => mk_nd [length l2] _ | Some _ => _ end).
  assert (SW : shape W = match wA with None => [length l2] | Some w => shape w end) by (unfold W; destruct wA; reflexivity).
  assert (FW : flat W = voxel_weights (length l2) wA) by (unfold W; destruct wA; reflexivity).
  assert (DW : (1 <= length (shape W) <= 3)%nat /\ nth 0 (shape W) 0%nat = length l2) by (rewrite SW; destruct wA; [exact HW|cbn; split; [lia|reflexivity]]).
  clearbody W. rewrite <- SW. rewrite <- FW. destruct DW as [D1 D2]. destruct (Nat.leb_spec (length (shape W)) 3); [|lia]. cbn [negb]. rewrite D2, Nat.eqb_refl. cbn [negb].
  destruct l2 as [|h t]; [congruence|]. cbv iota. set (l2 := h :: t) in *. clearbody l2. clear h t.
  rewrite (image_axes_npix (shape W)) by lia. eexists. split; [reflexivity|]. split; [reflexivity|]. cbn [or_cube squeeze flat].
  intros p Hp HS i Hi. set (m := prodn (tl (shape W))) in *. set (n := length l2) in *. rewrite wsum_weight_chans in HS.
  match goal with |- nth _ (tab2 _ _ ?f) _ = _ => pose proof (at2_tab2 (length phi2) m f None i p Hi Hp) as T end. unfold at2 at 1 in T. rewrite T. clear T.
  destruct (tr_uniform n m (flat W)) eqn:EU.
  - assert (E0 : forall j, (j < n)%nat -> nth (j * m + p) (flat W) 0 = nth (j * m + 0) (flat W) 0).
    { intros j Hj. unfold tr_uniform in EU. rewrite forallb_forall in EU. specialize (EU j ltac:(apply in_seq; lia)). rewrite forallb_forall in EU.
      specialize (EU p ltac:(apply in_seq; lia)). unfold at2 in EU. destruct (Req_EM_T _ _); [assumption|discriminate]. }
    assert (EC : weight_chans n m l2 (flat W) p = weight_chans n m l2 (flat W) 0).
    { unfold weight_chans. apply map_ext_in. intros j Hj. apply in_seq in Hj. now rewrite E0 by lia. }
    assert (ES : tr_sum n m (flat W) p = tr_sum n m (flat W) 0) by (rewrite <- !(wsum_weight_chans n m l2); now rewrite EC).
    unfold tr_1d. rewrite tr_lam0_eq by (rewrite <- ES; exact HS). rewrite EC. f_equal. apply tr_rmsf. rewrite <- ES. exact HS.
  - unfold tr_pix. rewrite tr_lam0_eq by exact HS. f_equal. rewrite inv_or_0_nz by exact HS. now apply tr_rmsf.
Qed.

(** The width fitted to the real part does not depend on the weights when
    these are the same in every pixel: it is fitted to a cube of ones. *)
Theorem noise_rmsf_real_fit_refuted : forall fit l2 phi w w' lam0in double r r',
  shape w = [length l2] -> shape w' = [length l2] ->
  threeDnoise_get_rmsf_planes fit l2 phi (Some w) lam0in double true true = OROk r ->
  threeDnoise_get_rmsf_planes fit l2 phi (Some w') lam0in double true true = OROk r' ->
  or_fwhm r = or_fwhm r' /\ or_stat r = or_stat r'.
Proof.
  intros fit l2 phi w w' lam0in double r r' S S' H H'. unfold threeDnoise_get_rmsf_planes in H, H'. destruct (phi2_grid double phi) as [phi2|]; [|discriminate].
  cbv zeta in H, H'. cbn [shape flat] in H, H'. rewrite S in H. rewrite S' in H'. cbn [length Nat.leb negb nth image_axes fst snd Nat.mul Nat.add] in H, H'. rewrite Nat.eqb_refl in H, H'. cbn [negb] in H, H'.
  destruct l2 as [|h t]; [discriminate|].
  assert (U1 : forall n fl, tr_uniform n 1 fl = true).
  { intros n fl. unfold tr_uniform. apply forallb_forall. intros j _. apply forallb_forall. intros p Hp. apply in_seq in Hp. replace p with 0%nat by lia. destruct (Req_EM_T _ _); [reflexivity|contradiction]. }
  rewrite U1 in H, H'. injection H as <-. injection H' as <-. cbn [andb or_fwhm or_stat]. split; reflexivity.
Qed.
