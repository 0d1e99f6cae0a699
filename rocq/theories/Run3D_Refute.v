(** The 3-D tool: images of one column with Stokes I, spread functions of
    channels that are not in the spectrum, and examples. *)
From Coq Require Import Reals List Arith ZArith Bool Ascii String Lra Lia.
Set Warnings "-ambiguous-paths".
From Coquelicot Require Import Coquelicot.
From Verif Require Import CBase PyRes PyStr PyStr_Proofs PyList NdArray NdIndex CleanTop_Model Synth_Model Synth_Spec Synth_Proofs Synth_Laws Setup_Model Setup_Spec Setup_Proofs Cube_Model Cube_Spec Cube_Proofs Cube_Laws
  StokesI_Model Measure_Model Clean_Grid Run1D_Model Run1D_Spec Run1D_Proofs Run1D_Laws Run1D_Refute Pixfit_Model Pixfit_Spec Pixfit_Proofs Pixfit_Laws
  Run3D_Model Run3D_Spec Run3D_Proofs Run3D_Laws Run3D_Total Run3D_Thin.
Import ListNotations.
Local Open Scope R_scope.

(** One column of pixels with Stokes I: the run fails unless there are as many
    depths as pixels, and then the spectra at depth number j are scaled by
    Stokes I of pixel number j. *)
Theorem one_column : forall Q U f k freq rms o x y, good_files Q U None k freq -> good_rms o rms (List.length freq) -> good_opts3 o freq -> g_not_rmsynth o = false ->
  wf_image f -> i_naxis f = i_naxis Q -> spectral_axis (s "FREQ") (i_ctype f) k -> ascending freq ->
  sky_axes (i_naxis Q) k = [x; y] -> len (i_naxis Q) x = 1%nat ->
  forall fit, exists phi h step, grid3 o freq phi h step /\
    (len (i_naxis Q) y = 1%nat \/ len (i_naxis Q) y <> List.length phi -> rmsynth3d fit Q U (Some f) freq rms o = PErr) /\
    (len (i_naxis Q) y = List.length phi -> (forall p, in_image (i_naxis Q) p -> vox None f p <> None) -> exists out F, rmsynth3d fit Q U (Some f) freq rms o = POk out /\ o_fdf out = Some F /\
       let w := weight3 o rms in let l0 := f_lamsq0 F in
       forall p, in_image (i_naxis (f_image F)) p -> let chs := sky_chans Q U (Some f) k freq w p in
         wsum chs <> 0 -> (exists t, In t phi /\ FDF_spec chs l0 t <> RtoC 0) ->
         exists i0, ref_stokes3 freq l0 (Some f) k (fun b => if (b =? y)%nat then p k else p b) i0 /\
           vox None (f_image F) p = option_map (fun i => RtoC i * FDF_spec chs l0 (nth (p k) phi 0))%C i0).
Proof.
  intros Q U f k freq rms o x y GF GR GO NS Wf Nf Sf ASC SK LX fit.
  assert (GF' := GF). destruct (files_facts Q U None k freq rms o GF GR GO) as (Hk & Hl & Hn & Hp & Hs).
  set (naxis := i_naxis Q) in *. set (n := List.length freq) in *. set (w := weight3 o rms).
  destruct GF as (WQ & WU & EU & SQ & SU & CT & _ & _ & _ & Hf & H2 & _).
  destruct (read_shows naxis k n Hk Hl Hn Hs None Q WQ eq_refl SQ) as (q & Eq & Shq).
  destruct (read_shows naxis k n Hk Hl Hn Hs None U WU EU SU) as (u & Eu & Shu).
  destruct (read_shows naxis k n Hk Hl Hn Hs None f Wf Nf Sf) as (i & Ei & Shi).
  destruct (grid_exists o freq Hf H2 GO) as (dp & phi & h & EG & ED & G3 & Hh & LP & AS).
  destruct (weights3 o rms n GR) as (wA & EW & Lw & Ew).
  assert (OC : odd_centred phi h (fst dp)) by (destruct G3 as (pm & _ & X & _); exact X).
  assert (EK : kept naxis k = [y; x]) by (unfold kept; rewrite SK; reflexivity).
  set (vq := fun p => odiv (vox None Q p) (vox None f p)). set (vu := fun p => odiv (vox None U p) (vox None f p)).
  assert (Sq : shows naxis k n None (odiv_nd q i) vq) by (apply (odiv_shows naxis k n Hk Hl Hn Hs); assumption).
  assert (Su : shows naxis k n None (odiv_nd u i) vu) by (apply (odiv_shows naxis k n Hk Hl Hn Hs); assumption).
  assert (HF : forall p, frac_vox Q U (Some f) p = match vq p, vu p with Some a, Some b => Some (a, b) | _, _ => None end).
  { intros p. unfold frac_vox, stokes_vox, vq, vu, odiv. destruct (vox None Q p), (vox None U p), (vox None f p) as [d|]; try reflexivity; destruct (Req_EM_T d 0); reflexivity. }
  destruct (synth_cells naxis k n Hk Hl Hn Hp Hs Q U (Some f) freq w wA _ _ vq vu phi (if g_super o then Some 0 else None) eq_refl Lw Ew Sq Su HF AS ltac:(lia)) as (r & Er & Wr & Sr & H0 & HC).
  assert (RANGE : synth_lam0 r = 0 \/ (0 < synth_lam0 r /\ forall lo hi, (forall f, In f freq -> lo <= f <= hi) -> 0 < lo -> lsq hi <= synth_lam0 r <= lsq lo)).
  { destruct (g_super o); [left; exact H0|]. refine (mean_over_range _ freq w _ Hf _ H0). intros j. now apply (weight3_nonneg o rms n). }
  assert (Nn : freq <> []) by (unfold n in Hn; destruct freq; [cbn in Hn; lia|discriminate]).
  destruct (freq0_range freq (synth_lam0 r) Hf Nn ASC RANGE) as (R1 & R2 & R3). cbv zeta in R1, R2, R3.
  destruct (Ifreq0_ok freq i (freq0_3D freq (Some (synth_lam0 r))) (len naxis y) (len naxis x) Hf Nn ASC) as (i0 & Ei0 & Si0 & Vi0); auto.
  { destruct Shi as (_ & -> & _). rewrite EK. reflexivity. }
  assert (EL : long_axes naxis (os naxis k) = if (len naxis y =? 1)%nat then [] else [y]).
  { rewrite <- kept_long by exact Hk. rewrite EK. unfold long_axes. cbn [filter]. rewrite LX. cbn [Nat.eqb negb]. destruct (len naxis y =? 1)%nat; reflexivity. }
  assert (RUN : rmsynth3d fit Q U (Some f) freq rms o = pybind (imul (FDFcube r) i0) (fun FDF =>
    pybind (if g_not_rmsf o then POk (OnlyFDF FDF phi (synth_lam0 r) (map lsq freq))
      else match get_rmsf_planes (fit (g_super o)) (map lsq freq) phi (Some wA) (Some (mk_nd (shape q) (map is_none (flat q)))) (Some (synth_lam0 r)) true (g_fitRMSF o || g_super o) with
           | RetOk s0 => POk (Both FDF phi (RMSFcube s0) (phi2Arr s0) (fwhmRMSFArr s0) (statArr s0) (rmsf_lam0 s0) (map lsq freq)) | _ => PErr end)
      (fun d => writefits_3D naxis (i_ctype Q) d))).
  { unfold rmsynth3d. rewrite Ei, Eq, Eu. cbn [pybind]. unfold run_rmsynth_3D. rewrite NS. cbn [andb].
    rewrite (shape_same q u) by (destruct Shq as (_ & -> & _); destruct Shu as (_ & -> & _); reflexivity). cbn [negb].
    rewrite (shape_same i q) by (destruct Shq as (_ & -> & _); destruct Shi as (_ & -> & _); reflexivity). cbn [negb]. cbv zeta. rewrite EG. cbn [pybind]. rewrite ED. cbn [pybind]. fold n. rewrite EW. cbn [pybind].
    change (map (fun f => (c_light / f) ^ 2) freq) with (map lsq freq). rewrite Er, Ei0. cbn [pybind]. destruct (imul (FDFcube r) i0); reflexivity. }
  exists phi, h, (fst dp). split; [exact G3|]. split.
  - intros X. rewrite RUN. replace (imul (FDFcube r) i0) with (@PErr (nd (option C))); [reflexivity|]. symmetry. unfold imul. rewrite Si0, Sr, EL.
    destruct (Nat.eqb_spec (len naxis y) 1) as [E|E]; [reflexivity|]. destruct X as [X|X]; [contradiction|]. unfold fits_in. cbn [List.length map Nat.leb Nat.sub skipn combine forallb fst snd andb].
    destruct (Nat.eqb_spec (len naxis y) 1); [contradiction|]. destruct (Nat.eqb_spec (len naxis y) (List.length phi)); [contradiction|]. reflexivity.
  - intros LY FIN. assert (Y1 : (len naxis y =? 1)%nat = false) by (apply Nat.eqb_neq; lia). rewrite Y1 in EL.
    assert (EM : exists F, imul (FDFcube r) i0 = POk F /\ wf_nd F /\ shape F = shape (FDFcube r) /\ forall a b, (a < List.length phi)%nat -> (b < len naxis y)%nat ->
      at_nd None F [a; b] = match at_nd None (FDFcube r) [a; b], at_nd None i0 [a; 0%nat] with Some z, Some t => Some (z * RtoC t)%C | _, _ => None end).
    { unfold imul. rewrite Si0, Sr, EL. unfold fits_in. cbn [List.length map Nat.leb Nat.sub skipn combine forallb fst snd andb]. rewrite Y1, LY, Nat.eqb_refl, LX. cbn [orb andb Nat.eqb].
      eexists. split; [reflexivity|]. split; [apply wf_tab_nd|]. split; [reflexivity|]. intros a b Ha Hb. rewrite at_tab_nd by (repeat constructor; lia).
      unfold bc_index. cbn [List.length Nat.sub skipn combine map fst snd]. rewrite <- LY, Y1. reflexivity. }
    destruct EM as (F & EF & WF & SF & VF). rewrite RUN, EF. cbn [pybind].
    assert (I0S : forall a, (a < List.length phi)%nat -> exists v, at_nd None i0 [a; 0%nat] = Some v /\ forall p, in_image naxis p -> ref_stokes3 freq (synth_lam0 r) (Some f) k (fun b => if (b =? y)%nat then a else p b) (Some v)).
    { intros a Ha.
      assert (In y (kept naxis k) /\ In x (kept naxis k)) as [Iy Ix] by (rewrite EK; cbn; auto). apply (kept_in naxis k Hk) in Iy, Ix. destruct Iy as [Iy1 Iy2], Ix as [Ix1 Ix2].
      assert (CV : forall p j, in_image naxis p -> (j < n)%nat -> at_nd None i [j; a; 0%nat] = vox None f (at_chan (fun b => if (b =? y)%nat then a else p b) k j)).
      { intros p j Hpp Hj. destruct Shi as (_ & _ & Vi). rewrite <- Vi.
        - rewrite EK. cbn [map]. unfold at_chan. rewrite !Nat.eqb_refl. destruct (Nat.eqb_spec y k); [contradiction|]. destruct (Nat.eqb_spec x k); [contradiction|].
          destruct (Nat.eqb_spec x y) as [E|_]; [exfalso; rewrite E in LX; rewrite LX in Y1; discriminate|]. do 2 f_equal. f_equal. f_equal. specialize (Hpp x Ix1). lia.
        - intros b Hb. unfold at_chan. destruct (Nat.eqb_spec b k) as [->|]; [lia|]. destruct (Nat.eqb_spec b y) as [->|]; [lia|]. now apply Hpp. }
      pose proof (Vi0 a 0%nat ltac:(lia) ltac:(lia)) as RV.
      assert (SOME : forall j, (j < n)%nat -> exists v, at_nd None i [j; a; 0%nat] = Some v).
      { intros j Hj. set (p0 := fun _ : nat => 0%nat). assert (P0 : in_image naxis p0) by (intros b Hb; apply Hp, Hb). specialize (CV p0 j P0 Hj).
        destruct (at_nd None i [j; a; 0%nat]) as [v|]; [eauto|]. exfalso. symmetry in CV. revert CV. apply FIN. intros b Hb. unfold at_chan. destruct (Nat.eqb_spec b k) as [->|]; [fold naxis; lia|].
        destruct (Nat.eqb_spec b y) as [->|]; [fold naxis; lia|]. now apply P0. }
      assert (VS : exists v, at_nd None i0 [a; 0%nat] = Some v).
      { destruct RV as [(j & Hj & _ & E)|(j & Hj & _ & E)]; fold n in Hj; rewrite E; [apply SOME; exact Hj|]. destruct (SOME j ltac:(lia)) as (v1 & ->). destruct (SOME (S j) Hj) as (v2 & ->). eauto. }
      destruct VS as (v & Ev). rewrite Ev in RV. exists v. split; [exact Ev|]. intros p Hpp. exists (freq0_3D freq (Some (synth_lam0 r))). split; [exact R1|].
      eapply ref_value_ext; [|exact RV]. intros j Hj. cbn beta. now apply CV. }
    destruct (write_file Q k F phi h (fst dp) (Some (synth_lam0 r)) (long_axes naxis (os naxis k)) WQ SQ CT OC Hh (or_intror eq_refl) WF ltac:(rewrite SF; exact Sr)) as (ff & Eff & E0 & AX & AG & VFF).
    assert (Nff : i_naxis (f_image ff) = with_len naxis k (List.length phi)) by apply AX. cbn [lamsq0_key] in E0.
    assert (CELL : forall p j, in_image (with_len naxis k (List.length phi)) p -> (j < List.length phi)%nat -> exists v,
      (forall p', in_image naxis p' -> ref_stokes3 freq (synth_lam0 r) (Some f) k (fun b => if (b =? y)%nat then j else p' b) (Some v)) /\
      vox None (f_image ff) (at_chan p k j) = option_map (fun z => z * RtoC v)%C (at2 (m naxis k) None (flat (FDFcube r)) j (sky naxis k (at_chan p k 0)))).
    { intros p j Hpp Hj. destruct (I0S j Hj) as (v & Ev & Rv). exists v. split; [exact Rv|].
      assert (H00 : in_image naxis (at_chan p k 0)) by (eapply (chan_in Q U None k freq rms o GF' GR GO (List.length phi)); [lia|exact Hpp]).
      assert (In y (kept naxis k)) as Iy by (rewrite EK; cbn; auto). apply (kept_in naxis k Hk) in Iy. destruct Iy as [Iy1 Iy2].
      rewrite VFF by (rewrite Nff; now apply chan_with). rewrite EL. cbn [map]. unfold at_chan at 1. rewrite Nat.eqb_refl. unfold at_chan at 1. destruct (Nat.eqb_spec y k); [contradiction|].
      rewrite VF; [|exact Hj|]. 2:{ specialize (Hpp y). rewrite length_with_len, len_with_len in Hpp by exact Iy1. destruct (Nat.eqb_spec y k); [contradiction|]. now apply Hpp. }
      rewrite Ev. pose proof (squeezed_cell naxis k Hk None (FDFcube r) (List.length phi) _ H00 Wr Sr j) as SC. rewrite EL in SC. cbn [map] in SC. unfold at_chan at 1 in SC.
      destruct (Nat.eqb_spec y k); [contradiction|]. rewrite SC. destruct (at2 _ _ _ _ _); reflexivity. }
    assert (ALLN : forall p, in_image (i_naxis (f_image ff)) p ->
      (forall j, (j < List.length phi)%nat -> vox None (f_image ff) (at_chan p k j) = None) \/ (forall j, (j < List.length phi)%nat -> vox None (f_image ff) (at_chan p k j) <> None)).
    { intros p Hpp. rewrite Nff in Hpp.
      assert (H00 : in_image naxis (at_chan p k 0)) by (eapply (chan_in Q U None k freq rms o GF' GR GO (List.length phi)); [lia|exact Hpp]).
      set (chs := sky_chans Q U (Some f) k freq w (at_chan p k 0)).
      assert (BL : (wsum chs = 0 \/ forall t, In t phi -> FDF_spec chs (synth_lam0 r) t = RtoC 0) \/ (wsum chs <> 0 /\ ~ forall t, In t phi -> FDF_spec chs (synth_lam0 r) t = RtoC 0)).
      { destruct (Req_EM_T (wsum chs) 0); [auto|]. destruct (all_zero_or_not (FDF_spec chs (synth_lam0 r)) phi) as [|(t & It & Nt)]; [auto|right]. split; [assumption|]. intros X. apply Nt. now apply X. }
      destruct BL as [BL|[BL1 BL2]]; [left|right]; intros j Hj; destruct (CELL p j Hpp Hj) as (v & _ & ->); destruct (HC (at_chan p k 0) j H00 Hj) as [C1 C2]; fold chs in C1, C2.
      - destruct BL as [Z|Z]; [rewrite C1 by exact Z; reflexivity|]. destruct (Req_EM_T (wsum chs) 0) as [Y|Y]; [rewrite C1 by exact Y; reflexivity|]. destruct (C2 Y) as [C3 _]. rewrite (proj2 C3 Z). reflexivity.
      - destruct (C2 BL1) as [C3 _]. destruct (at2 _ _ _ _ _); [discriminate|]. exfalso. apply BL2. now apply C3. }
    assert (PN : phi <> []) by (intros Z; rewrite Z in LP; cbn in LP; lia).
    destruct (write_peaks Q k ff phi WQ SQ AX PN ALLN) as (mx & rm & EP & HP).
    assert (FIN2 : exists out, pybind (if g_not_rmsf o then POk (OnlyFDF F phi (synth_lam0 r) (map lsq freq))
      else match get_rmsf_planes (fit (g_super o)) (map lsq freq) phi (Some wA) (Some (mk_nd (shape q) (map is_none (flat q)))) (Some (synth_lam0 r)) true (g_fitRMSF o || g_super o) with
           | RetOk s0 => POk (Both F phi (RMSFcube s0) (phi2Arr s0) (fwhmRMSFArr s0) (statArr s0) (rmsf_lam0 s0) (map lsq freq)) | _ => PErr end)
      (fun d => writefits_3D naxis (i_ctype Q) d) = POk out /\ o_fdf out = Some ff).
    { destruct (g_not_rmsf o).
      - cbn [pybind]. unfold writefits_3D. fold naxis in Eff. rewrite Eff. cbn [pybind]. fold naxis in EP. rewrite EP. cbn [pybind]. eexists. split; reflexivity.
      - destruct (rmsf_files Q U None k freq rms o GF' GR GO fit q wA phi h (fst dp) (Some (synth_lam0 r)) Lw Ew Shq OC Hh) as (sr & g & phi2 & Es & Eg & E2 & O2 & L0 & LR & _).
        rewrite Es. cbn [pybind]. unfold writefits_3D. fold naxis in Eff, EP, Eg. rewrite LR in Eg. rewrite LR, Eff. cbn [pybind]. rewrite Eg. cbn [pybind]. rewrite EP. cbn [pybind]. eexists. split; reflexivity. }
    destruct FIN2 as (out & EO & EFo). exists out, ff. split; [exact EO|]. split; [exact EFo|]. cbv zeta. rewrite E0. intros p Hpp Z NZ. rewrite Nff in Hpp.
    pose proof (coord_lt Q U None k freq rms o GF' GR GO _ _ Hpp) as Hpk. destruct (CELL p (p k) Hpp Hpk) as (v & Rv & Ev).
    assert (H00 : in_image naxis (at_chan p k 0)) by (eapply (chan_in Q U None k freq rms o GF' GR GO (List.length phi)); [lia|exact Hpp]).
    exists (Some v). split.
    { specialize (Rv _ H00). cbn in Rv |- *. destruct Rv as (f0 & A & B). exists f0. split; [exact A|]. eapply ref_value_ext; [|exact B]. intros j _. cbn beta. apply vox_ext. intros b. unfold at_chan.
      destruct (Nat.eqb_spec b k); [reflexivity|]. destruct (b =? y)%nat; reflexivity. }
    assert (EV : vox None (f_image ff) p = vox None (f_image ff) (at_chan p k (p k))) by (apply vox_ext; intros b; now rewrite at_chan_id). rewrite EV, Ev.
    destruct (HC (at_chan p k 0) (p k) H00 Hpk) as [_ C2]. rewrite sky_chans_chan in C2. fold w in Z, NZ. destruct (C2 Z) as [C3 C4].
    destruct (at2 _ _ _ _ _) as [z|]; [|exfalso; destruct NZ as (t & It & Nt); apply Nt; now apply C3]. cbn [option_map]. rewrite (C4 z eq_refl). f_equal. fold w. ring.
Qed.

(** Four or more axes, fewer than two sky axes longer than one, and Stokes I. *)
Theorem few_axes : forall Q U f k freq rms o, good_files Q U None k freq -> good_rms o rms (List.length freq) -> good_opts3 o freq -> g_not_rmsynth o = false ->
  wf_image f -> i_naxis f = i_naxis Q -> spectral_axis (s "FREQ") (i_ctype f) k -> (List.length (sky_axes (i_naxis Q) k) < 2)%nat ->
  forall fit, rmsynth3d fit Q U (Some f) freq rms o = PErr.
Proof.
  intros Q U f k freq rms o GF GR GO NS Wf Nf Sf SK fit.
  destruct (files_facts Q U None k freq rms o GF GR GO) as (Hk & Hl & Hn & Hp & Hs).
  set (naxis := i_naxis Q) in *. set (n := List.length freq) in *.
  destruct GF as (WQ & WU & EU & SQ & SU & CT & _ & _ & _ & Hf & H2 & _).
  destruct (read_shows naxis k n Hk Hl Hn Hs None Q WQ eq_refl SQ) as (q & Eq & Shq).
  destruct (read_shows naxis k n Hk Hl Hn Hs None U WU EU SU) as (u & Eu & Shu).
  destruct (read_shows naxis k n Hk Hl Hn Hs None f Wf Nf Sf) as (i & Ei & Shi).
  unfold rmsynth3d. rewrite Ei, Eq, Eu. cbn [pybind]. replace (run_rmsynth_3D fit q u freq (Some i) rms o) with (@PErr data3); [reflexivity|]. symmetry.
  unfold run_rmsynth_3D. rewrite NS. cbn [andb].
  rewrite (shape_same q u) by (destruct Shq as (_ & -> & _); destruct Shu as (_ & -> & _); reflexivity). cbn [negb].
  rewrite (shape_same i q) by (destruct Shq as (_ & -> & _); destruct Shi as (_ & -> & _); reflexivity). cbn [negb]. cbv zeta.
  destruct (grid_params _ _ _ _ _) as [dp|]; [|reflexivity]. cbn [pybind]. destruct (depth_grid_3D _ _) as [phi|]; [|reflexivity]. cbn [pybind].
  destruct (match rms with Some _ => _ | None => _ end) as [wA|]; [|reflexivity]. cbn [pybind]. destruct (do_rmsynth_planes _ _ _ _ _ _) as [r|]; [|reflexivity].
  replace (Ifreq0Arr freq i (freq0_3D freq (Some (synth_lam0 r)))) with (@PErr (nd (option R))); [reflexivity|]. symmetry.
  assert (PL : forall z, plane i z = PErr).
  { intros z. destruct Shi as (_ & Si & _). unfold plane. rewrite Si. unfold kept. assert (List.length (rev (sky_axes naxis k)) < 2)%nat by (rewrite rev_length; exact SK).
    destruct (rev (sky_axes naxis k)) as [|a [|b l]]; cbn [map]; [reflexivity|reflexivity|cbn in H; lia]. }
  unfold Ifreq0Arr. destruct (argmin _) as [ix|]; [|reflexivity]. cbv zeta. rewrite !PL. cbn [pybind]. destruct (Rlt_dec _ _); [reflexivity|]. destruct (Rlt_dec _ _); reflexivity.
Qed.
