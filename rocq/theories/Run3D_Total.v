(** The 3-D tool from the images to the files. *)
From Coq Require Import Reals List Arith ZArith Bool Ascii String Lra Lia.
Set Warnings "-ambiguous-paths".
From Coquelicot Require Import Coquelicot.
From Verif Require Import CBase PyRes PyStr PyStr_Proofs PyList PyList_Proofs NdArray NdIndex Synth_Model Synth_Spec Synth_Proofs Rmsf_Proofs CleanTop_Model StokesI_Model
  Setup_Model Setup_Spec Setup_Proofs Cube_Model Cube_Spec Cube_Proofs Cube_Laws Peak_Proofs Measure_Model Clean_Grid Run1D_Model Run1D_Spec Run1D_Proofs Run1D_Laws Run1D_Total
  Pixfit_Model Pixfit_Spec Pixfit_Proofs Pixfit_Laws Run3D_Model Run3D_Spec Run3D_Proofs Run3D_Laws.
Import ListNotations.
Local Open Scope R_scope.

Lemma vox_ext : forall {A} (d : A) (f : image A) p p', (forall a, p a = p' a) -> vox d f p = vox d f p'.
Proof. intros A d f p p' H. unfold vox. f_equal. apply map_ext. exact H. Qed.
Lemma at_chan_twice : forall p k i j a, at_chan (at_chan p k i) k j a = at_chan p k j a.
Proof. intros. unfold at_chan. destruct (a =? k)%nat; reflexivity. Qed.
Lemma at_chan_id : forall p k a, at_chan p k (p k) a = p a.
Proof. intros. unfold at_chan. destruct (Nat.eqb_spec a k); subst; reflexivity. Qed.
Lemma frac_ext : forall Q U I p p', (forall a, p a = p' a) -> frac_vox Q U I p = frac_vox Q U I p'.
Proof. intros Q U [f|] p p' H; unfold frac_vox, stokes_vox; rewrite (vox_ext None Q p p' H), (vox_ext None U p p' H), ?(vox_ext None f p p' H); reflexivity. Qed.
Lemma sky_chans_chan : forall Q U I k freq w p i, sky_chans Q U I k freq w (at_chan p k i) = sky_chans Q U I k freq w p.
Proof.
  intros. unfold sky_chans. rewrite !flat_map_concat_map. f_equal. apply map_ext. intros j. rewrite (frac_ext Q U I _ (at_chan p k j)); [reflexivity|]. intros a. apply at_chan_twice.
Qed.
Lemma sky_q_chans_chan : forall Q k freq w p i, sky_q_chans Q k freq w (at_chan p k i) = sky_q_chans Q k freq w p.
Proof.
  intros. unfold sky_q_chans. rewrite !flat_map_concat_map. f_equal. apply map_ext. intros j. rewrite (vox_ext None Q _ (at_chan p k j)); [reflexivity|]. intros a. apply at_chan_twice.
Qed.
Lemma ref_value_ext : forall freq f0 g g' v, (forall j, (j < List.length freq)%nat -> g j = g' j) -> ref_value freq f0 g v -> ref_value freq f0 g' v.
Proof. intros freq f0 g g' v E [(j & Hj & A & B)|(j & Hj & A & B)]; [left|right]; exists j; rewrite <- !E by lia; auto. Qed.
Lemma ref_stokes_chan : forall freq l0 I k p i v, ref_stokes3 freq l0 I k (at_chan p k i) v <-> ref_stokes3 freq l0 I k p v.
Proof.
  intros freq l0 [f|] k p i v; [|reflexivity]. cbn. split; intros (f0 & A & B); exists f0; (split; [exact A|]);
    (eapply ref_value_ext; [|exact B]); intros j _; cbn beta; apply vox_ext; intros a; rewrite at_chan_twice; reflexivity.
Qed.

(** ** Writing *)
Lemma write_file : forall (Q : image (option R)) k (cube : nd (option C)) phi h step lam0 K,
  wf_image Q -> spectral_axis (s "FREQ") (i_ctype Q) k ->
  (forall a, (1 <= a <= List.length (i_naxis Q))%nat -> a <> k -> nth (a - 1) (i_ctype Q) None <> None) ->
  odd_centred phi h step -> (1 <= h)%nat -> K = os (i_naxis Q) k \/ K = long_axes (i_naxis Q) (os (i_naxis Q) k) ->
  wf_nd cube -> shape cube = List.length phi :: map (len (i_naxis Q)) K ->
  exists f, cube_to_file (i_naxis Q) (i_ctype Q) cube phi lam0 = POk f /\ f_lamsq0 f = lamsq0_key lam0 /\
    axes_like (f_image f) Q k (List.length phi) /\ axis_gives (f_axis f) phi /\
    forall p, in_image (i_naxis (f_image f)) p -> vox None (f_image f) p = at_nd None cube (p k :: map p K).
Proof.
  intros Q k cube phi h step lam0 K (WQ1 & WQ2 & WQ3) Hs Hc [L V] Hh HK W S.
  destruct (write_cube None (i_naxis Q) (i_ctype Q) k cube (List.length phi) K WQ3 Hs Hc HK W S) as (im & E & Wi & Ni & Ci & Vi).
  unfold cube_to_file, write_depth_axis. destruct (np_diff_head phi ltac:(lia)) as [t ->]. cbn [pybind]. rewrite E. cbn [pybind].
  eexists. split; [reflexivity|]. cbn [f_lamsq0 f_image f_axis]. split; [reflexivity|]. split; [|split].
  - split; [exact Wi|]. split; [exact Ni|]. destruct Hs as (Hk & _). rewrite WQ3 in Hk. split.
    + rewrite Ci by exact Hk. rewrite Nat.eqb_refl. reflexivity.
    + intros a Ha Hn. rewrite Ci by exact Ha. destruct (Nat.eqb_spec a k); [contradiction|reflexivity].
  - split; [reflexivity|]. intros j Hj. unfold world. cbn [CRVAL CRPIX CDELT].
    assert (E2 : (List.length phi / 2 = h)%nat) by (rewrite L; symmetry; apply (Nat.div_unique _ _ _ 1); lia). rewrite E2, !V by lia. rewrite S_INR, plus_INR. cbn [INR]. ring.
  - exact Vi.
Qed.

Lemma find_freq : forall (Q : image (option R)) k, wf_image Q -> spectral_axis (s "FREQ") (i_ctype Q) k -> find_axis (s "FREQ") (List.length (i_naxis Q)) (i_ctype Q) = k.
Proof. intros Q k (_ & _ & W) Hs. rewrite <- W. apply (find_axis_spec _ _ _ caps_FREQ Hs). Qed.

Lemma write_peaks : forall (Q : image (option R)) k f phi, wf_image Q -> spectral_axis (s "FREQ") (i_ctype Q) k ->
  axes_like (f_image f) Q k (List.length phi) -> phi <> [] ->
  (forall p, in_image (i_naxis (f_image f)) p ->
     (forall j, (j < List.length phi)%nat -> vox None (f_image f) (at_chan p k j) = None) \/
     (forall j, (j < List.length phi)%nat -> vox None (f_image f) (at_chan p k j) <> None)) ->
  exists mx rm, peak_files (i_naxis Q) (i_ctype Q) f phi = POk (mx, rm) /\ holds_peaks (f_image f) k phi mx rm.
Proof.
  intros Q k f phi WQ Hs ((Wi1 & Wi2 & Wi3) & Ni & _) Hp Col. unfold peak_files. cbv zeta. rewrite (find_freq Q k WQ Hs).
  assert (Hk : (1 <= k <= List.length (i_naxis Q))%nat) by (destruct Hs as (H & _); destruct WQ as (_ & _ & W); lia).
  set (F := f_image f) in *. set (N := List.length (i_naxis Q)) in *. set (sk := rev (others k N)).
  assert (LN : List.length (i_naxis F) = N) by (rewrite Ni; apply length_with_len).
  assert (Lo : List.length sk = (N - 1)%nat) by (unfold sk; rewrite rev_length; apply length_others; exact Hk).
  assert (SF : shape (i_data F) = insert_at (N - k) (List.length phi) (map (len (i_naxis Q)) sk)) by (rewrite Wi1, Ni; apply rev_with_len; exact Hk).
  assert (SD : delete_at (N - k) (shape (i_data F)) = map (len (i_naxis Q)) sk).
  { rewrite SF. apply delete_insert. rewrite map_length. lia. }
  assert (AT : forall p j, at_nd None (i_data F) (insert_at (N - k) j (map p sk)) = vox None F (at_chan p k j)).
  { intros p j. unfold vox. rewrite LN. f_equal. rewrite (rev_axes k N Hk), map_insert_at. unfold at_chan at 1. rewrite Nat.eqb_refl. f_equal.
    symmetry. apply at_chan_kept. intros Hi. unfold sk in Hi. apply in_rev in Hi. apply in_others in Hi. tauto. }
  assert (PT : forall idx, valid (map (len (i_naxis Q)) sk) idx -> exists p, in_image (i_naxis F) p /\ map p sk = idx).
  { intros idx Vx. destruct (point_with sk idx) as (p & Ep & Zp).
    - unfold sk. apply NoDup_rev, nodup_others.
    - rewrite (valid_length _ _ Vx), map_length. reflexivity.
    - exists p. split; [|exact Ep]. intros a Ha. rewrite LN in Ha. rewrite Ni, len_with_len by exact Ha. destruct (Nat.eqb_spec a k) as [->|Hne].
      + rewrite Zp; [destruct phi; [now destruct Hp|cbn; lia]|]. intros Hi. unfold sk in Hi. apply in_rev in Hi. apply in_others in Hi. tauto.
      + assert (Ia : In a sk) by (unfold sk; apply in_rev; rewrite rev_involutive; unfold others; apply filter_In; split; [apply in_seq; lia|apply Nat.eqb_neq in Hne; now rewrite Hne]). rewrite <- Ep in Vx. clear -Vx Ia.
        induction sk as [|x l IH]; [destruct Ia|]. cbn in Vx. apply valid_cons in Vx. destruct Vx as [V1 V2]. destruct Ia as [->|Ia]; auto. }
  destruct (peak_maps_spec (i_data F) phi (N - k)) as (mx & rm & E & S1 & S2 & W1 & W2 & H).
  - rewrite SF, length_insert_at; rewrite map_length; lia.
  - rewrite SF. unfold insert_at. rewrite app_nth2; rewrite firstn_length, map_length, Lo; [|lia]. replace (N - k - Nat.min (N - k) (N - 1))%nat with 0%nat by lia. reflexivity.
  - exact Hp.
  - intros idx Vx. rewrite SD in Vx. destruct (PT idx Vx) as (p & Hpp & <-). destruct (Col p Hpp) as [C|C]; [left|right]; intros j Hj; rewrite AT; auto.
  - rewrite E. cbn [pybind]. eexists _, _. split; [reflexivity|]. intros p Hpp. rewrite LN. fold sk. cbv zeta. cbn [fst snd].
    assert (FR : forall (a : nd (option R)) idx, at_nd None (mk_nd (1%nat :: shape a) (flat a)) (0%nat :: idx) = at_nd None a idx) by (intros a idx; unfold at_nd; cbn [shape flat ravel]; f_equal).
    rewrite !FR. assert (Vx : valid (delete_at (N - k) (shape (i_data F))) (map p sk)).
    { rewrite SD. apply valid_map. intros a Ia. unfold sk in Ia. apply in_rev in Ia. apply in_others in Ia. specialize (Hpp a). rewrite LN, Ni, len_with_len in Hpp by apply Ia.
      destruct (Nat.eqb_spec a k); [tauto|]. apply Hpp, Ia. }
    specialize (H _ Vx). cbv zeta in H. destruct H as [H1 H2]. destruct (Col p Hpp) as [C|C].
    + left. split; [exact C|]. apply H1. intros j Hj. rewrite AT. auto.
    + right. destruct H2 as (i & z & Hi & Ez & M1 & M2 & M3 & M4); [intros j Hj; rewrite AT; auto|]. rewrite AT in Ez. exists i, z. repeat (split; [assumption|]).
      intros j Hj. destruct (vox None F (at_chan p k j)) as [y|] eqn:Ey; [|now destruct (C j Hj)]. exists y. split; [reflexivity|]. split.
      * apply (M3 j); [exact Hj|]. rewrite AT. exact Ey.
      * intros Hji. apply (M4 j); [exact Hji|]. rewrite AT. exact Ey.
Qed.

(** ** Spectra *)
Definition column (phi : list R) (l0 : R) (chs : list chan) (i0 : option R) (cell : nat -> option C) : Prop :=
  ((i0 = None \/ wsum chs = 0 \/ (forall f, In f phi -> FDF_spec chs l0 f = RtoC 0)) -> forall j, (j < List.length phi)%nat -> cell j = None) /\
  (forall i, i0 = Some i -> wsum chs <> 0 -> (exists f, In f phi /\ FDF_spec chs l0 f <> RtoC 0) ->
     forall j, (j < List.length phi)%nat -> cell j = Some (RtoC i * FDF_spec chs l0 (nth j phi 0))%C).

Lemma all_zero_or_not : forall (g : R -> C) phi, (forall f, In f phi -> g f = RtoC 0) \/ exists f, In f phi /\ g f <> RtoC 0.
Proof.
  intros g phi. induction phi as [|a l IH]; [left; intros f []|]. destruct (Ceq_dec (g a) (RtoC 0)) as [E|E]; [|right; exists a; split; [now left|exact E]].
  destruct IH as [IH|(f & If & Nf)]; [left; intros f [<-|If]; auto|right; exists f; split; [now right|exact Nf]].
Qed.

Lemma column_all : forall phi l0 chs i0 cell, column phi l0 chs i0 cell ->
  (forall j, (j < List.length phi)%nat -> cell j = None) \/ (forall j, (j < List.length phi)%nat -> cell j <> None).
Proof.
  intros phi l0 chs i0 cell [A B]. destruct i0 as [i|]; [|left; apply A; now left].
  destruct (Req_EM_T (wsum chs) 0) as [Z|Z]; [left; apply A; auto|]. destruct (all_zero_or_not (FDF_spec chs l0) phi) as [E|E]; [left; apply A; auto|].
  right. intros j Hj. rewrite (B i eq_refl Z E j Hj). discriminate.
Qed.

(** the grid of a run *)
Definition grid_of (o : opts3) (freq phi : list R) : Prop :=
  exists dp, grid_params (map (fun f => (c_light / f) ^ 2) freq) (g_super o) (g_dPhi o) (g_phiMax o) (g_nSamples o) = POk dp /\ depth_grid_3D (snd dp) (fst dp) = POk phi.
Lemma grid_of_fun : forall o freq phi phi', grid_of o freq phi -> grid_of o freq phi' -> phi = phi'.
Proof. intros o freq phi phi' (dp & A & B) (dp' & A' & B'). rewrite A in A'. injection A' as <-. rewrite B in B'. now injection B' as <-. Qed.

Section Run3.
  Variables (Q U : image (option R)) (I : option (image (option R))) (k : nat) (freq : list R) (rms : option (list (option R))) (o : opts3).
  Hypothesis GF : good_files Q U I k freq.
  Hypothesis GR : good_rms o rms (List.length freq).
  Hypothesis GO : good_opts3 o freq.

  Let naxis := i_naxis Q.
  Let n := List.length freq.
  Let w := weight3 o rms.

  Lemma files_facts : (1 <= k <= List.length naxis)%nat /\ len naxis k = n /\ (2 <= n)%nat /\ (forall a, (1 <= a <= List.length naxis)%nat -> (0 < len naxis a)%nat) /\
    (List.length (sky_axes naxis k) <= 2)%nat.
  Proof.
    destruct GF as (WQ & WU & EU & SQ & SU & CT & LK & LS & P0 & Hf & (f & g & If & Ig & Ne) & _).
    split; [destruct SQ as (H & _); destruct WQ as (_ & _ & E); unfold naxis; lia|]. split; [exact LK|]. split; [|split; [exact P0|exact LS]].
    unfold n. destruct freq as [|a [|b t]]; [destruct If| |cbn; lia]. destruct If as [<-|[]], Ig as [<-|[]]. now destruct Ne.
  Qed.

  Lemma read_all : exists dataI q u,
    (match I with None => POk None | Some f => pybind (readFitsCube None f) (fun a => POk (Some a)) end) = POk dataI /\
    readFitsCube None Q = POk q /\ readFitsCube None U = POk u /\
    shows naxis k n None q (vox None Q) /\ shows naxis k n None u (vox None U) /\
    match I, dataI with None, None => True | Some f, Some i => shows naxis k n None i (vox None f) | _, _ => False end.
  Proof.
    destruct files_facts as (Hk & Hl & Hn & Hp & Hs). destruct GF as (WQ & WU & EU & SQ & SU & _ & _ & _ & _ & _ & _ & GI).
    destruct (read_shows naxis k n Hk Hl Hn Hs None Q WQ eq_refl SQ) as (q & Eq & Shq).
    destruct (read_shows naxis k n Hk Hl Hn Hs None U WU EU SU) as (u & Eu & Shu).
    destruct I as [f|].
    - destruct GI as (WI & EI & SI & _). destruct (read_shows naxis k n Hk Hl Hn Hs None f WI EI SI) as (i & Ei & Shi).
      exists (Some i), q, u. rewrite Ei. cbn [pybind]. auto 6.
    - exists None, q, u. auto 6.
  Qed.

  Lemma fdf_core : forall wA dataI q u phi, List.length wA = n -> (forall j, (j < n)%nat -> nth j (weights_of n (Some wA)) 0 = w j) ->
    shows naxis k n None q (vox None Q) -> shows naxis k n None u (vox None U) ->
    match I, dataI with None, None => True | Some f, Some i => shows naxis k n None i (vox None f) | _, _ => False end ->
    antisym phi -> (2 <= List.length phi)%nat ->
    exists r F, do_rmsynth_planes (match dataI with Some i => odiv_nd q i | None => q end) (match dataI with Some i => odiv_nd u i | None => u end)
        (map lsq freq) phi (Some wA) (if g_super o then Some 0 else None) = Some r /\
      reference3 o Q U I k freq w (synth_lam0 r) /\
      (match dataI with None => POk (FDFcube r) | Some i => pybind (Ifreq0Arr freq i (freq0_3D freq (Some (synth_lam0 r)))) (fun i0 => imul (FDFcube r) i0) end) = POk F /\
      wf_nd F /\ shape F = List.length phi :: map (len naxis) (long_axes naxis (os naxis k)) /\
      forall p, in_image naxis p -> exists i0, ref_stokes3 freq (synth_lam0 r) I k p i0 /\
        column phi (synth_lam0 r) (sky_chans Q U I k freq w p) i0 (fun j => at2 (m naxis k) None (flat F) j (sky naxis k p)).
  Proof.
    intros wA dataI q u phi Lw Ew Shq Shu Shi AS L2. destruct files_facts as (Hk & Hl & Hn & Hp & Hs).
    destruct GF as (WQ & WU & EU & SQ & SU & CT & _ & _ & _ & Hf & _ & GI).
    assert (Nf : freq <> []) by (unfold n in Hn; destruct freq; [cbn in Hn; lia|discriminate]).
    assert (DIV : exists vq vu, shows naxis k n None (match dataI with Some i => odiv_nd q i | None => q end) vq /\
       shows naxis k n None (match dataI with Some i => odiv_nd u i | None => u end) vu /\
       forall p, frac_vox Q U I p = match vq p, vu p with Some a, Some b => Some (a, b) | _, _ => None end).
    { destruct I as [f|], dataI as [i|]; [|destruct Shi|destruct Shi|].
      - exists (fun p => odiv (vox None Q p) (vox None f p)), (fun p => odiv (vox None U p) (vox None f p)).
        split; [apply (odiv_shows naxis k n Hk Hl Hn Hs); [exact Shq|exact Shi]|]. split; [apply (odiv_shows naxis k n Hk Hl Hn Hs); [exact Shu|exact Shi]|]. intros p. unfold frac_vox, stokes_vox, odiv.
        destruct (vox None Q p), (vox None U p), (vox None f p) as [d|]; try reflexivity; destruct (Req_EM_T d 0); reflexivity.
      - exists (vox None Q), (vox None U). split; [exact Shq|]. split; [exact Shu|]. intros p. unfold frac_vox, stokes_vox.
        destruct (vox None Q p), (vox None U p); try reflexivity. destruct (Req_EM_T 1 0); [lra|]. f_equal. f_equal; field. }
    destruct DIV as (vq & vu & Sq & Su & HF).
    destruct (synth_cells naxis k n Hk Hl Hn Hp Hs Q U I freq w wA _ _ vq vu phi (if g_super o then Some 0 else None) eq_refl Lw Ew Sq Su HF AS L2) as (r & Er & Wr & Sr & H0 & HC).
    assert (RF : reference3 o Q U I k freq w (synth_lam0 r)) by (unfold reference3; destruct (g_super o); exact H0).
    assert (CC : forall p i0 cell, in_image naxis p -> (forall j, (j < List.length phi)%nat -> cell j = match at2 (m naxis k) None (flat (FDFcube r)) j (sky naxis k p), i0 with Some z, Some i => Some (z * RtoC i)%C | _, _ => None end) ->
      column phi (synth_lam0 r) (sky_chans Q U I k freq w p) i0 cell).
    { intros p i0 cell Hpp Hcell. split.
      - intros A j Hj. rewrite Hcell by exact Hj. destruct A as [->|A]; [destruct (at2 _ _ _ _ _); reflexivity|]. destruct (HC p j Hpp Hj) as [C1 C2].
        replace (at2 (m naxis k) None (flat (FDFcube r)) j (sky naxis k p)) with (@None C); [reflexivity|]. symmetry.
        destruct A as [A|A]; [apply C1; exact A|]. destruct (Req_EM_T (wsum (sky_chans Q U I k freq w p)) 0) as [Z|Z]; [apply C1; exact Z|]. apply C2; auto.
      - intros i -> Z (f & If & Nf2) j Hj. rewrite Hcell by exact Hj. destruct (HC p j Hpp Hj) as [_ C2]. destruct (C2 Z) as [C3 C4].
        destruct (at2 (m naxis k) None (flat (FDFcube r)) j (sky naxis k p)) as [z|]; [|destruct Nf2; apply C3; auto]. rewrite (C4 z eq_refl). f_equal. ring. }
    exists r. destruct I as [f|], dataI as [i|]; [|destruct Shi|destruct Shi|].
    - destruct GI as (WI & EI & SI & ASC & x & y & ES & NX). destruct Shi as (_ & Si & Vi).
      assert (EK : kept naxis k = [y; x]) by (unfold kept, naxis; rewrite ES; reflexivity).
      assert (RANGE : synth_lam0 r = 0 \/ (0 < synth_lam0 r /\ forall lo hi, (forall f, In f freq -> lo <= f <= hi) -> 0 < lo -> lsq hi <= synth_lam0 r <= lsq lo)).
      { unfold reference3 in RF. destruct (g_super o); [left; exact RF|]. refine (mean_over_range _ freq w _ Hf _ RF). intros j. now apply (weight3_nonneg o rms n). }
      destruct (freq0_range freq (synth_lam0 r) Hf Nf ASC RANGE) as (R1 & R2 & R3). cbv zeta in R1, R2, R3.
      destruct (Ifreq0_ok freq i (freq0_3D freq (Some (synth_lam0 r))) (len naxis y) (len naxis x) Hf Nf ASC) as (i0 & Ei & Si0 & Vi0); auto.
      { rewrite Si, EK. reflexivity. }
      destruct (imul_ok naxis k x y (FDFcube r) i0 (List.length phi) Hk ES NX Wr Sr Si0) as (F & EF & WF & SF & VF).
      exists F. split; [exact Er|]. split; [exact RF|]. split; [rewrite Ei; exact EF|]. split; [exact WF|]. split; [rewrite SF; exact Sr|].
      intros p Hpp. exists (at_nd None i0 [p y; p x]). split.
      + exists (freq0_3D freq (Some (synth_lam0 r))). split; [exact R1|].
        assert (In y (kept naxis k) /\ In x (kept naxis k)) as [Iy Ix] by (rewrite EK; cbn; auto).
        eapply ref_value_ext; [|apply Vi0]; [|apply Hpp; now apply (kept_in naxis k Hk) in Iy|apply Hpp; now apply (kept_in naxis k Hk) in Ix].
        intros j Hj. cbn beta. fold n in Hj.
        assert (Hc : in_image naxis (at_chan p k j)). { intros b Hb. unfold at_chan. destruct (Nat.eqb_spec b k) as [->|]; [lia|now apply Hpp]. }
        specialize (Vi _ Hc). rewrite EK in Vi. cbn [map] in Vi. rewrite <- Vi. unfold at_chan. rewrite Nat.eqb_refl.
          destruct (Nat.eqb_spec y k) as [->|_]; [apply (kept_in naxis k Hk) in Iy; tauto|]. destruct (Nat.eqb_spec x k) as [->|_]; [apply (kept_in naxis k Hk) in Ix; tauto|]. reflexivity.
      + apply CC; [exact Hpp|]. intros j Hj. apply VF; auto.
    - exists (FDFcube r). split; [exact Er|]. split; [exact RF|]. split; [reflexivity|]. split; [exact Wr|]. split; [exact Sr|]. intros p Hpp. exists (Some 1). split; [reflexivity|].
      apply CC; [exact Hpp|]. intros j Hj. destruct (at2 _ _ _ _ _) as [z|]; [|reflexivity]. f_equal. ring.
  Qed.

  Lemma chan_in : forall nphi p j, (j < n)%nat -> in_image (with_len naxis k nphi) p -> in_image naxis (at_chan p k j).
  Proof.
    intros nphi p j Hj Hp a Ha. destruct files_facts as (Hk & Hl & _). unfold at_chan. destruct (Nat.eqb_spec a k) as [->|Hne]; [lia|].
    specialize (Hp a). rewrite length_with_len, len_with_len in Hp by exact Ha. destruct (Nat.eqb_spec a k); [contradiction|]. now apply Hp.
  Qed.
  Lemma coord_lt : forall nphi p, in_image (with_len naxis k nphi) p -> (p k < nphi)%nat.
  Proof.
    intros nphi p Hp. destruct files_facts as (Hk & _). specialize (Hp k). rewrite length_with_len, len_with_len, Nat.eqb_refl in Hp by exact Hk. now apply Hp.
  Qed.
  Lemma sky_chan : forall p i, sky naxis k (at_chan p k i) = sky naxis k p.
  Proof. intros. unfold sky. rewrite at_chan_kept; [reflexivity|]. intros H. apply kept_in in H; [tauto|apply files_facts]. Qed.
  Lemma chan_with : forall nphi p j, (j < nphi)%nat -> in_image (with_len naxis k nphi) p -> in_image (with_len naxis k nphi) (at_chan p k j).
  Proof.
    intros nphi p j Hj Hp a Ha. specialize (Hp a Ha). rewrite length_with_len in Ha. rewrite len_with_len in Hp |- * by exact Ha. unfold at_chan.
    destruct (Nat.eqb_spec a k); [exact Hj|exact Hp].
  Qed.
  Lemma K_chan : forall K p i, (K = os naxis k \/ K = long_axes naxis (os naxis k)) -> map (at_chan p k i) K = map p K.
  Proof.
    intros K p i HK. apply at_chan_kept. intros H. destruct files_facts as (Hk & _). assert (In k (os naxis k)) by (destruct HK as [-> | ->]; [exact H|now apply (long_in naxis k) in H]).
    apply os_in in H0. tauto.
  Qed.

  (** the files of spectra and peaks *)
  Lemma fdf_files : forall F phi h step l0 lam0, odd_centred phi h step -> (1 <= h)%nat -> lamsq0_key lam0 = l0 ->
    wf_nd F -> shape F = List.length phi :: map (len naxis) (long_axes naxis (os naxis k)) ->
    (forall p, in_image naxis p -> exists i0, ref_stokes3 freq l0 I k p i0 /\
        column phi l0 (sky_chans Q U I k freq w p) i0 (fun j => at2 (m naxis k) None (flat F) j (sky naxis k p))) ->
    exists f mx rm, cube_to_file naxis (i_ctype Q) F phi lam0 = POk f /\ peak_files naxis (i_ctype Q) f phi = POk (mx, rm) /\
      f_lamsq0 f = l0 /\ axes_like (f_image f) Q k (List.length phi) /\ axis_gives (f_axis f) phi /\
      holds_FDF (f_image f) Q U I k freq w phi l0 /\ holds_peaks (f_image f) k phi mx rm.
  Proof.
    intros F phi h step l0 lam0 OC Hh EL WF SF HC. destruct files_facts as (Hk & Hl & Hn & Hp & Hs).
    destruct GF as (WQ & WU & EU & SQ & SU & CT & _).
    destruct (write_file Q k F phi h step lam0 (long_axes naxis (os naxis k)) WQ SQ CT OC Hh (or_intror eq_refl) WF SF) as (f & Ef & E0 & AX & AG & VF).
    assert (Nf : i_naxis (f_image f) = with_len naxis k (List.length phi)) by apply AX. rewrite EL in E0.
    assert (CELL : forall p j, in_image (with_len naxis k (List.length phi)) p -> (j < List.length phi)%nat ->
      vox None (f_image f) (at_chan p k j) = at2 (m naxis k) None (flat F) j (sky naxis k p)).
    { intros p j Hpp Hj. rewrite VF by (rewrite Nf; now apply chan_with). rewrite K_chan by (now right). unfold at_chan at 1. rewrite Nat.eqb_refl.
      assert (H0 : in_image naxis (at_chan p k 0)) by (apply (chan_in (List.length phi)); [lia|exact Hpp]).
      rewrite <- (K_chan (long_axes naxis (os naxis k)) p 0) by (now right). rewrite (squeezed_cell naxis k Hk None F (List.length phi) _ H0 WF SF). rewrite sky_chan. reflexivity. }
    assert (COL : forall p, in_image (with_len naxis k (List.length phi)) p -> exists i0, ref_stokes3 freq l0 I k p i0 /\
        column phi l0 (sky_chans Q U I k freq w p) i0 (fun j => vox None (f_image f) (at_chan p k j))).
    { intros p Hpp. destruct (HC (at_chan p k 0)) as (i0 & H1 & H2); [apply (chan_in (List.length phi)); [lia|exact Hpp]|]. exists i0. rewrite ref_stokes_chan in H1. split; [exact H1|].
      rewrite sky_chans_chan in H2. destruct H2 as [A B]. split.
      - intros X j Hj. rewrite CELL by auto. rewrite <- (sky_chan p 0). apply A; auto.
      - intros i Ei Z X j Hj. rewrite CELL by auto. rewrite <- (sky_chan p 0). apply B; auto. }
    destruct (write_peaks Q k f phi WQ SQ AX) as (mx & rm & EP & HP).
    { destruct OC as [L _]. intros ->. cbn in L. lia. }
    { intros p Hpp. rewrite Nf in Hpp. destruct (COL p Hpp) as (i0 & _ & C). apply (column_all _ _ _ _ _ C). }
    exists f, mx, rm. split; [exact Ef|]. split; [exact EP|]. split; [exact E0|]. split; [exact AX|]. split; [exact AG|]. split; [|exact HP].
    intros p Hpp. rewrite Nf in Hpp. destruct (COL p Hpp) as (i0 & H1 & A & B). exists i0. split; [exact H1|]. pose proof (coord_lt _ _ Hpp) as Hpk. cbv zeta.
    assert (EV : vox None (f_image f) p = vox None (f_image f) (at_chan p k (p k))) by (apply vox_ext; intros a; now rewrite at_chan_id). rewrite EV.
    split; [intros X; apply A; auto|]. split; [intros X; apply A; auto|]. intros i Ei Z. split; intros X; [apply A; auto|apply B; auto].
  Qed.

  Lemma fwhm_range : exists mx mn, is_max (map lsq freq) mx /\ is_min (map lsq freq) mn /\ fwhm_analytic (map lsq freq) = Some (38 / 10 / (mx - mn)).
  Proof.
    destruct GF as (_ & _ & _ & _ & _ & _ & _ & _ & _ & Hf & (f & g & If & Ig & Ne) & _). unfold fwhm_analytic.
    destruct (rmax_nonempty (map lsq freq)) as [mx E1]; [intros Z; apply map_eq_nil in Z; rewrite Z in If; destruct If|]. destruct (rmin_nonempty (map lsq freq)) as [mn E2]; [intros Z; apply map_eq_nil in Z; rewrite Z in If; destruct If|].
    rewrite E1, E2. apply rmax_list_spec in E1. apply rmin_list_spec in E2. exists mx, mn. split; [exact E1|]. split; [exact E2|].
    destruct (Req_EM_T (mx - mn) 0) as [Z|Z]; [|reflexivity]. exfalso. apply Ne. apply lsq_inj; auto. destruct E1 as [_ M1], E2 as [_ M2].
    pose proof (M1 _ (in_map lsq _ _ If)). pose proof (M1 _ (in_map lsq _ _ Ig)). pose proof (M2 _ (in_map lsq _ _ If)). pose proof (M2 _ (in_map lsq _ _ Ig)). lra.
  Qed.

  (** the files of spread functions and widths *)
  Lemma rmsf_files : forall fit q wA phi h step lam0in, List.length wA = n -> (forall j, (j < n)%nat -> nth j (weights_of n (Some wA)) 0 = w j) ->
    shows naxis k n None q (vox None Q) -> odd_centred phi h step -> (1 <= h)%nat ->
    exists sr g phi2, get_rmsf_planes (fit (g_super o)) (map lsq freq) phi (Some wA) (Some (mk_nd (shape q) (map is_none (flat q)))) lam0in true (g_fitRMSF o || g_super o) = RetOk sr /\
      cube_to_file naxis (i_ctype Q) (RMSFcube sr) (phi2Arr sr) (rmsf_lam0 sr) = POk g /\ phi2Arr sr = phi2 /\ odd_centred phi2 (2 * h + 1) step /\
      f_lamsq0 g = lamsq0_key (rmsf_lam0 sr) /\
      match lam0in with
      | Some l => rmsf_lam0 sr = Some l
      | None => mean_over (fun j => exists p, in_image naxis (at_chan p k j) /\ vox None Q (at_chan p k j) <> None) freq w (lamsq0_key (rmsf_lam0 sr))
      end /\
      axes_like (f_image g) Q k (List.length phi2) /\ axis_gives (f_axis g) phi2 /\
      holds_RMSF (f_image g) Q k freq w phi2 (f_lamsq0 g) /\ holds_width fit o freq (f_image g) k phi2 (flat (fwhmRMSFArr sr)) /\
      sky_map naxis k (fwhmRMSFArr sr).
  Proof.
    intros fit q wA phi h step lam0in Lw Ew Shq OC Hh. destruct files_facts as (Hk & Hl & Hn & Hp & Hs).
    assert (Nw : forall j, 0 <= w j) by (intros j; now apply (weight3_nonneg o rms n)).
    destruct (rmsf_cells naxis k n Hk Hl Hn Hp Hs Q freq w wA q phi h step eq_refl Lw Ew Nw Shq OC Hh (fit (g_super o)) lam0in (g_fitRMSF o || g_super o))
      as (sr & phi2 & K & Er & E2 & O2 & HK & Wr & Sr & Cr & Lr & Vr & Fr & Mr).
    destruct GF as (WQ & WU & EU & SQ & SU & CT & _).
    destruct (write_file Q k (RMSFcube sr) phi2 (2 * h + 1) step (rmsf_lam0 sr) K WQ SQ CT O2 ltac:(lia) HK Wr Sr) as (g & Eg & E0 & AX & AG & VG).
    assert (Ng : i_naxis (f_image g) = with_len naxis k (List.length phi2)) by apply AX.
    exists sr, g, phi2. split; [exact Er|]. split; [rewrite E2; exact Eg|]. split; [exact E2|]. split; [exact O2|]. split; [exact E0|]. split; [exact Lr|]. split; [exact AX|]. split; [exact AG|].
    assert (CELL : forall p j, in_image (with_len naxis k (List.length phi2)) p -> (j < List.length phi2)%nat ->
      vox None (f_image g) (at_chan p k j) = at2 (m naxis k) None (flat (RMSFcube sr)) j (sky naxis k p)).
    { intros p j Hpp Hj. rewrite VG by (rewrite Ng; now apply chan_with). rewrite K_chan by exact HK. unfold at_chan at 1. rewrite Nat.eqb_refl.
      assert (H0 : in_image naxis (at_chan p k 0)) by (apply (chan_in (List.length phi2)); [lia|exact Hpp]).
      rewrite <- (K_chan K p 0 HK). rewrite (Cr _ j H0). rewrite sky_chan. reflexivity. }
    split; [|split; [|exact Mr]].
    - intros p Hpp. rewrite Ng in Hpp. cbv zeta. intros Z. pose proof (coord_lt _ _ Hpp) as Hpk.
      assert (EV : vox None (f_image g) p = vox None (f_image g) (at_chan p k (p k))) by (apply vox_ext; intros a; now rewrite at_chan_id). rewrite EV, CELL by auto.
      rewrite <- (sky_q_chans_chan Q k freq w p 0) in Z |- *. rewrite E0, <- (sky_chan p 0).
      apply (Vr (at_chan p k 0) (p k)); auto. apply (chan_in (List.length phi2)); [lia|exact Hpp].
    - destruct fwhm_range as (mx & mn & M1 & M2 & FW). exists mx, mn. split; [exact M1|]. split; [exact M2|]. intros p Hpp. rewrite Ng in Hpp.
      assert (PN : pixel_no (i_naxis (f_image g)) k p = sky naxis k (at_chan p k 0)).
      { rewrite sky_chan. unfold pixel_no, sky. rewrite Ng, length_with_len. fold (os naxis k).
        assert (EO : map (len (with_len naxis k (List.length phi2))) (os naxis k) = map (len naxis) (os naxis k)).
        { apply map_ext_in. intros a Ia. apply os_in in Ia. rewrite len_with_len by apply Ia. destruct (Nat.eqb_spec a k); tauto. }
        rewrite EO. rewrite kept_eq. destruct (4 <=? List.length naxis)%nat; [|reflexivity]. unfold long_axes.
        destruct (squeeze_map (len naxis) p (os naxis k)) as [E1' E2']. rewrite <- E1', <- E2'. symmetry. apply ravel_squeeze. apply valid_map. intros a Ia. apply os_in in Ia.
        specialize (Hpp a). rewrite length_with_len, len_with_len in Hpp by apply Ia. destruct (Nat.eqb_spec a k); [tauto|]. apply Hpp, Ia. }
      rewrite PN. assert (Ip : in_image naxis (at_chan p k 0)) by (apply (chan_in (List.length phi2)); [lia|exact Hpp]). rewrite (Fr _ Ip), FW. rewrite sky_chan.
      replace (sky_spectrum (f_image g) k p) with (map (fun j => at2 (m naxis k) None (flat (RMSFcube sr)) j (sky naxis k p)) (seq 0 (List.length phi2))); [reflexivity|].
      unfold sky_spectrum. rewrite Ng, len_with_len, Nat.eqb_refl by exact Hk. apply map_ext_in. intros j Ij. apply in_seq in Ij. symmetry. apply CELL; [exact Hpp|lia].
  Qed.

  Lemma shape_same : forall {A B} (a : nd A) (b : nd B), shape a = shape b -> same_shape a b = true.
  Proof. intros A B a b E. unfold same_shape. rewrite E. destruct (list_eq_dec Nat.eq_dec (shape b) (shape b)); congruence. Qed.

  Theorem files_core : forall fit, exists out phi h step,
    rmsynth3d fit Q U I freq rms o = POk out /\ grid3 o freq phi h step /\ grid_of o freq phi /\ (1 <= h)%nat /\
    (g_not_rmsynth o = true -> o_fdf out = None /\ o_peak out = None) /\
    (g_not_rmsf o = true -> o_rmsf out = None) /\
    (g_not_rmsynth o = false -> exists f mx rm, o_fdf out = Some f /\ o_peak out = Some (mx, rm) /\
       reference3 o Q U I k freq w (f_lamsq0 f) /\ axes_like (f_image f) Q k (List.length phi) /\ axis_gives (f_axis f) phi /\
       holds_FDF (f_image f) Q U I k freq w phi (f_lamsq0 f) /\ holds_peaks (f_image f) k phi mx rm) /\
    (g_not_rmsf o = false -> exists g fw phi2, o_rmsf out = Some (g, fw) /\ odd_centred phi2 (2 * h + 1) step /\
       reference_rmsf o Q U I k freq w (f_lamsq0 g) /\ (forall f, o_fdf out = Some f -> f_lamsq0 f = f_lamsq0 g) /\
       axes_like (f_image g) Q k (List.length phi2) /\ axis_gives (f_axis g) phi2 /\
       holds_RMSF (f_image g) Q k freq w phi2 (f_lamsq0 g) /\ holds_width fit o freq (f_image g) k phi2 (flat fw) /\ sky_map (i_naxis Q) k fw).
  Proof.
    intros fit. destruct read_all as (dataI & q & u & EI & Eq & Eu & Shq & Shu & Shi).
    destruct GF as (_ & _ & _ & _ & _ & _ & _ & _ & _ & Hf & H2 & _).
    destruct (grid_exists o freq Hf H2 GO) as (dp & phi & h & EG & ED & G3 & Hh & LP & AS).
    destruct (weights3 o rms n GR) as (wA & EW & Lw & Ew).
    assert (GOF : grid_of o freq phi) by (exists dp; auto).
    assert (OC : odd_centred phi h (fst dp)) by (destruct G3 as (pm & _ & X & _); exact X).
    destruct (fdf_core wA dataI q u phi Lw Ew Shq Shu Shi AS ltac:(lia)) as (r & F & Er & RF & EF & WF & SF & HC).
    unfold rmsynth3d. rewrite EI, Eq, Eu. cbn [pybind]. unfold run_rmsynth_3D.
    replace (g_not_rmsynth o && g_not_rmsf o)%bool with false by (destruct GO as [[-> | ->] _]; [reflexivity|symmetry; apply andb_false_r]).
    rewrite (shape_same q u) by (destruct Shq as (_ & -> & _); destruct Shu as (_ & -> & _); reflexivity). cbn [negb].
    replace (match dataI with Some i => same_shape i q | None => true end) with true
      by (destruct dataI as [i|]; [|reflexivity]; destruct I as [fI|]; [|destruct Shi]; symmetry; apply shape_same; destruct Shi as (_ & -> & _); destruct Shq as (_ & -> & _); reflexivity).
    cbn [negb]. cbv zeta. rewrite EG. cbn [pybind]. rewrite ED. cbn [pybind]. fold n. rewrite EW. cbn [pybind].
    change (map (fun f => (c_light / f) ^ 2) freq) with (map lsq freq).
    destruct (fdf_files F phi h (fst dp) (synth_lam0 r) (Some (synth_lam0 r)) OC Hh eq_refl WF SF HC) as (f & mx & rm & Ef & Ep & E0 & AX & AG & HF & HP).
    destruct (g_not_rmsynth o) eqn:NS; [|destruct (g_not_rmsf o) eqn:NR].
    - assert (NR : g_not_rmsf o = false) by (destruct GO as [[?|?] _]; [congruence|assumption]).
      destruct (rmsf_files fit q wA phi h (fst dp) (if g_super o then Some 0 else None) Lw Ew Shq OC Hh) as (sr & g & phi2 & Es & Eg & E2 & O2 & L0 & LR & A1 & A2 & A3 & A4 & A5).
      rewrite Es. cbn [pybind]. unfold writefits_3D. fold naxis. rewrite Eg. cbn [pybind]. eexists _, phi, h, (fst dp). split; [reflexivity|]. split; [exact G3|]. split; [exact GOF|]. split; [exact Hh|].
      cbn [o_fdf o_rmsf o_peak]. split; [auto|]. split; [intros; congruence|]. split; [intros; congruence|]. intros _. exists g, (fwhmRMSFArr sr), phi2. split; [reflexivity|]. split; [exact O2|].
      split; [|split; [intros f0 [=]|auto]]. unfold reference_rmsf. rewrite NS, L0. destruct (g_super o); [rewrite LR; reflexivity|exact LR].
    - rewrite Er, EF. cbn [pybind]. unfold writefits_3D. fold naxis. rewrite Ef. cbn [pybind]. rewrite Ep. cbn [pybind]. eexists _, phi, h, (fst dp). split; [reflexivity|]. split; [exact G3|]. split; [exact GOF|]. split; [exact Hh|].
      cbn [o_fdf o_rmsf o_peak]. split; [intros; congruence|]. split; [auto|]. split; [|intros; congruence]. intros _. exists f, mx, rm. rewrite E0. auto 10.
    - rewrite Er, EF. cbn [pybind].
      destruct (rmsf_files fit q wA phi h (fst dp) (Some (synth_lam0 r)) Lw Ew Shq OC Hh) as (sr & g & phi2 & Es & Eg & E2 & O2 & L0 & LR & A1 & A2 & A3 & A4 & A5).
      rewrite Es. cbn [pybind]. unfold writefits_3D. fold naxis. rewrite LR in Eg. rewrite LR, Ef. cbn [pybind]. rewrite Eg. cbn [pybind]. rewrite Ep. cbn [pybind].
      eexists _, phi, h, (fst dp). split; [reflexivity|]. split; [exact G3|]. split; [exact GOF|]. split; [exact Hh|].
      cbn [o_fdf o_rmsf o_peak]. split; [intros; congruence|]. split; [intros; congruence|]. split; [intros _; exists f, mx, rm; rewrite E0; auto 10|].
      intros _. exists g, (fwhmRMSFArr sr), phi2. split; [reflexivity|]. split; [exact O2|]. rewrite L0, LR in *. cbn [lamsq0_key] in *.
      split; [unfold reference_rmsf; rewrite NS; exact RF|]. split; [intros f0 [= <-]; exact E0|auto].
  Qed.
  Theorem files_ok : forall fit, exists out phi h step,
    rmsynth3d fit Q U I freq rms o = POk out /\ grid3 o freq phi h step /\ (1 <= h)%nat /\
    (g_not_rmsynth o = true -> o_fdf out = None /\ o_peak out = None) /\
    (g_not_rmsf o = true -> o_rmsf out = None) /\
    (g_not_rmsynth o = false -> exists f mx rm, o_fdf out = Some f /\ o_peak out = Some (mx, rm) /\
       reference3 o Q U I k freq w (f_lamsq0 f) /\ axes_like (f_image f) Q k (List.length phi) /\ axis_gives (f_axis f) phi /\
       holds_FDF (f_image f) Q U I k freq w phi (f_lamsq0 f) /\ holds_peaks (f_image f) k phi mx rm) /\
    (g_not_rmsf o = false -> exists g fw phi2, o_rmsf out = Some (g, fw) /\ odd_centred phi2 (2 * h + 1) step /\
       reference_rmsf o Q U I k freq w (f_lamsq0 g) /\ (forall f, o_fdf out = Some f -> f_lamsq0 f = f_lamsq0 g) /\
       axes_like (f_image g) Q k (List.length phi2) /\ axis_gives (f_axis g) phi2 /\
       holds_RMSF (f_image g) Q k freq w phi2 (f_lamsq0 g) /\ holds_width fit o freq (f_image g) k phi2 (flat fw) /\ sky_map (i_naxis Q) k fw).
  Proof.
    intros fit. destruct (files_core fit) as (out & phi & h & step & A & B & _ & D). exists out, phi, h, step. auto.
  Qed.
End Run3.
