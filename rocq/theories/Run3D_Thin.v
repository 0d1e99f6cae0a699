(** Faraday-thin sources in the files of the 3-D tool. *)
From Coq Require Import Reals List Arith ZArith Bool Ascii String Lra Lia.
Set Warnings "-ambiguous-paths".
From Coquelicot Require Import Coquelicot.
From Verif Require Import CBase PyRes PyStr PyList NdArray NdIndex Synth_Spec Synth_Laws Rmsf_Peak Setup_Model Setup_Spec Setup_Proofs Cube_Model Cube_Spec Cube_Proofs Cube_Laws
  Measure_Model Measure_Spec Measure_Proofs Measure_Laws Clean_Grid Run1D_Spec Run1D_Proofs Run1D_Laws Pixfit_Model Pixfit_Spec Pixfit_Proofs Pixfit_Laws Pixfit_Files
  Run3D_Model Run3D_Spec Run3D_Proofs Run3D_Laws Run3D_Total.
Import ListNotations.
Local Open Scope R_scope.

Lemma ref_value_fun : forall freq f0 g v v', ascending freq -> ref_value freq f0 g v -> ref_value freq f0 g v' -> v = v'.
Proof.
  intros freq f0 g v v' A H H'.
  assert (LT : forall i j, (i < List.length freq)%nat -> (j < List.length freq)%nat -> nth i freq 0 < nth j freq 0 -> (i < j)%nat).
  { intros i j Hi Hj L. destruct (lt_eq_lt_dec i j) as [[?|E]|X]; [auto|rewrite E in L; lra|]. pose proof (A j i ltac:(lia)). lra. }
  destruct H as [(j & Hj & E & ->)|(j & Hj & E & ->)], H' as [(j' & Hj' & E' & ->)|(j' & Hj' & E' & ->)].
  - replace j' with j; [reflexivity|]. destruct (lt_eq_lt_dec j j') as [[X|X]|X]; [pose proof (A j j' ltac:(lia)); lra|exact X|pose proof (A j' j ltac:(lia)); lra].
  - exfalso. pose proof (LT j' j ltac:(lia) ltac:(lia) ltac:(lra)). pose proof (LT j (S j') ltac:(lia) ltac:(lia) ltac:(lra)). lia.
  - exfalso. pose proof (LT j j' ltac:(lia) ltac:(lia) ltac:(lra)). pose proof (LT j' (S j) ltac:(lia) ltac:(lia) ltac:(lra)). lia.
  - assert (j = j') as ->; [|reflexivity]. pose proof (LT j (S j') ltac:(lia) ltac:(lia) ltac:(lra)). pose proof (LT j' (S j) ltac:(lia) ltac:(lia) ltac:(lra)). lia.
Qed.

Lemma RMSF_weights : forall chs chs' l0 f, map (fun c => (c_l2 c, c_w c)) chs = map (fun c => (c_l2 c, c_w c)) chs' -> RMSF_spec chs l0 f = RMSF_spec chs' l0 f.
Proof.
  intros chs chs' l0 f H. unfold RMSF_spec, wsum.
  assert (G : forall l, map c_w l = map snd (map (fun c => (c_l2 c, c_w c)) l)) by (intros l; rewrite map_map; reflexivity).
  assert (G' : forall l, map (fun c => RtoC (c_w c) * cis (-2 * f * (c_l2 c - l0)))%C l = map (fun x => RtoC (snd x) * cis (-2 * f * (fst x - l0)))%C (map (fun c => (c_l2 c, c_w c)) l))
    by (intros l; rewrite map_map; reflexivity).
  rewrite (G chs), (G' chs), (G chs'), (G' chs'), H. reflexivity.
Qed.

Section Thin.
  Variables (Q U : image (option R)) (I : option (image (option R))) (k : nat) (freq : list R) (rms : option (list (option R))) (o : opts3).
  Hypothesis GF : good_files Q U I k freq.
  Hypothesis GR : good_rms o rms (List.length freq).
  Hypothesis GO : good_opts3 o freq.
  Let w := weight3 o rms.
  Let chans := sky_chans Q U I k freq w.

  Lemma ref_nonneg : forall l0, reference3 o Q U I k freq w l0 -> 0 <= l0.
  Proof.
    intros l0 H. unfold reference3 in H. destruct (g_super o); [lra|]. destruct GF as (_ & _ & _ & _ & _ & _ & _ & _ & _ & Hf & _).
    destruct (mean_over_range _ freq w l0 Hf (fun j => weight3_nonneg o rms _ j GR) H); lra.
  Qed.

  Lemma ref_stokes_fun : forall l0 p v v', 0 <= l0 -> ref_stokes3 freq l0 I k p v -> ref_stokes3 freq l0 I k p v' -> v = v'.
  Proof.
    intros l0 p v v' L H H'. destruct GF as (_ & _ & _ & _ & _ & _ & _ & _ & _ & _ & _ & GI). unfold ref_stokes3 in *. destruct I as [f|]; [|congruence].
    destruct GI as (_ & _ & _ & A & _). destruct H as (f0 & [B1 B2] & V), H' as (f0' & [B1' B2'] & V').
    assert (f0' = f0) as -> by (destruct (Req_EM_T l0 0) as [Z|Z]; [rewrite B2, B2' by exact Z; reflexivity|rewrite B1, B1' by lra; reflexivity]).
    eapply ref_value_fun; eauto.
  Qed.

  Lemma chans_in : forall p c, In c (chans p) -> exists j P, (j < List.length freq)%nat /\ frac_vox Q U I (at_chan p k j) = Some P /\ c = mk_chan (lsq (nth j freq 0)) (w j) P.
  Proof.
    intros p c H. apply in_flat_map in H. destruct H as (j & Ij & H). apply in_seq in Ij. exists j. destruct (frac_vox Q U I (at_chan p k j)) as [P|]; [|destruct H]. destruct H as [<-|[]].
    exists P. split; [lia|auto].
  Qed.
  Lemma in_chans : forall p j, (j < List.length freq)%nat -> frac_vox Q U I (at_chan p k j) <> None -> exists P, In (mk_chan (lsq (nth j freq 0)) (w j) P) (chans p).
  Proof.
    intros p j Hj H. destruct (frac_vox Q U I (at_chan p k j)) as [P|] eqn:E; [|contradiction]. exists P. apply in_flat_map. exists j. split; [apply in_seq; lia|]. rewrite E. now left.
  Qed.
  Lemma chans_nonneg : forall p c, In c (chans p) -> 0 <= c_w c.
  Proof. intros p c H. destruct (chans_in p c H) as (j & P & _ & _ & ->). cbn. exact (weight3_nonneg o rms _ j GR). Qed.
  Lemma chans_pos : forall p j, (j < List.length freq)%nat -> frac_vox Q U I (at_chan p k j) <> None -> 0 < w j -> 0 < wsum (chans p).
  Proof.
    intros p j Hj H Hw. destruct (in_chans p j Hj H) as (P & IP). destruct (in_take _ (chans p) IP) as [rest [Q1 [_ [_ Q4]]]]. unfold wsum. rewrite Q4. cbn [c_w].
    assert (0 <= rsum (map c_w rest)); [|lra]. apply rsum_nonneg. intros x Hx. apply in_map_iff in Hx. destruct Hx as [c [<- Hc]]. apply (chans_nonneg p). auto.
  Qed.

  Lemma thin_FDF3 : forall p a psi RM l0 f, thin_at Q U I k freq p a psi RM ->
    FDF_spec (chans p) l0 f = (RtoC a * cis (2 * (psi + RM * l0)) * RMSF_spec (chans p) l0 (f - RM))%C.
  Proof. intros p a psi RM l0 f T. apply FDF_thin. intros c Ic. destruct (chans_in p c Ic) as (j & P & Hj & E & ->). cbn [c_P c_l2]. unfold thin. now apply T. Qed.

  Section File.
    Variables (F : image (option C)) (phi : list R) (l0 : R).
    Hypothesis RF : reference3 o Q U I k freq w l0.
    Hypothesis AL : axes_like F Q k (List.length phi).
    Hypothesis HF : holds_FDF F Q U I k freq w phi l0.

    Lemma F_in : forall p j, (j < List.length phi)%nat -> in_image (i_naxis F) p -> in_image (i_naxis F) (at_chan p k j).
    Proof.
      intros p j Hj Hp. destruct AL as (_ & -> & _). destruct AL as (_ & E & _). rewrite E in Hp. eapply chan_with; eauto.
    Qed.

    Lemma F_cell : forall p j i0, (j < List.length phi)%nat -> in_image (i_naxis F) p -> ref_stokes3 freq l0 I k p (Some i0) -> wsum (chans p) <> 0 ->
      (exists f, In f phi /\ FDF_spec (chans p) l0 f <> RtoC 0) -> vox None F (at_chan p k j) = Some (RtoC i0 * FDF_spec (chans p) l0 (nth j phi 0))%C.
    Proof.
      intros p j i0 Hj Hp RS W X. destruct (HF _ (F_in p j Hj Hp)) as (v & RV & _ & _ & B). cbv zeta in B.
      apply ref_stokes_chan in RV. rewrite (ref_stokes_fun l0 p v (Some i0) (ref_nonneg l0 RF) RV RS) in B.
      rewrite sky_chans_chan in B. fold w in B. fold chans in B. unfold at_chan at 3 in B. rewrite Nat.eqb_refl in B. destruct (B i0 eq_refl W) as [_ B2]. now apply B2.
    Qed.

    (** the spectrum of a thin source *)
    Lemma thin_cell : forall p a psi RM i0, in_image (i_naxis F) p -> thin_at Q U I k freq p a psi RM -> 0 < a -> In RM phi -> 0 < wsum (chans p) ->
      ref_stokes3 freq l0 I k p (Some i0) -> forall j, (j < List.length phi)%nat ->
      vox None F (at_chan p k j) = Some (RtoC (i0 * a) * cis (2 * (psi + RM * l0)) * RMSF_spec (chans p) l0 (nth j phi 0 - RM))%C.
    Proof.
      intros p a psi RM i0 Hp T Ha IR W RS j Hj. rewrite (F_cell p j i0); auto; [|lra|].
      - rewrite (thin_FDF3 p a psi RM) by exact T. f_equal. rewrite RtoC_mult. ring.
      - exists RM. split; [exact IR|]. rewrite (thin_FDF3 p a psi RM) by exact T. replace (RM - RM) with 0 by ring. rewrite RMSF_at_0 by lra. intros Z. apply (f_equal Cmod) in Z.
        rewrite !Cmod_mult, Cmod_cis, Cmod_0, !Cmod_R, !Rabs_pos_eq in Z by lra. lra.
    Qed.
  End File.

  Lemma tells_lt : forall phi p RM l0 f, tells Q U I k freq w phi p RM -> In f phi -> f <> RM -> Cmod (RMSF_spec (chans p) l0 (f - RM)) < 1.
  Proof.
    intros phi p RM l0 f (j1 & j2 & H1 & H2 & D1 & D2 & W1 & W2 & Ne & Hal) If Nf. destruct (in_chans p j1 H1 D1) as (P1 & I1). destruct (in_chans p j2 H2 D2) as (P2 & I2).
    apply (RMSF_lt_1 (chans p) l0 _ _ _ (chans_nonneg p) I1 I2 W1 W2). cbn [c_l2]. apply cos_lt_1.
    - apply Rmult_integral_contrapositive_currified; [|lra]. apply Rmult_integral_contrapositive_currified; lra.
    - rewrite !Rabs_mult, (Rabs_pos_eq 2) by lra. specialize (Hal f If). lra.
  Qed.
  Lemma tells_pos : forall phi p RM, tells Q U I k freq w phi p RM -> 0 < wsum (chans p).
  Proof. intros phi p RM (j1 & j2 & H1 & H2 & D1 & D2 & W1 & W2 & _). now apply (chans_pos p j1). Qed.

  (** the files written are those of [files_ok] *)
  Lemma files_of : forall fit out f, rmsynth3d fit Q U I freq rms o = POk out -> o_fdf out = Some f ->
    exists phi h step mx rm, grid3 o freq phi h step /\ grid_of o freq phi /\ (1 <= h)%nat /\ o_peak out = Some (mx, rm) /\
      reference3 o Q U I k freq w (f_lamsq0 f) /\ axes_like (f_image f) Q k (List.length phi) /\ axis_gives (f_axis f) phi /\
      holds_FDF (f_image f) Q U I k freq w phi (f_lamsq0 f) /\ holds_peaks (f_image f) k phi mx rm /\
      forall g fw, o_rmsf out = Some (g, fw) -> exists phi2, odd_centred phi2 (2 * h + 1) step /\ f_lamsq0 f = f_lamsq0 g /\
        axes_like (f_image g) Q k (List.length phi2) /\ holds_RMSF (f_image g) Q k freq w phi2 (f_lamsq0 g) /\ sky_map (i_naxis Q) k fw.
  Proof.
    intros fit out f RUN EF. destruct (files_core Q U I k freq rms o GF GR GO fit) as (out' & phi & h & step & R' & G3 & GG & Hh & N1 & N2 & A & B).
    rewrite RUN in R'. injection R' as <-. destruct (g_not_rmsynth o) eqn:NS; [destruct (N1 eq_refl); congruence|].
    destruct (A eq_refl) as (f' & mx & rm & E1 & E2 & E3 & E4 & E5 & E6 & E7). rewrite EF in E1. injection E1 as <-.
    exists phi, h, step, mx, rm. do 9 (split; [assumption|]). intros g fw EG. destruct (g_not_rmsf o) eqn:NR; [rewrite (N2 eq_refl) in EG; discriminate|].
    destruct (B eq_refl) as (g' & fw' & phi2 & B1 & B2 & B3 & B4 & B5 & B6 & B7 & B8 & B9). rewrite EG in B1. injection B1 as <- <-. exists phi2. auto 10.
  Qed.

  Lemma grid_pos : forall phi h step, grid3 o freq phi h step -> step <> 0.
  Proof. intros phi h step (pm & C & _). now apply (proj2 GO) in C. Qed.

  Theorem thin_files : forall fit out f, rmsynth3d fit Q U I freq rms o = POk out -> o_fdf out = Some f ->
    exists phi h step mx rm, grid3 o freq phi h step /\ axis_gives (f_axis f) phi /\ o_peak out = Some (mx, rm) /\
    forall p a psi RM i0, in_image (i_naxis (f_image f)) p -> thin_at Q U I k freq p a psi RM -> 0 < a -> In RM phi -> tells Q U I k freq w phi p RM ->
      ref_stokes3 freq (f_lamsq0 f) I k p (Some i0) ->
      (forall j, (j < List.length phi)%nat -> vox None (f_image f) (at_chan p k j) =
         Some (RtoC (i0 * a) * cis (2 * (psi + RM * f_lamsq0 f)) * RMSF_spec (chans p) (f_lamsq0 f) (nth j phi 0 - RM))%C) /\
      (i0 <> 0 -> let idx := 0%nat :: map p (rev (others k (List.length (i_naxis Q)))) in at_nd None mx idx = Some (Rabs i0 * a) /\ at_nd None rm idx = Some RM).
  Proof.
    intros fit out f RUN EF. destruct (files_of fit out f RUN EF) as (phi & h & step & mx & rm & G3 & GG & Hh & EP & RF & AL & AG & HF & HP & _).
    exists phi, h, step, mx, rm. do 3 (split; [assumption|]). intros p a psi RM i0 Hp T Ha IR TL RS. pose proof (tells_pos phi p RM TL) as W.
    pose proof (thin_cell (f_image f) phi (f_lamsq0 f) RF AL HF p a psi RM i0 Hp T Ha IR W RS) as V. split; [exact V|]. intros N0 idx.
    specialize (HP p Hp). cbv zeta in HP. replace (List.length (i_naxis (f_image f))) with (List.length (i_naxis Q)) in HP by (destruct AL as (_ & -> & _); now rewrite length_with_len). fold idx in HP.
    assert (MV : forall t, Cmod (RtoC (i0 * a) * cis (2 * (psi + RM * f_lamsq0 f)) * t)%C = Rabs i0 * a * Cmod t).
    { intros t. rewrite !Cmod_mult, Cmod_cis, Cmod_R, Rabs_mult, (Rabs_pos_eq a) by lra. ring. }
    destruct (In_nth phi RM 0 IR) as (ia & Hia & Eia).
    assert (AP : 0 < Rabs i0 * a) by (apply Rmult_lt_0_compat; [now apply Rabs_pos_lt|exact Ha]).
    destruct HP as [(X & _)|(i & z & Hi & Ez & Em & Er & Hm)]; [exfalso; specialize (X ia Hia); rewrite V in X by exact Hia; discriminate|].
    rewrite V in Ez by exact Hi. injection Ez as Ez.
    destruct (Hm ia Hia) as (y & Ey & Le & _). rewrite V in Ey by exact Hia. injection Ey as Ey. rewrite Eia in Ey. replace (RM - RM) with 0 in Ey by ring. rewrite RMSF_at_0 in Ey by lra.
    rewrite <- Ez, <- Ey, !MV in Le. rewrite Cmod_1 in Le.
    assert (ERM : nth i phi 0 = RM).
    { destruct (Req_EM_T (nth i phi 0) RM) as [|Ne]; [auto|exfalso]. pose proof (tells_lt phi p RM (f_lamsq0 f) _ TL (nth_In phi 0 Hi) Ne) as L. nra. }
    rewrite Em, Er, ERM. split; [|reflexivity]. rewrite <- Ez, MV, ERM. replace (RM - RM) with 0 by ring. rewrite RMSF_at_0 by lra. rewrite Cmod_1, Rmult_1_r. reflexivity.
  Qed.

  Lemma q_chans_alike : forall p, flagged_alike Q U I k freq p -> map (fun c => (c_l2 c, c_w c)) (sky_q_chans Q k freq w p) = map (fun c => (c_l2 c, c_w c)) (chans p).
  Proof.
    intros p H. unfold chans, sky_chans, sky_q_chans. rewrite !flat_map_concat_map, !concat_map, !map_map. f_equal. apply map_ext_in. intros j Ij. apply in_seq in Ij.
    destruct (H j ltac:(lia)) as [H1 H2]. destruct (vox None Q (at_chan p k j)), (frac_vox Q U I (at_chan p k j)); try reflexivity; [discriminate (H2 eq_refl)|discriminate (H1 eq_refl)].
  Qed.

  (** the spectrum of a thin source is its peak times the shifted spread function *)
  Theorem thin_spread : forall fit out f g fw, rmsynth3d fit Q U I freq rms o = POk out -> o_fdf out = Some f -> o_rmsf out = Some (g, fw) ->
    exists phi h step, grid3 o freq phi h step /\
    forall p a psi RM i0 ia, in_image (i_naxis (f_image f)) p -> thin_at Q U I k freq p a psi RM -> 0 < a -> (ia < List.length phi)%nat -> nth ia phi 0 = RM ->
      0 < wsum (chans p) -> flagged_alike Q U I k freq p -> ref_stokes3 freq (f_lamsq0 f) I k p (Some i0) ->
      forall j, (j < List.length phi)%nat -> exists z s, vox None (f_image f) (at_chan p k ia) = Some z /\ vox None (f_image g) (at_chan p k (2 * h + 1 + j - ia)) = Some s /\
        vox None (f_image f) (at_chan p k j) = Some (z * s)%C.
  Proof.
    intros fit out f g fw RUN EF EG. destruct (files_of fit out f RUN EF) as (phi & h & step & mx & rm & G3 & GG & Hh & EP & RF & AL & AG & HF & HP & B).
    destruct (B g fw EG) as (phi2 & O2 & E0 & AL2 & HG & _). exists phi, h, step. split; [exact G3|]. intros p a psi RM i0 ia Hp T Ha Hia ERM W FA RS j Hj.
    pose proof (thin_cell (f_image f) phi (f_lamsq0 f) RF AL HF p a psi RM i0 Hp T Ha ltac:(rewrite <- ERM; now apply nth_In) W RS) as V.
    assert (OC : odd_centred phi h step) by (destruct G3 as (pm & _ & X & _); exact X). destruct OC as [LP VP]. destruct O2 as [LP2 VP2].
    eexists _, (RMSF_spec (chans p) (f_lamsq0 f) (nth j phi 0 - RM)). split; [apply V; exact Hia|].
    assert (J2 : (2 * h + 1 + j - ia < List.length phi2)%nat) by lia. split.
    - assert (Ig : in_image (i_naxis (f_image g)) (at_chan p k (2 * h + 1 + j - ia))).
      { destruct AL2 as (_ & -> & _). destruct AL as (_ & EN & _). rewrite EN in Hp. intros b Hb. rewrite length_with_len in Hb.
        specialize (Hp b). rewrite length_with_len, len_with_len in Hp by exact Hb. rewrite len_with_len by exact Hb. unfold at_chan. destruct (Nat.eqb_spec b k); [exact J2|now apply Hp]. }
      specialize (HG _ Ig). cbv zeta in HG. rewrite sky_q_chans_chan in HG. unfold at_chan at 2 in HG. rewrite Nat.eqb_refl in HG. rewrite HG.
      + f_equal. rewrite (RMSF_weights (sky_q_chans Q k freq w p) (chans p)) by (now apply q_chans_alike). rewrite <- E0. f_equal. rewrite VP2, <- ERM, !VP by lia.
        rewrite minus_INR, !plus_INR by lia. rewrite mult_INR. cbn [INR]. ring.
      + intros Z. assert (EW : wsum (sky_q_chans Q k freq w p) = wsum (chans p)).
        { unfold wsum. assert (G : forall l, map c_w l = map snd (map (fun c => (c_l2 c, c_w c)) l)) by (intros l; rewrite map_map; reflexivity). rewrite !G, (q_chans_alike p FA). reflexivity. }
        rewrite EW in Z. lra.
    - rewrite V by exact Hj. f_equal. rewrite ERM. replace (RM - RM) with 0 by ring. rewrite RMSF_at_0 by lra. ring.
  Qed.

  (** the whole chain: images to spectra to maps of fitted peaks *)
  Theorem thin_maps : forall fit out f g fw Ps noise variance ax ay, rmsynth3d fit Q U I freq rms o = POk out -> o_fdf out = Some f -> o_rmsf out = Some (g, fw) ->
    long_axes (i_naxis Q) (rev (others k (List.length (i_naxis Q)))) = [ax; ay] ->
    (forall b, (1 <= b <= List.length (i_naxis Q))%nat -> b <> k -> ~ mentions (s "FDEP") (nth (b - 1) (i_ctype Q) None)) ->
    good_noise (List.length freq) noise -> (I <> None -> 0 < f_lamsq0 f) ->
    exists phi h step, grid3 o freq phi h step /\
    (0 < step -> exists m, peakfit_files (f_image f) (f_axis f) fw freq (f_lamsq0 f) (names Ps) noise I (Some variance) = POk m /\
      maps_of (names Ps) (len (i_naxis Q) ax) (len (i_naxis Q) ay) m /\
      forall p a psi RM i0 ia, in_image (i_naxis (f_image f)) p -> thin_at Q U I k freq p a psi RM -> 0 < a ->
        (0 < ia < List.length phi - 1)%nat -> nth ia phi 0 = RM -> tells Q U I k freq w phi p RM ->
        ref_stokes3 freq (f_lamsq0 f) I k p (Some i0) -> 0 < i0 ->
        let shown P v := In P Ps -> exists map, In (s (product_name P), map) m /\ at_nd None map [p ax; p ay] = Some v in
        shown Pphi RM /\ shown Pamp (i0 * a) /\ shown Pindx (INR ia) /\ shown PI0 i0 /\ shown Plam0 (f_lamsq0 f) /\
        (exists v, 0 <= v < 180 /\ same_angle v ((psi + RM * f_lamsq0 f) * 180 / PI) /\ shown Pangle v) /\
        (exists v, 0 <= v < 180 /\ same_angle v (psi * 180 / PI) /\ shown Pangle0 v)).
  Proof.
    intros fit out f g fw Ps noise variance ax ay RUN EF EG LX NM GN L0. destruct (files_of fit out f RUN EF) as (phi & h & step & mx & rm & G3 & GG & Hh & EP & RF & AL & AG & HF & HP & B).
    destruct (B g fw EG) as (phi2 & O2 & E0 & AL2 & HG & SM). exists phi, h, step. split; [exact G3|]. intros Hs.
    assert (OC : odd_centred phi h step) by (destruct G3 as (pm & _ & X & _); exact X). destruct OC as [LP VP].
    set (l0 := f_lamsq0 f) in *. set (F := f_image f) in *.
    assert (NF : i_naxis F = with_len (i_naxis Q) k (List.length phi)) by apply AL.
    destruct (files_facts Q U I k freq rms o GF GR GO) as (Hk & Hl & Hn & Hp0 & Hsk).
    assert (LK : len (i_naxis F) k = List.length phi) by (rewrite NF, len_with_len, Nat.eqb_refl by exact Hk; reflexivity).
    assert (LO : forall b, In b (others k (List.length (i_naxis Q))) -> len (i_naxis F) b = len (i_naxis Q) b).
    { intros b Hb. apply in_others in Hb. rewrite NF, len_with_len by lia. destruct (Nat.eqb_spec b k); [tauto|reflexivity]. }
    assert (LXF : long_axes (i_naxis F) (rev (others k (List.length (i_naxis F)))) = [ax; ay]).
    { rewrite <- LX. rewrite NF at 2. rewrite length_with_len. unfold long_axes. apply filter_ext_in. intros b Hb. apply in_rev in Hb. now rewrite LO. }
    assert (IX : In ax (others k (List.length (i_naxis Q))) /\ In ay (others k (List.length (i_naxis Q)))).
    { assert (In ax [ax; ay] /\ In ay [ax; ay]) as [X Y] by (cbn; auto). rewrite <- LX in X, Y. apply filter_In in X, Y. split; apply in_rev; tauto. }
    destruct IX as [IX IY].
    destruct (f_axis f) as [nax crpix crval cdelt] eqn:EA. destruct AG as [AN AW]. cbn [NAXISn CRPIX CRVAL CDELT] in AN, AW.
    assert (CD : cdelt = step).
    { pose proof (AW 0%nat ltac:(lia)) as X. pose proof (AW 1%nat ltac:(lia)) as Y. rewrite VP in X, Y by lia. unfold world in X, Y. cbn [INR] in X, Y. nra. }
    assert (GS : good_stokes_file freq l0 (i_naxis F) k I).
    { unfold good_stokes_file. destruct I as [fI|]; [|trivial]. assert (GF' := GF). destruct GF' as (_ & _ & _ & _ & _ & _ & _ & _ & _ & Hf & _ & WI & EI & SI & ASC & _).
      specialize (L0 ltac:(discriminate)). split; [exact WI|]. split; [exact SI|]. split.
      - rewrite EI, NF. unfold with_len. rewrite map_length, seq_length. apply (nth_ext _ _ 0%nat 0%nat); [now rewrite map_length, seq_length|]. intros i Hi.
        rewrite (nth_map_lt _ _ _ _ 0%nat), seq_nth by (rewrite ?seq_length; exact Hi). destruct (Nat.eqb_spec (1 + i) k) as [Ek|Ek].
        + rewrite <- Hl, <- Ek. unfold len. f_equal. lia.
        + fold (with_len (i_naxis Q) k (List.length phi)). rewrite len_with_len by lia. destruct (Nat.eqb_spec (1 + i) k); [contradiction|]. unfold len. f_equal. lia.
      - split; [lia|]. split; [exact ASC|]. split; [exact L0|].
        assert (RANGE : l0 = 0 \/ (0 < l0 /\ forall lo hi, (forall f, In f freq -> lo <= f <= hi) -> 0 < lo -> lsq hi <= l0 <= lsq lo)).
        { unfold reference3 in RF. destruct (g_super o); [left; exact RF|]. refine (mean_over_range _ freq w _ Hf _ RF). intros j. now apply (weight3_nonneg o rms (List.length freq)). }
        destruct (freq0_range freq l0 Hf ltac:(intros Z; rewrite Z in Hn; cbn in Hn; lia) ASC RANGE) as (R1 & R2 & R3). cbv zeta in R1, R2, R3.
        rewrite <- (proj1 R1 L0). auto. }
    assert (Hf : forall x, In x freq -> 0 < x) by apply GF.
    assert (WF : wf_image F) by apply AL.
    assert (SK : spectral_axis (s "FDEP") (i_ctype F) k).
    { assert (NC : List.length (i_ctype F) = List.length (i_naxis Q)) by (destruct WF as (_ & _ & ->); rewrite NF; apply length_with_len).
      destruct AL as (_ & _ & CK & CO). apply FDEP_axis; rewrite ?NC; [exact Hk|exact CK|]. intros b Hb Hbk. rewrite CO by assumption. now apply NM. }
    destruct (peakfit_files_maps F k ax ay fw freq l0 Ps noise I variance crpix crval cdelt WF SK ltac:(lia) LXF) as (m & Em & Mm & Vm); auto.
    { unfold sky_map in SM. rewrite SM, LX. cbn [map]. now rewrite !LO. }
    { lra. }
    { intros Z; rewrite Z in Hn; cbn in Hn; lia. }
    rewrite LK in Em, Vm. rewrite <- AN in Em. exists m. split; [exact Em|]. rewrite !LO in Mm by auto. split; [exact Mm|].
    intros p a psi RM i0 ia Hp T Ha Hia ERM TL RS Hi0 shown. pose proof (tells_pos phi p RM TL) as W.
    pose proof (thin_cell F phi l0 RF AL HF p a psi RM i0 Hp T Ha ltac:(rewrite <- ERM; apply nth_In; lia) W RS) as V.
    destruct (Vm p Hp) as (i0' & RI & VV). cbv zeta in VV.
    assert (i0' = Some i0) as ->.
    { apply (ref_stokes_fun l0 p); [now apply ref_nonneg| |exact RS]. unfold ref_in in RI. unfold ref_stokes3. destruct I as [fI|]; [|exact RI]. exists (299792458 / sqrt l0).
      split; [|exact RI]. split; [reflexivity|]. specialize (L0 ltac:(discriminate)). lra. }
    replace (map (fun j => world crval crpix cdelt (S j)) (seq 0 (List.length phi))) with phi in VV.
    2:{ symmetry. apply (nth_ext _ _ 0 0); [now rewrite map_length, seq_length|]. intros j Hj. rewrite map_length, seq_length in Hj. rewrite nth_map_seq by exact Hj. now apply AW. }
    set (FDF := sky_spectrum F k p) in *.
    assert (LF : List.length FDF = List.length phi) by (unfold FDF, sky_spectrum; rewrite map_length, seq_length; exact LK).
    assert (VAL : forall j, (j < List.length phi)%nat -> nth j FDF None = Some (RtoC (i0 * a) * cis (2 * (psi + RM * l0)) * RMSF_spec (chans p) l0 (nth j phi 0 - RM))%C).
    { intros j Hj. unfold FDF, sky_spectrum. rewrite LK, nth_map_seq by exact Hj. now apply V. }
    assert (AP : 0 < i0 * a) by (apply Rmult_lt_0_compat; auto).
    assert (MV : forall t, Cmod (RtoC (i0 * a) * cis (2 * (psi + RM * l0)) * t)%C = i0 * a * Cmod t) by (intros t; rewrite !Cmod_mult, Cmod_cis, Cmod_R, Rabs_pos_eq by lra; ring).
    assert (UN : Measure_Spec.uniform phi (- INR h * step) step) by (intros j Hj; rewrite VP by auto; ring).
    assert (LT : forall j, (j < List.length phi)%nat -> j <> ia -> Cmod (RMSF_spec (chans p) l0 (nth j phi 0 - RM)) < 1).
    { intros j Hj Hji. apply (tells_lt phi); [exact TL|now apply nth_In|]. rewrite <- ERM, !VP by lia. intros E. apply Hji. apply INR_eq. nra. }
    set (z := (RtoC (i0 * a) * cis (2 * (psi + RM * l0)))%C). assert (MZ : Cmod z = i0 * a) by (unfold z; rewrite Cmod_mult, Cmod_cis, Cmod_R, Rabs_pos_eq by lra; ring).
    assert (ZI : nth ia FDF None = Some z).
    { rewrite VAL by lia. f_equal. rewrite ERM. replace (RM - RM) with 0 by ring. rewrite RMSF_at_0 by lra. unfold z. ring. }
    assert (ES : Cmod (RMSF_spec (chans p) l0 (nth (ia - 1) phi 0 - RM)) = Cmod (RMSF_spec (chans p) l0 (nth (ia + 1) phi 0 - RM))).
    { rewrite <- ERM, !VP, minus_INR, plus_INR by lia. simpl (INR 1).
      replace ((INR ia - 1 - INR h) * step - (INR ia - INR h) * step) with (- ((INR ia + 1 - INR h) * step - (INR ia - INR h) * step)) by ring. apply RMSF_even. }
    assert (Z0 : z <> RtoC 0) by (intros Z0; rewrite Z0, Cmod_0 in MZ; lra).
    pose proof (VAL (ia - 1)%nat ltac:(lia)) as V1. pose proof (VAL (ia + 1)%nat ltac:(lia)) as V3.
    set (fwp := nth (p ax * len (i_naxis F) ay + p ay) (flat fw) None) in *.
    destruct (measure_exact FDF phi fwp (noise_of variance noise (Some i0)) (map lsq freq) l0 5 LF _ step Hs UN ia z _ _ Hia ZI Z0 V1 V3)
      as (q & va & M & R1 & R2 & R3 & _ & _ & R4 & R5 & R6 & va0 & R7 & R8 & R9).
    { rewrite !MV, ES. reflexivity. }
    { rewrite MV, MZ. pose proof (LT (ia - 1)%nat ltac:(lia) ltac:(lia)). nra. }
    { intros j v Hj Hji Ev. rewrite VAL in Ev by lia. injection Ev as <-. rewrite MV, MZ. pose proof (LT j ltac:(lia) Hji). nra. }
    rewrite M in VV. rewrite ERM in R1, R9. rewrite MZ in R2.
    assert (SA : same_angle va ((psi + RM * l0) * 180 / PI)).
    { apply (orientation_unique z); auto. exists (i0 * a). split; [lra|]. unfold z. do 2 f_equal. field. apply PI_neq0. }
    assert (SH : forall P v, (forall u, reports freq l0 q fwp (Some i0) (noise_of variance noise (Some i0)) P u -> u = Some v) -> shown P v).
    { intros P v HP' IP. destruct Mm as (_ & MN & _). assert (IN : In (s (product_name P)) (names Ps)) by (unfold names; apply (in_map (fun P => s (product_name P))); exact IP).
      apply MN in IN. apply in_map_iff in IN. destruct IN as ((nm & mp) & En & Inm). cbn in En. subst nm. exists mp. split; [exact Inm|]. apply HP'. now apply VV. }
    split; [apply SH; cbn; congruence|]. split; [apply SH; cbn; congruence|]. split; [apply SH; cbn; congruence|]. split; [apply SH; cbn; congruence|]. split; [apply SH; cbn; congruence|].
    split; [exists va; split; [exact R5|]; split; [exact SA|apply SH; cbn; congruence]|].
    exists va0. split; [exact R8|]. split; [|apply SH; cbn; congruence].
    eapply same_angle_trans; [exact R9|]. eapply same_angle_trans; [apply (same_angle_plus va _ (- (RM * l0 * 180 / PI)) SA)|]. exists 0%Z. field. apply PI_neq0.
  Qed.
End Thin.
