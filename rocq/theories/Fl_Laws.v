(** Consequences of the error bound, the spread function, and single precision. *)
From Coq Require Import Reals List Arith ZArith Lra Lia Psatz Bool Permutation.
Set Warnings "-ambiguous-paths".
From Coquelicot Require Import Coquelicot.
From Verif Require Import CBase NdArray Synth_Model Synth_Spec Synth_Proofs Synth_Laws QU_Proofs Fl_Model Fl_Spec Fl_Proofs Fl_Synth.
Import ListNotations.
Local Open Scope R_scope.

(* ------------------------------------------------ without rounding *)

Lemma scale_id : forall z x, scale_fl (fun y => y) z x = (z * RtoC x)%C.
Proof. intros [a b] x. unfold scale_fl, Cmult, RtoC. cbn [fst snd]. f_equal; ring. Qed.

(** with exact arithmetic the model is the model of Synth_Model *)
Theorem fl_exact : forall dataQ dataU l2 phi wA lam0in,
  do_rmsynth_planes_fl (fun x => x) (fun x => x) rsum nufft1d3 dataQ dataU l2 phi wA lam0in =
  do_rmsynth_planes dataQ dataU l2 phi wA lam0in.
Proof.
  intros. unfold do_rmsynth_planes_fl, do_rmsynth_planes.
  set (w0 := prep_weights (length l2) wA). set (m := prodn (tl (shape dataQ))). set (n := length l2).
  assert (P : forall j p, pC_fl (fun x => x) m (flat dataQ) (flat dataU) w0 j p = pC m (flat dataQ) (flat dataU) w0 j p).
  { intros. unfold pC_fl, pC, pcell_fl, pcell. destruct (at2 m None (flat dataQ) j p), (at2 m None (flat dataU) j p); try reflexivity.
    now rewrite scale_id. }
  assert (EL : lam0_used_fl (fun x => x) rsum n m (flat dataQ) (flat dataU) l2 w0 lam0in = lam0_used n m (flat dataQ) (flat dataU) l2 w0 lam0in).
  { unfold lam0_used_fl, lam0_used. rewrite w_eff_fl_eq. reflexivity. }
  assert (EO : forall k p, out_cell_fl (fun x => x) (fun x => x) rsum nufft1d3 n m (flat dataQ) (flat dataU) l2 phi w0 lam0in k p =
                           out_cell n m (flat dataQ) (flat dataU) l2 phi w0 lam0in k p).
  { intros k p.
    assert (EF : FDF_pix_fl (fun x => x) (fun x => x) rsum nufft1d3 n m (flat dataQ) (flat dataU) l2 phi w0 lam0in p =
                 FDF_pix n m (flat dataQ) (flat dataU) l2 phi w0 lam0in p).
    { unfold FDF_pix_fl, FDF_pix. rewrite EL.
      assert (EK : K_pix_fl (fun x => x) rsum n m (flat dataQ) (flat dataU) w0 p = K_pix n m (flat dataQ) (flat dataU) w0 p).
      { unfold K_pix_fl, K_pix, inv_or_0_fl, inv_or_0. rewrite w_eff_fl_eq.
        rewrite (map_ext (fun j => if is_some (pC_fl (fun x => x) m (flat dataQ) (flat dataU) w0 j p) then nth j (w_eff n m (flat dataQ) (flat dataU) w0) 0 else 0)
                         (fun j => if is_some (pC m (flat dataQ) (flat dataU) w0 j p) then nth j (w_eff n m (flat dataQ) (flat dataU) w0) 0 else 0)) by (intro; now rewrite P).
        reflexivity. }
      rewrite EK. rewrite (map_ext (fun j => nan_to_num (pC_fl (fun x => x) m (flat dataQ) (flat dataU) w0 j p)) (fun j => nan_to_num (pC m (flat dataQ) (flat dataU) w0 j p))) by (intro; now rewrite P).
      apply map_ext. intro z. apply scale_id. }
    unfold out_cell_fl, out_cell, zero_pix_fl, zero_pix. rewrite EF. reflexivity. }
  rewrite EL. replace (tab2 (length phi) m (out_cell_fl (fun x => x) (fun x => x) rsum nufft1d3 n m (flat dataQ) (flat dataU) l2 phi w0 lam0in))
    with (tab2 (length phi) m (out_cell n m (flat dataQ) (flat dataU) l2 phi w0 lam0in)); [reflexivity|].
  unfold tab2. rewrite !flat_map_concat_map. f_equal. apply map_ext. intro k. apply map_ext. intro p. symmetry. apply EO.
Qed.

Lemma nufft_exact : transforms nufft1d3 0.
Proof.
  intros x c s L. split; [unfold nufft1d3; now rewrite map_length|]. intros k Hk. unfold nufft1d3.
  set (F := fun sk : R => csum (map (fun xc : R * C => (snd xc * cis (sk * fst xc))%C) (combine x c))).
  rewrite nth_indep with (d' := F 0) by (rewrite map_length; lia). rewrite map_nth. unfold F.
  rewrite (list_as_seq x 0) at 1. rewrite (list_as_seq c (RtoC 0)) at 1. rewrite L, combine_map_same, map_map. cbn [fst snd].
  match goal with |- Cmod ?z <= _ => replace z with (RtoC 0) by ring end. rewrite Cmod_0. lra.
Qed.

Lemma sum_exact : forall n, sums rsum n 0.
Proof. intros n l _. rewrite Rminus_diag_eq, Rabs_R0 by reflexivity. lra. Qed.

(* --------------------------------------------------- thin sources *)

Lemma mean_P_thin : forall chs amp psi RM, 0 <= amp -> 0 < wsum chs ->
  (forall c, In c chs -> c_P c = thin amp psi RM (c_l2 c)) -> mean_P chs = amp.
Proof.
  intros chs amp psi RM Ha HW H. unfold mean_P.
  rewrite (rsum_map_ext _ (fun c => amp * c_w c)).
  - rewrite rsum_map_scal. fold (wsum chs). field. lra.
  - intros c Hc. rewrite (H c Hc). unfold thin. rewrite Cmod_mult, Cmod_cis, Cmod_RtoC_pos by auto. ring.
Qed.

Theorem thin_fl : forall rnd rndw sumf nufft u v g eps dataQ dataU l2 phi wA lam0in p amp psi RM,
  rounds rnd u -> rounds rndw v -> sums sumf (length l2) g -> transforms nufft eps ->
  0 <= u -> 0 <= v -> 0 <= g < 1 -> 0 <= eps ->
  valid_synth dataQ dataU l2 wA -> antisym phi -> nonneg_w wA -> 0 <= amp ->
  (p < npix dataQ)%nat -> thin_pixel dataQ dataU l2 p amp psi RM ->
  let chs := pixel_chans (length l2) (npix dataQ) (flat dataQ) (flat dataU) l2 (weights_of (length l2) wA) p in
  0 < wsum chs ->
  exists r, do_rmsynth_planes_fl rnd rndw sumf nufft dataQ dataU l2 phi wA lam0in = Some r /\
    forall D, (forall c, In c chs -> Rabs (c_l2 c - synth_lam0 r) <= D) ->
    let F k := blank0 (at2 (npix dataQ) None (flat (FDFcube r)) k p) in
    let E k := synth_err u v g eps (2 * Rabs (nth k phi 0) * D) in
    (forall k, (k < length phi)%nat -> Cmod (F k) <= amp * (1 + E k)) /\
    (forall k, (k < length phi)%nat -> nth k phi 0 = RM ->
       Rabs (Cmod (F k) - amp) <= amp * E k /\
       Cmod (F k - RtoC amp * cis (2 * (psi + RM * synth_lam0 r)))%C <= amp * E k).
Proof.
  intros rnd rndw sumf nufft u v g eps dataQ dataU l2 phi wA lam0in p amp psi RM Hr Hw Hs HF Hu Hv Hg He V A NW Ha Hp T chs HW.
  destruct (synth_fl_close rnd rndw sumf nufft u v g eps dataQ dataU l2 phi wA lam0in Hr Hw Hs HF Hu Hv Hg He V A NW) as (r & r0 & E & _ & _ & CL).
  exists r. split; [exact E|]. intros D HD F EE.
  assert (TH : forall c, In c chs -> c_P c = thin amp psi RM (c_l2 c)).
  { intros c Hc. apply pixel_chans_In in Hc. destruct Hc as (j & q & uu & Hj & E1 & E2 & ->). cbn [c_P c_l2]. now apply T. }
  assert (WN : forall c, In c chs -> 0 <= c_w c).
  { intros c Hc. apply pixel_chans_In in Hc. destruct Hc as (j & q & uu & Hj & E1 & E2 & ->). cbn [c_w]. now apply prep_nonneg. }
  assert (MP : mean_P chs = amp) by (eapply mean_P_thin; eauto).
  assert (CL' : forall k, (k < length phi)%nat -> Cmod (F k - FDF_spec chs (synth_lam0 r) (nth k phi 0))%C <= EE k * amp).
  { intros k Hk. pose proof (CL k p D Hk Hp HW HD) as Q. fold chs in Q. rewrite MP in Q. exact Q. }
  assert (FS : forall f, FDF_spec chs (synth_lam0 r) f = (RtoC amp * cis (2 * (psi + RM * synth_lam0 r)) * RMSF_spec chs (synth_lam0 r) (f - RM))%C)
    by (intro f; now apply FDF_thin).
  assert (UB : forall f, Cmod (FDF_spec chs (synth_lam0 r) f) <= amp).
  { intro f. rewrite FS, !Cmod_mult, Cmod_cis, Cmod_RtoC_pos by auto.
    pose proof (RMSF_le_1 chs (synth_lam0 r) (f - RM) WN HW). pose proof (Cmod_ge_0 (RMSF_spec chs (synth_lam0 r) (f - RM))). nra. }
  split.
  - intros k Hk. pose proof (CL' k Hk) as Q. pose proof (Cmod_near (F k) (FDF_spec chs (synth_lam0 r) (nth k phi 0))). pose proof (UB (nth k phi 0)). lra.
  - intros k Hk EK. pose proof (CL' k Hk) as Q. rewrite EK in Q.
    assert (EZ : FDF_spec chs (synth_lam0 r) RM = (RtoC amp * cis (2 * (psi + RM * synth_lam0 r)))%C).
    { rewrite FS. replace (RM - RM) with 0 by ring. rewrite RMSF_at_0 by lra. ring. }
    rewrite EZ in Q.
    assert (MZ : Cmod (RtoC amp * cis (2 * (psi + RM * synth_lam0 r)))%C = amp).
    { rewrite Cmod_mult, Cmod_cis, Cmod_RtoC_pos by auto. ring. }
    split; [|lra]. pose proof (Cmod_near (F k) (RtoC amp * cis (2 * (psi + RM * synth_lam0 r)))%C) as N1.
    pose proof (Cmod_near (RtoC amp * cis (2 * (psi + RM * synth_lam0 r)))%C (F k)) as N2.
    rewrite (Cmod_minus_sym _ (F k)) in N2. rewrite MZ in *. apply Rabs_le. lra.
Qed.

(** the highest sample stays the highest when it leads by more than the errors *)
Theorem peak_fl : forall rnd rndw sumf nufft u v g eps dataQ dataU l2 phi wA lam0in p,
  rounds rnd u -> rounds rndw v -> sums sumf (length l2) g -> transforms nufft eps ->
  0 <= u -> 0 <= v -> 0 <= g < 1 -> 0 <= eps ->
  valid_synth dataQ dataU l2 wA -> antisym phi -> nonneg_w wA -> (p < npix dataQ)%nat ->
  let chs := pixel_chans (length l2) (npix dataQ) (flat dataQ) (flat dataU) l2 (weights_of (length l2) wA) p in
  0 < wsum chs ->
  exists r, do_rmsynth_planes_fl rnd rndw sumf nufft dataQ dataU l2 phi wA lam0in = Some r /\
    forall D k0, (forall c, In c chs -> Rabs (c_l2 c - synth_lam0 r) <= D) -> (k0 < length phi)%nat ->
    let F k := blank0 (at2 (npix dataQ) None (flat (FDFcube r)) k p) in
    let E k := synth_err u v g eps (2 * Rabs (nth k phi 0) * D) * mean_P chs in
    let X k := FDF_spec chs (synth_lam0 r) (nth k phi 0) in
    (forall k, (k < length phi)%nat -> k <> k0 -> Cmod (X k) + E k + E k0 < Cmod (X k0)) ->
    forall k, (k < length phi)%nat -> k <> k0 -> Cmod (F k) < Cmod (F k0).
Proof.
  intros rnd rndw sumf nufft u v g eps dataQ dataU l2 phi wA lam0in p Hr Hw Hs HF Hu Hv Hg He V A NW Hp chs HW.
  destruct (synth_fl_close rnd rndw sumf nufft u v g eps dataQ dataU l2 phi wA lam0in Hr Hw Hs HF Hu Hv Hg He V A NW) as (r & r0 & E & _ & _ & CL).
  exists r. split; [exact E|]. intros D k0 HD Hk0 F EE X GAP k Hk NE.
  pose proof (CL k p D Hk Hp HW HD) as Q. pose proof (CL k0 p D Hk0 Hp HW HD) as Q0. fold chs in Q, Q0.
  specialize (GAP k Hk NE).
  pose proof (Cmod_near (F k) (X k)). pose proof (Cmod_near (X k0) (F k0)) as N0. rewrite (Cmod_minus_sym (X k0) (F k0)) in N0.
  unfold EE, X, F in *. lra.
Qed.

(* ------------------------------------------------ spread function *)

Lemma sumc_close : forall sumf n g l, sums sumf n g -> 0 <= g -> length l = n ->
  Cmod (sumc sumf l - csum l)%C <= 2 * g * rsum (map Cmod l).
Proof.
  intros sumf n g l H Hg L. unfold sumc.
  assert (E : csum l = (rsum (map fst l), rsum (map snd l))).
  { clear. induction l as [|z l IH]; [reflexivity|]. rewrite csum_cons, IH. cbn [map]. rewrite !rsum_cons. reflexivity. }
  rewrite E. pose proof (H (map fst l) ltac:(now rewrite map_length)) as A. pose proof (H (map snd l) ltac:(now rewrite map_length)) as B.
  assert (forall f : C -> R, (forall z, Rabs (f z) <= Cmod z) -> rsum (map Rabs (map f l)) <= rsum (map Cmod l)) as Q.
  { intros f Hf. rewrite map_map. apply rsum_le. intros; apply Hf. }
  pose proof (Q fst (fun z => Rle_trans _ _ _ (Rmax_l _ _) (Rmax_Cmod z))) as QA.
  pose proof (Q snd (fun z => Rle_trans _ _ _ (Rmax_r _ _) (Rmax_Cmod z))) as QB.
  set (x := sumf (map fst l)) in *. set (y := sumf (map snd l)) in *. set (a := rsum (map fst l)) in *. set (b := rsum (map snd l)) in *.
  replace ((x, y) - (a, b))%C with (RtoC (x - a) + (0, 1) * RtoC (y - b))%C
    by (unfold Cminus, Cplus, Copp, Cmult, RtoC; cbn [fst snd]; f_equal; ring).
  eapply Rle_trans; [apply Cmod_triangle|]. rewrite Cmod_mult, !Cmod_R.
  replace (Cmod (0, 1)) with 1.
  2:{ unfold Cmod. cbn [fst snd]. replace (0 ^ 2 + 1 ^ 2) with 1 by ring. symmetry. apply sqrt_1. }
  assert (g * rsum (map Rabs (map fst l)) <= g * rsum (map Cmod l)) by (apply Rmult_le_compat_l; auto).
  assert (g * rsum (map Rabs (map snd l)) <= g * rsum (map Cmod l)) by (apply Rmult_le_compat_l; auto). lra.
Qed.

Theorem rmsf_fl_close : forall rnd rndw sumf expf u v g e w l2 phi2 l0 D k,
  rounds rnd u -> rounds rndw v -> sums sumf (length l2) g -> exps expf e ->
  0 <= u -> 0 <= v -> 0 <= g < 1 -> 0 <= e -> length w = length l2 -> (forall x, In x w -> 0 <= x) ->
  let chs := wl_chans w l2 in
  0 < wsum chs -> (forall l, In l l2 -> Rabs (l - l0) <= D) -> (k < length phi2)%nat ->
  exists z, nth k (rmsf_1d_fl rnd rndw sumf expf w l2 phi2 (Some l0)) None = Some z /\
    Cmod (z - RMSF_spec chs l0 (nth k phi2 0))%C <= rmsf_err u v g e (2 * Rabs (nth k phi2 0) * D).
Proof.
  intros rnd rndw sumf expf u v g e w l2 phi2 l0 D k Hr Hw Hs HE Hu Hv Hg He LW WN chs HW HD Hk.
  assert (SW : rsum w = wsum chs).
  { unfold chs, wl_chans, wsum. rewrite map_map. cbn [c_w]. rewrite (list_as_seq w 0) at 1. rewrite (list_as_seq w 0) at 2. rewrite (list_as_seq l2 0), LW.
    rewrite combine_map_same, map_map. reflexivity. }
  pose proof (Hs w LW) as E1. rewrite abs_nonneg in E1 by exact WN. rewrite SW in E1.
  destruct (inverse_close rndw v g (wsum chs) (sumf w) Hw Hv Hg HW E1) as [P EK].
  unfold rmsf_1d_fl. cbn [rmsf_lam0_fl].
  set (f := nth k phi2 0).
  set (G := fun f0 : R => if Req_EM_T (sumf w) 0 then None else _).
  rewrite nth_indep with (d' := G 0) by (rewrite map_length; lia). rewrite map_nth. fold f. unfold G. clear G.
  destruct (Req_EM_T (sumf w) 0); [lra|]. eexists. split; [reflexivity|].
  set (K := rndw (1 / sumf w)) in *.
  set (L := map _ (combine w l2)).
  assert (LL : length L = length l2) by (unfold L; rewrite map_length, combine_length, LW; apply Nat.min_id).
  pose proof (sumc_close sumf (length l2) g L Hs ltac:(lra) LL) as E2.
  assert (CW : forall wl, In wl (combine w l2) -> 0 <= fst wl /\ In (snd wl) l2).
  { intros [a b] H. split; [apply in_combine_l in H; auto|apply in_combine_r in H; auto]. }
  set (th := ((1 + u) * (1 + v) ^ 2 - 1) * (2 * Rabs f * D)).
  assert (pe0 : 0 <= (1 + u) * (1 + v) ^ 2 - 1) by nra.
  assert (PH : forall l, In l l2 -> Rabs (rndw (rnd (-2 * f) * rndw (l - l0)) - (-2 * f) * (l - l0)) <= th).
  { intros l Hl. assert (0 <= (1 + u) * (1 + v) - 1) as P1 by nra.
    pose proof (close_trans _ _ _ _ _ Hv P1 (Hw (rnd (-2 * f) * rndw (l - l0))) (close_mult _ _ _ _ _ _ Hu Hv (Hr (-2 * f)) (Hw (l - l0)))) as Q.
    unfold close in Q. eapply Rle_trans; [exact Q|]. unfold th. rewrite Rabs_mult.
    replace ((1 + v) * (1 + ((1 + u) * (1 + v) - 1)) - 1) with ((1 + u) * (1 + v) ^ 2 - 1) by ring.
    apply Rmult_le_compat_l; auto. rewrite Rabs_mult. replace (Rabs (-2)) with 2 by (rewrite Rabs_left; lra).
    apply Rmult_le_compat_l; [|auto]. pose proof (Rabs_pos f). lra. }
  set (W := wsum chs) in *.
  assert (WS : forall c : R, rsum (map (fun wl => c * fst wl) (combine w l2)) = c * W).
  { intro c. rewrite rsum_map_scal. f_equal. unfold W, wsum, chs, wl_chans. rewrite map_map. reflexivity. }
  set (S := csum (map (fun c => (RtoC (c_w c) * cis (-2 * f * (c_l2 c - l0)))%C) chs)).
  assert (ES : S = csum (map (fun wl => (RtoC (fst wl) * cis (-2 * f * (snd wl - l0)))%C) (combine w l2))).
  { unfold S, chs, wl_chans. rewrite map_map. reflexivity. }
  assert (B1 : forall wl, In wl (combine w l2) ->
    Cmod (scale_fl rndw (expf (rndw (rnd (-2 * f) * rndw (snd wl - l0)))%R) (fst wl)
          - RtoC (fst wl) * cis (-2 * f * (snd wl - l0)))%C <= ((1 + v) * (1 + e) - 1 + th) * fst wl /\
    Cmod (scale_fl rndw (expf (rndw (rnd (-2 * f) * rndw (snd wl - l0)))%R) (fst wl)) <= (1 + v) * (1 + e) * fst wl).
  { intros wl Hwl. destruct (CW wl Hwl) as [W1 W2]. specialize (PH (snd wl) W2).
    set (t := rndw (rnd (-2 * f) * rndw (snd wl - l0))) in *. set (t0 := -2 * f * (snd wl - l0)) in *.
    pose proof (Cmod_scale rndw v (expf t) (fst wl) Hw Hv) as A1. rewrite (Rabs_pos_eq (fst wl) W1) in A1.
    pose proof (HE t) as A2. pose proof (cis_lip t t0) as A3.
    pose proof (Cmod_near (expf t) (cis t)) as A4. rewrite Cmod_cis in A4.
    assert (A5 : v * Cmod (expf t) * fst wl <= v * (1 + e) * fst wl). { apply Rmult_le_compat_r; auto. apply Rmult_le_compat_l; lra. }
    split.
    - replace (scale_fl rndw (expf t) (fst wl) - RtoC (fst wl) * cis t0)%C with
        ((scale_fl rndw (expf t) (fst wl) - expf t * RtoC (fst wl)) + RtoC (fst wl) * ((expf t - cis t) + (cis t - cis t0)))%C by ring.
      eapply Rle_trans; [apply Cmod_triangle|]. rewrite Cmod_mult, (Cmod_RtoC_pos (fst wl) W1).
      assert (Cmod (expf t - cis t + (cis t - cis t0))%C <= e + th) as A6 by (eapply Rle_trans; [apply Cmod_triangle|]; lra).
      assert (fst wl * Cmod (expf t - cis t + (cis t - cis t0))%C <= fst wl * (e + th)) by (apply Rmult_le_compat_l; auto). lra.
    - pose proof (Cmod_near (scale_fl rndw (expf t) (fst wl)) (expf t * RtoC (fst wl))%C) as A6. rewrite Cmod_mult, (Cmod_RtoC_pos (fst wl) W1) in A6.
      assert (Cmod (expf t) * fst wl <= (1 + e) * fst wl) by (apply Rmult_le_compat_r; lra). lra. }
  assert (B2 : Cmod (csum L - S)%C <= ((1 + v) * (1 + e) - 1 + th) * W).
  { rewrite ES, <- WS. unfold L. apply csum_diff. intros wl Hwl. apply B1; auto. }
  assert (B3 : rsum (map Cmod L) <= (1 + v) * (1 + e) * W).
  { rewrite <- WS. unfold L. rewrite map_map. apply rsum_le. intros wl Hwl. apply B1; auto. }
  set (N := sumc sumf L) in *.
  set (ee := (1 + 2 * g) * (1 + v) * (1 + e) - 1 + th).
  assert (B4 : Cmod (N - S)%C <= ee * W).
  { eapply Rle_trans; [apply (Cmod_triangle3 N (csum L) S)|].
    assert (2 * g * rsum (map Cmod L) <= 2 * g * ((1 + v) * (1 + e) * W)) by (apply Rmult_le_compat_l; lra). unfold ee. lra. }
  assert (SA : Cmod S <= W).
  { rewrite ES. eapply Rle_trans; [apply Cmod_csum|]. rewrite <- (Rmult_1_l W), <- WS. apply rsum_le. intros wl Hwl.
    rewrite Cmod_mult, Cmod_cis, Cmod_RtoC_pos by (apply CW; auto). lra. }
  assert (th0 : 0 <= th).
  { destruct l2 as [|l l2']; [destruct w; [unfold W, wsum, chs, wl_chans in HW; cbn in HW; rewrite rsum_nil in HW; lra|discriminate]|].
    pose proof (PH l (or_introl eq_refl)). pose proof (Rabs_pos (rndw (rnd (-2 * f) * rndw (l - l0)) - -2 * f * (l - l0))). lra. }
  assert (ee0 : 0 <= ee). { unfold ee. assert (1 <= (1 + 2 * g) * (1 + v)) by nra. assert (1 <= (1 + 2 * g) * (1 + v) * (1 + e)) by nra. lra. }
  unfold RMSF_spec. fold W S. replace (S / RtoC W)%C with (S * RtoC (1 / W))%C by (apply RtoC_inv_mult; lra).
  assert (IW : 0 < 1 / W) by (apply Rdiv_lt_0_compat; lra).
  set (kap := (1 + v) / (1 - g) - 1) in *.
  assert (KP : Rabs K <= (1 + kap) * (1 / W)).
  { pose proof (Rabs_triang_inv K (1 / W)) as H. rewrite (Rabs_pos_eq (1 / W)) in H by lra. lra. }
  assert (kap0 : 0 <= kap). { pose proof (Rabs_pos (K - 1 / W)). nra. }
  pose proof (Cmod_scale rndw v N K Hw Hv) as B5. pose proof (Cmod_near N S) as B6.
  replace (scale_fl rndw N K - S * RtoC (1 / W))%C with
    ((scale_fl rndw N K - N * RtoC K) + ((N - S) * RtoC K + S * RtoC (K - 1 / W)))%C by (rewrite RtoC_minus; ring).
  eapply Rle_trans; [apply Cmod_triangle|].
  assert (B7 : Cmod ((N - S) * RtoC K + S * RtoC (K - 1 / W))%C <= ee * W * Rabs K + W * (kap * (1 / W))).
  { eapply Rle_trans; [apply Cmod_triangle|]. rewrite !Cmod_mult, !Cmod_R.
    apply Rplus_le_compat; apply Rmult_le_compat; auto using Cmod_ge_0, Rabs_pos, Rle_refl. }
  assert (B8 : v * Cmod N * Rabs K <= v * ((1 + ee) * W) * Rabs K).
  { apply Rmult_le_compat_r; [apply Rabs_pos|]. apply Rmult_le_compat_l; lra. }
  apply Rle_trans with ((v * (1 + ee) + ee) * W * Rabs K + W * (kap * (1 / W))); [lra|].
  assert (0 <= (v * (1 + ee) + ee) * W) as P0. { apply Rmult_le_pos; [|lra]. assert (0 <= v * (1 + ee)) by (apply Rmult_le_pos; lra). lra. }
  apply Rle_trans with ((v * (1 + ee) + ee) * W * ((1 + kap) * (1 / W)) + W * (kap * (1 / W))).
  { apply Rplus_le_compat_r. apply Rmult_le_compat_l; auto. }
  unfold rmsf_err. apply Req_le. unfold ee, kap, th. field. lra.
Qed.
