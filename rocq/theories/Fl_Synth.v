(** The rounded transform is close to the exact one. *)
From Coq Require Import Reals List Arith ZArith Lra Lia Psatz Bool.
Set Warnings "-ambiguous-paths".
From Coquelicot Require Import Coquelicot.
From Verif Require Import CBase NdArray Synth_Model Synth_Spec Synth_Proofs Synth_Laws QU_Proofs Fl_Model Fl_Spec Fl_Proofs.
Import ListNotations.
Local Open Scope R_scope.

(** the inverse of a rounded sum *)
Lemma inverse_close : forall rnd u g W W', rounds rnd u -> 0 <= u -> 0 <= g < 1 -> 0 < W -> Rabs (W' - W) <= g * W ->
  0 < W' /\ Rabs (rnd (1 / W') - 1 / W) <= ((1 + u) / (1 - g) - 1) * (1 / W).
Proof.
  intros rnd u g W W' H Hu Hg HW E. apply Rabs_le_between in E.
  assert (P : 0 < W') by nra. split; [exact P|].
  assert (I : 1 / W' <= 1 / (1 - g) * (1 / W)).
  { replace (1 / (1 - g) * (1 / W)) with (/ ((1 - g) * W)) by (field; lra). unfold Rdiv. rewrite Rmult_1_l.
    apply Rinv_le_contravar; [nra|]. lra. }
  assert (J : (1 - g) * (1 / W) <= 1 / W').
  { apply (Rmult_le_reg_r (W * W')); [nra|]. replace ((1 - g) * (1 / W) * (W * W')) with ((1 - g) * W') by (field; lra).
    replace (1 / W' * (W * W')) with W by (field; lra). nra. }
  assert (IW : 0 < 1 / W) by (apply Rdiv_lt_0_compat; lra). assert (IW' : 0 < 1 / W') by (apply Rdiv_lt_0_compat; lra).
  set (y := 1 / W') in *. set (x := 1 / W) in *.
  assert (1 <= 1 / (1 - g)) as G1.
  { apply (Rmult_le_reg_r (1 - g)); [lra|]. unfold Rdiv. rewrite Rmult_1_l, Rmult_assoc, Rinv_l by lra. lra. }
  assert (1 - g >= 2 - 1 / (1 - g)) as G2.
  { apply Rle_ge. apply (Rmult_le_reg_r (1 - g)); [lra|]. replace ((2 - 1 / (1 - g)) * (1 - g)) with (2 * (1 - g) - 1) by (field; lra). nra. }
  assert (Rabs (y - x) <= (1 / (1 - g) - 1) * x) as Q by (apply Rabs_le; split; nra).
  pose proof (H y) as R. rewrite (Rabs_pos_eq y) in R by lra.
  replace (rnd y - x) with ((rnd y - y) + (y - x)) by ring. eapply Rle_trans; [apply Rabs_triang|].
  replace ((1 + u) / (1 - g)) with (1 / (1 - g) + u * (1 / (1 - g))) by (field; lra). nra.
Qed.

Section Core.
  Variables (rnd rndw : R -> R) (sumf : list R -> R) (nufft : list R -> list C -> list R -> list C) (u v g eps : R).
  Hypotheses (Hr : rounds rnd u) (Hw : rounds rndw v) (Hu : 0 <= u) (Hv : 0 <= v) (Hg : 0 <= g < 1) (He : 0 <= eps)
             (HF : transforms nufft eps).
  Variables (n m : nat) (Q U : list (option R)) (l2 phi w0 : list R) (lam0in : option R).
  Hypotheses (Hn : n = length l2) (Hs : sums sumf n g) (W0 : forall j, 0 <= nth j w0 0).

  Let chs := pixel_chans n m Q U l2 w0.
  Notation l0 := (lam0_used_fl rnd sumf n m Q U l2 w0 lam0in).

  Lemma pC_fl_some : forall j p, is_some (pC_fl rnd m Q U w0 j p) = is_some (pC m Q U w0 j p).
  Proof. intros. unfold pC_fl, pC, pcell_fl, pcell. destruct (at2 m None Q j p), (at2 m None U j p); reflexivity. Qed.

  Lemma plane_ok_fl_eq : forall j, plane_ok_fl rnd m Q U w0 j = plane_ok m Q U w0 j.
  Proof.
    intro j. unfold plane_ok_fl, plane_ok.
    assert (forall f g : nat -> bool, (forall x, f x = g x) -> forall l, existsb f l = existsb g l) as EX.
    { intros f h H l. induction l; simpl; congruence. }
    apply EX. intro p. apply pC_fl_some.
  Qed.

  Lemma w_eff_fl_eq : w_eff_fl rnd n m Q U w0 = w_eff n m Q U w0.
  Proof. unfold w_eff_fl, w_eff. apply map_ext. intro j. now rewrite plane_ok_fl_eq. Qed.

  Lemma w_eff_nonneg : forall j, 0 <= nth j (w_eff n m Q U w0) 0.
  Proof.
    intro j. destruct (nth_in_or_default j (w_eff n m Q U w0) 0) as [I|E]; [|lra]. revert I. generalize (nth j (w_eff n m Q U w0) 0).
    intros x I. unfold w_eff in I. apply in_map_iff in I. destruct I as (i & <- & _). destruct (plane_ok m Q U w0 i); [apply W0|lra].
  Qed.

  Lemma abs_nonneg : forall l, (forall x, In x l -> 0 <= x) -> rsum (map Rabs l) = rsum l.
  Proof.
    intros l H. rewrite <- (map_id l) at 2. apply rsum_map_ext. intros x Hx. apply Rabs_pos_eq. auto.
  Qed.

  Lemma K_close : forall p, (p < m)%nat -> 0 < wsum (chs p) ->
    Rabs (K_pix_fl rnd sumf n m Q U w0 p - 1 / wsum (chs p)) <= ((1 + u) / (1 - g) - 1) * (1 / wsum (chs p)).
  Proof.
    intros p Hp HW. unfold K_pix_fl.
    set (L := map _ (seq 0 n)).
    assert (EL : L = map (fun j => if is_some (pC m Q U w0 j p) then nth j (w_eff n m Q U w0) 0 else 0) (seq 0 n)).
    { unfold L. apply map_ext. intro j. now rewrite pC_fl_some, w_eff_fl_eq. }
    assert (ES : rsum L = wsum (chs p)).
    { pose proof (K_pix_eq n m Q U l2 w0 Hn p Hp) as E. unfold K_pix in E. rewrite <- EL in E. fold (chs p) in E.
      unfold inv_or_0 in E. destruct (Req_EM_T (wsum (chs p)) 0); [lra|].
      destruct (Req_EM_T (rsum L) 0) as [|N].
      - exfalso. assert (0 < 1 / wsum (chs p)) by (apply Rdiv_lt_0_compat; lra). lra.
      - unfold Rdiv in E. rewrite !Rmult_1_l in E. apply (f_equal Rinv) in E. rewrite !Rinv_inv in E. exact E. }
    assert (NN : forall x, In x L -> 0 <= x).
    { intros x Hx. rewrite EL in Hx. apply in_map_iff in Hx. destruct Hx as (j & <- & _).
      destruct (is_some _); [apply w_eff_nonneg|lra]. }
    pose proof (Hs L) as E. rewrite abs_nonneg in E by exact NN. rewrite ES in E.
    specialize (E ltac:(unfold L; rewrite map_length, seq_length; reflexivity)).
    destruct (inverse_close rnd u g (wsum (chs p)) (sumf L) Hr Hu Hg HW E) as [P E'].
    unfold inv_or_0_fl. destruct (Req_EM_T (sumf L) 0); [lra|]. exact E'.
  Qed.

  Definition gch (j p : nat) : option chan :=
    match nth (j * m + p) Q None, nth (j * m + p) U None with
    | Some q, Some u => Some (mk_chan (nth j l2 0) (nth j w0 0) (q, u)) | _, _ => None end.

  Lemma gch_in : forall j p c, (j < n)%nat -> gch j p = Some c -> In c (chs p).
  Proof.
    intros j p c Hj H. unfold chs, pixel_chans. apply in_flat_map. exists j. split; [apply in_seq; lia|].
    unfold gch in H. destruct (nth (j * m + p) Q None), (nth (j * m + p) U None); try discriminate H. left. congruence.
  Qed.

  Lemma chs_sum : forall (f : chan -> R) p,
    rsum (map f (chs p)) = rsum (map (fun j => match gch j p with Some c => f c | None => 0 end) (seq 0 n)).
  Proof.
    intros f p. unfold chs, pixel_chans. rewrite rsum_flat_map. apply rsum_map_ext. intros j _. unfold gch.
    destruct (nth (j * m + p) Q None), (nth (j * m + p) U None); cbn [map]; rewrite ?rsum_cons, ?rsum_nil; ring.
  Qed.

  Lemma chs_csum : forall (f : chan -> C) p,
    csum (map f (chs p)) = csum (map (fun j => match gch j p with Some c => f c | None => RtoC 0 end) (seq 0 n)).
  Proof.
    intros f p. unfold chs, pixel_chans. rewrite csum_flat_map. apply csum_map_ext. intros j _. unfold gch.
    destruct (nth (j * m + p) Q None), (nth (j * m + p) U None); cbn [map]; rewrite ?csum_cons, ?csum_nil; ring.
  Qed.

  Lemma pC_fl_gch : forall j p, nan_to_num (pC_fl rnd m Q U w0 j p) =
    match gch j p with Some c => scale_fl rnd (c_P c) (c_w c) | None => RtoC 0 end.
  Proof. intros. unfold pC_fl, pcell_fl, gch, at2. destruct (nth (j * m + p) Q None), (nth (j * m + p) U None); reflexivity. Qed.

  Lemma gch_val : forall j p c, gch j p = Some c -> c_l2 c = nth j l2 0 /\ c_w c = nth j w0 0.
  Proof.
    intros j p c H. unfold gch in H. destruct (nth (j * m + p) Q None), (nth (j * m + p) U None); try discriminate H.
    inversion H. auto.
  Qed.

  Definition ph_err : R := (1 + u) ^ 2 * (1 + v) - 1.
  Lemma ph_err_nonneg : 0 <= ph_err.
  Proof. unfold ph_err. assert (0 <= u * u) by nra. nra. Qed.

  Lemma phase_close : forall f l, Rabs (rnd (f * 2) * rnd (rndw (l - l0)) - 2 * f * (l - l0)) <= ph_err * (Rabs (2 * f) * Rabs (l - l0)).
  Proof.
    intros f l. pose proof (close_mult (rnd (f * 2)) (f * 2) u (rnd (rndw (l - l0))) (l - l0) ((1 + u) * (1 + v) - 1) Hu) as E.
    assert (0 <= (1 + u) * (1 + v) - 1) as P by nra. specialize (E P (Hr (f * 2))).
    specialize (E (close_trans _ _ _ _ _ Hu Hv (Hr _) (Hw _))). unfold close in E.
    replace (2 * f * (l - l0)) with (f * 2 * (l - l0)) by ring. replace (2 * f) with (f * 2) by ring.
    rewrite <- Rabs_mult. replace ph_err with ((1 + u) * (1 + ((1 + u) * (1 + v) - 1)) - 1) by (unfold ph_err; ring). exact E.
  Qed.

  Definition wP (c : chan) : R := c_w c * Cmod (c_P c).

  Lemma wP_nonneg : forall j p c, gch j p = Some c -> 0 <= wP c.
  Proof. intros j p c H. unfold wP. destruct (gch_val j p c H) as [_ ->]. apply Rmult_le_pos; [apply W0|apply Cmod_ge_0]. Qed.

  (** the sum evaluated by the transform *)
  Lemma sum_close : forall p f D, (forall c, In c (chs p) -> Rabs (c_l2 c - l0) <= D) ->
    Cmod (csum (map (fun j => nth j (map (fun j => nan_to_num (pC_fl rnd m Q U w0 j p)) (seq 0 n)) (RtoC 0) *
                              cis (rnd (f * 2) * nth j (map (fun l => rnd (rndw (l - l0))) l2) 0)) (seq 0 n))
          - raw (chs p) l0 f)%C <= (u + ph_err * (Rabs (2 * f) * D)) * rsum (map wP (chs p)).
  Proof.
    intros p f D HD. unfold raw. rewrite chs_csum, chs_sum, <- rsum_map_scal. apply csum_diff. intros j Hj. apply in_seq in Hj.
    rewrite (nth_map_seq (fun j => nan_to_num (pC_fl rnd m Q U w0 j p))) by lia.
    rewrite (nth_indep (map _ l2) 0 (rnd (rndw (0 - l0)))) by (rewrite map_length; lia).
    rewrite (map_nth (fun l => rnd (rndw (l - l0)))). change (0 + j)%nat with j. rewrite pC_fl_gch.
    destruct (gch j p) as [c|] eqn:G.
    2:{ match goal with |- Cmod ?z <= _ => replace z with (RtoC 0) by ring end. rewrite Cmod_0. lra. }
    destruct (gch_val j p c G) as [El Ew]. assert (HP := wP_nonneg j p c G).
    specialize (HD c (gch_in j p c ltac:(lia) G)). rewrite El in *.
    set (t' := rnd (f * 2) * rnd (rndw (nth j l2 0 - l0))). set (t := 2 * f * (nth j l2 0 - l0)).
    replace (scale_fl rnd (c_P c) (c_w c) * cis t' - RtoC (c_w c) * c_P c * cis t)%C with
      ((scale_fl rnd (c_P c) (c_w c) - c_P c * RtoC (c_w c)) * cis t' + c_P c * RtoC (c_w c) * (cis t' - cis t))%C by ring.
    eapply Rle_trans; [apply Cmod_triangle|]. rewrite !Cmod_mult, Cmod_cis, Rmult_1_r.
    pose proof (Cmod_scale rnd u (c_P c) (c_w c) Hr Hu) as E1.
    pose proof (cis_lip t' t) as E2. pose proof (phase_close f (nth j l2 0)) as E3. fold t' t in E3.
    assert (0 <= c_w c) as CW by (rewrite Ew; apply W0).
    rewrite (Cmod_RtoC_pos (c_w c) CW). rewrite (Rabs_pos_eq (c_w c) CW) in E1.
    unfold wP in *. pose proof ph_err_nonneg. pose proof (Rabs_pos (2 * f)). pose proof (Cmod_ge_0 (c_P c)).
    assert (Rabs (2 * f) * Rabs (nth j l2 0 - l0) <= Rabs (2 * f) * D) as E4 by (apply Rmult_le_compat_l; lra).
    assert (ph_err * (Rabs (2 * f) * Rabs (nth j l2 0 - l0)) <= ph_err * (Rabs (2 * f) * D)) as E5 by (apply Rmult_le_compat_l; lra).
    assert (Cmod (c_P c) * c_w c * Cmod (cis t' - cis t)%C <= Cmod (c_P c) * c_w c * (ph_err * (Rabs (2 * f) * D))) as E6 by (apply Rmult_le_compat_l; nra).
    nra.
  Qed.

  Lemma strengths_sum : forall p, rsum (map Cmod (map (fun j => nan_to_num (pC_fl rnd m Q U w0 j p)) (seq 0 n))) <= (1 + u) * rsum (map wP (chs p)).
  Proof.
    intro p. rewrite map_map, chs_sum, <- rsum_map_scal. apply rsum_le. intros j _. rewrite pC_fl_gch.
    destruct (gch j p) as [c|] eqn:G; [|rewrite Cmod_0; lra].
    destruct (gch_val j p c G) as [_ Ew]. assert (0 <= c_w c) as CW by (rewrite Ew; apply W0).
    pose proof (Cmod_scale rnd u (c_P c) (c_w c) Hr Hu) as E1. rewrite (Rabs_pos_eq (c_w c) CW) in E1.
    pose proof (Cmod_near (scale_fl rnd (c_P c) (c_w c)) (c_P c * RtoC (c_w c))%C) as E2.
    rewrite Cmod_mult, (Cmod_RtoC_pos (c_w c) CW) in E2. unfold wP. lra.
  Qed.

  Lemma wP_sum_nonneg : forall p, 0 <= rsum (map wP (chs p)).
  Proof.
    intro p. rewrite chs_sum. apply rsum_nonneg. intros x Hx. apply in_map_iff in Hx. destruct Hx as (j & <- & _).
    destruct (gch j p) as [c|] eqn:G; [eapply wP_nonneg; eauto|lra].
  Qed.

  Lemma FDF_pix_fl_len : forall p, length (FDF_pix_fl rnd rndw sumf nufft n m Q U l2 phi w0 lam0in p) = length phi.
  Proof.
    intro p. unfold FDF_pix_fl. rewrite map_length.
    match goal with |- length (nufft ?x ?c ?s) = _ => destruct (HF x c s) as [L _]; [rewrite !map_length, seq_length; lia|] end.
    rewrite L, map_length, rev_length. reflexivity.
  Qed.

  Lemma FDF_fl_close : forall k p D, (k < length phi)%nat -> (p < m)%nat -> 0 < wsum (chs p) ->
    (forall c, In c (chs p) -> Rabs (c_l2 c - l0) <= D) -> 0 <= D ->
    let f := nth (length phi - 1 - k) phi 0 in
    Cmod (nth k (FDF_pix_fl rnd rndw sumf nufft n m Q U l2 phi w0 lam0in p) (RtoC 0) -
          raw (chs p) l0 f * RtoC (1 / wsum (chs p)))%C
    <= synth_err u v g eps (Rabs (2 * f) * D) * (rsum (map wP (chs p)) / wsum (chs p)).
  Proof.
    intros k p D Hk Hp HW HD D0 f. unfold FDF_pix_fl.
    set (xs := map _ l2). set (cs := map _ (seq 0 n)). set (ss := map _ (rev phi)). set (K := K_pix_fl rnd sumf n m Q U w0 p).
    assert (LX : length xs = n) by (unfold xs; rewrite map_length; auto).
    assert (LC : length cs = length xs) by (rewrite LX; unfold cs; rewrite map_length, seq_length; auto).
    assert (LS : length ss = length phi) by (unfold ss; rewrite map_length, rev_length; auto).
    destruct (HF xs cs ss LC) as [LN EN]. specialize (EN k ltac:(lia)). rewrite LX in EN.
    rewrite nth_indep with (d' := scale_fl rnd (RtoC 0) K) by (rewrite map_length; lia).
    rewrite (map_nth (fun z => scale_fl rnd z K)). set (N := nth k (nufft xs cs ss) (RtoC 0)) in *.
    assert (ES : nth k ss 0 = rnd (f * 2)).
    { unfold ss. rewrite nth_indep with (d' := rnd (0 * 2)) by (rewrite map_length, rev_length; lia).
      rewrite (map_nth (fun f => rnd (f * 2))), rev_nth by lia. unfold f. do 3 f_equal. lia. }
    rewrite ES in EN.
    pose proof (sum_close p f D HD) as EA. fold cs xs in EA.
    pose proof (Cmod_triangle3 N (csum (map (fun j => nth j cs (RtoC 0) * cis (rnd (f * 2) * nth j xs 0)%R) (seq 0 n))%C) (raw (chs p) l0 f)) as T.
    pose proof (strengths_sum p) as SS. fold cs in SS.
    set (A := rsum (map wP (chs p))) in *. assert (A0 : 0 <= A) by apply wP_sum_nonneg.
    set (S := raw (chs p) l0 f) in *.
    set (th := ph_err * (Rabs (2 * f) * D)) in *.
    assert (0 <= th) as TH. { unfold th. pose proof ph_err_nonneg. pose proof (Rabs_pos (2 * f)). apply Rmult_le_pos; [auto|]. apply Rmult_le_pos; auto. }
    assert (E1 : Cmod (N - S)%C <= ((1 + u) * (1 + eps + th) - 1) * A).
    { assert (eps * rsum (map Cmod cs) <= eps * ((1 + u) * A)) by (apply Rmult_le_compat_l; lra).
      assert (0 <= u * th * A) by (apply Rmult_le_pos; [apply Rmult_le_pos|]; auto). nra. }
    clear T SS EA EN.
    assert (SA : Cmod S <= A).
    { unfold S, raw. eapply Rle_trans; [apply Cmod_csum|]. unfold A. apply rsum_le. intros c Hc.
      rewrite !Cmod_mult, Cmod_cis. unfold wP.
      apply pixel_chans_In in Hc. destruct Hc as (j & q & uu & Hj & E1' & E2' & ->). cbn [c_w c_P].
      rewrite Cmod_RtoC_pos by apply W0. lra. }
    pose proof (K_close p Hp HW) as EK. fold K in EK.
    set (W := wsum (chs p)) in *. assert (IW : 0 < 1 / W) by (apply Rdiv_lt_0_compat; lra).
    pose proof (Cmod_scale rnd u N K Hr Hu) as E2.
    set (kap := (1 + u) / (1 - g) - 1) in *.
    assert (KP : Rabs K <= (1 + kap) * (1 / W)).
    { pose proof (Rabs_triang_inv K (1 / W)). rewrite (Rabs_pos_eq (1 / W)) in H by lra. lra. }
    pose proof (Cmod_near N S) as NS.
    set (e := (1 + u) * (1 + eps + th) - 1) in *.
    assert (e0 : 0 <= e). { unfold e. assert (0 <= u * (eps + th)) by (apply Rmult_le_pos; lra). nra. }
    assert (kap0 : 0 <= kap).
    { pose proof (Rabs_pos (K - 1 / W)). assert (0 <= kap * (1 / W)) by lra. nra. }
    replace (scale_fl rnd N K - S * RtoC (1 / W))%C with
      ((scale_fl rnd N K - N * RtoC K) + ((N - S) * RtoC K + S * RtoC (K - 1 / W)))%C.
    2:{ rewrite RtoC_minus. ring. }
    eapply Rle_trans; [apply Cmod_triangle|].
    assert (Cmod ((N - S) * RtoC K + S * RtoC (K - 1 / W))%C <= e * A * Rabs K + A * (kap * (1 / W))) as E3.
    { eapply Rle_trans; [apply Cmod_triangle|]. rewrite !Cmod_mult, !Cmod_R.
      apply Rplus_le_compat; apply Rmult_le_compat; auto using Cmod_ge_0, Rabs_pos, Rle_refl. }
    assert (Cmod N <= (1 + e) * A) as NA by lra.
    assert (u * Cmod N * Rabs K <= u * ((1 + e) * A) * Rabs K) as E4.
    { apply Rmult_le_compat_r; [apply Rabs_pos|]. apply Rmult_le_compat_l; auto. }
    apply Rle_trans with ((u * (1 + e) + e) * A * Rabs K + A * (kap * (1 / W))); [lra|].
    assert (0 <= (u * (1 + e) + e) * A) as P0. { apply Rmult_le_pos; auto. assert (0 <= u * (1 + e)) by (apply Rmult_le_pos; lra). lra. }
    apply Rle_trans with ((u * (1 + e) + e) * A * ((1 + kap) * (1 / W)) + A * (kap * (1 / W))).
    { apply Rplus_le_compat_r. apply Rmult_le_compat_l; auto. }
    replace (synth_err u v g eps (Rabs (2 * f) * D)) with ((1 + kap) * (1 + u) * (1 + e) - 1).
    2:{ unfold synth_err, kap, e, th, ph_err. field. lra. }
    unfold Rdiv. rewrite Rmult_1_l. lra.
  Qed.

  Lemma out_cell_fl_val : forall k p, (k < length phi)%nat ->
    blank0 (out_cell_fl rnd rndw sumf nufft n m Q U l2 phi w0 lam0in k p) =
    nth k (FDF_pix_fl rnd rndw sumf nufft n m Q U l2 phi w0 lam0in p) (RtoC 0).
  Proof.
    intros k p Hk. unfold out_cell_fl. destruct (zero_pix_fl rnd rndw sumf nufft n m Q U l2 phi w0 lam0in p) eqn:Z; [|reflexivity].
    cbn [blank0]. symmetry. unfold zero_pix_fl in Z. rewrite forallb_forall in Z. apply Ceqb_true, Z, nth_In.
    rewrite FDF_pix_fl_len. exact Hk.
  Qed.
End Core.

Lemma do_rmsynth_fl_eq : forall rnd rndw sumf nufft dataQ dataU l2 phi wA lam0in, valid_synth dataQ dataU l2 wA ->
  do_rmsynth_planes_fl rnd rndw sumf nufft dataQ dataU l2 phi wA lam0in =
  Some (mk_synth
    (squeeze (mk_nd (length phi :: (if Nat.eqb (length (shape dataQ)) 3 then tl (shape dataQ) else [npix dataQ]))
       (tab2 (length phi) (npix dataQ)
          (out_cell_fl rnd rndw sumf nufft (length l2) (npix dataQ) (flat dataQ) (flat dataU) l2 phi (prep_weights (length l2) wA) lam0in))))
    (lam0_used_fl rnd sumf (length l2) (npix dataQ) (flat dataQ) (flat dataU) l2 (prep_weights (length l2) wA) lam0in)).
Proof.
  intros rnd rndw sumf nufft dataQ dataU l2 phi wA lam0in (H1 & H2 & H3 & H4). unfold do_rmsynth_planes_fl.
  rewrite prep_len by auto. rewrite Nat.eqb_refl. simpl negb. cbv iota.
  destruct (list_eq_dec Nat.eq_dec (shape dataQ) (shape dataU)) as [_|]; [|contradiction]. simpl negb. cbv iota.
  replace (Nat.leb (length (shape dataQ)) 3) with true by (symmetry; apply Nat.leb_le; lia).
  simpl negb. cbv iota. rewrite H3, Nat.eqb_refl. reflexivity.
Qed.

Theorem synth_fl_close : forall rnd rndw sumf nufft u v g eps dataQ dataU l2 phi wA lam0in,
  rounds rnd u -> rounds rndw v -> sums sumf (length l2) g -> transforms nufft eps ->
  0 <= u -> 0 <= v -> 0 <= g < 1 -> 0 <= eps ->
  valid_synth dataQ dataU l2 wA -> antisym phi -> nonneg_w wA ->
  exists r r0, do_rmsynth_planes_fl rnd rndw sumf nufft dataQ dataU l2 phi wA lam0in = Some r /\
    do_rmsynth_planes dataQ dataU l2 phi wA lam0in = Some r0 /\ shape (FDFcube r) = shape (FDFcube r0) /\
    forall k p D, (k < length phi)%nat -> (p < npix dataQ)%nat ->
      let chs := pixel_chans (length l2) (npix dataQ) (flat dataQ) (flat dataU) l2 (weights_of (length l2) wA) p in
      0 < wsum chs -> (forall c, In c chs -> Rabs (c_l2 c - synth_lam0 r) <= D) ->
      Cmod (blank0 (at2 (npix dataQ) None (flat (FDFcube r)) k p) - FDF_spec chs (synth_lam0 r) (nth k phi 0))%C
      <= synth_err u v g eps (2 * Rabs (nth k phi 0) * D) * mean_P chs.
Proof.
  intros rnd rndw sumf nufft u v g eps dataQ dataU l2 phi wA lam0in Hr Hw Hs HF Hu Hv Hg He V A NW.
  eexists. eexists. split; [now apply do_rmsynth_fl_eq|]. split; [now apply do_rmsynth_eq|].
  split; [reflexivity|]. intros k p D Hk Hp chs HW HD. cbn [FDFcube squeeze flat synth_lam0] in *.
  rewrite at2_tab2 by auto. rewrite out_cell_fl_val with (eps := eps) by auto.
  assert (W0 : forall j, 0 <= nth j (prep_weights (length l2) wA) 0) by (intro; now apply prep_nonneg).
  assert (D0 : 0 <= D).
  { destruct chs as [|c chs'] eqn:EC; [unfold wsum in HW; cbn in HW; rewrite rsum_nil in HW; lra|].
    pose proof (HD c (or_introl eq_refl)). pose proof (Rabs_pos (c_l2 c - lam0_used_fl rnd sumf (length l2) (npix dataQ) (flat dataQ) (flat dataU) l2 (prep_weights (length l2) wA) lam0in)). lra. }
  pose proof (FDF_fl_close rnd rndw sumf nufft u v g eps Hr Hw Hu Hv Hg He HF (length l2) (npix dataQ) (flat dataQ) (flat dataU) l2 phi
    (prep_weights (length l2) wA) lam0in eq_refl Hs W0 k p D Hk Hp HW HD D0) as E. cbv zeta in E.
  rewrite A in E by exact Hk.
  replace (Rabs (2 * - nth k phi 0)) with (2 * Rabs (nth k phi 0)) in E.
  2:{ rewrite Rabs_mult, Rabs_Ropp, (Rabs_pos_eq 2) by lra. reflexivity. }
  rewrite <- raw_spec by lra. rewrite inv_or_0_nz by lra. exact E.
Qed.

(** the reference wavelength *)
Theorem lam0_fl_close : forall rnd rndw sumf nufft u v g dataQ dataU l2 phi wA,
  rounds rnd u -> rounds rndw v -> sums sumf (length l2) g -> 0 <= u -> 0 <= g < 1 ->
  valid_synth dataQ dataU l2 wA -> nonneg_w wA ->
  let live := live_chans (length l2) (npix dataQ) (flat dataQ) (flat dataU) l2 (weights_of (length l2) wA) in
  0 < wsum live ->
  exists r, do_rmsynth_planes_fl rnd rndw sumf nufft dataQ dataU l2 phi wA None = Some r /\
    Rabs (synth_lam0 r - mean_l2 live) <=
    ((1 + u) ^ 3 * (1 + g) / (1 - g) - 1) * (rsum (map (fun c => c_w c * Rabs (c_l2 c)) live) / wsum live).
Proof.
  intros rnd rndw sumf nufft u v g dataQ dataU l2 phi wA Hr Hw Hs Hu Hg V NW live HW.
  eexists. split; [now apply do_rmsynth_fl_eq|]. cbn [synth_lam0]. unfold lam0_used_fl. rewrite w_eff_fl_eq.
  assert (W0 : forall j, 0 <= nth j (prep_weights (length l2) wA) 0) by (intro; now apply prep_nonneg).
  set (w := w_eff _ _ _ _ _). set (n := length l2) in *.
  assert (LW : length w = n) by (unfold w, w_eff; rewrite map_length, seq_length; reflexivity).
  assert (WN : forall x, In x w -> 0 <= x).
  { intros x Hx. unfold w, w_eff in Hx. apply in_map_iff in Hx. destruct Hx as (j & <- & _). destruct (plane_ok _ _ _ _ _); [apply W0|lra]. }
  (* sums over live channels are sums over w and l2 *)
  assert (LS : forall f : R -> R, rsum (map (fun wl => fst wl * f (snd wl)) (combine w l2)) = rsum (map (fun c => c_w c * f (c_l2 c)) live)).
  { intro f. unfold live, live_chans, w, w_eff. rewrite rsum_flat_map.
    rewrite (list_as_seq l2 0) at 1. fold n. rewrite combine_map_same, map_map. apply rsum_map_ext. intros j _. cbn [fst snd].
    assert (plane_ok (npix dataQ) (flat dataQ) (flat dataU) (prep_weights n wA) j = existsb (fun p => match nth (j * npix dataQ + p) (flat dataQ) None, nth (j * npix dataQ + p) (flat dataU) None with
                         | Some _, Some _ => true | _, _ => false end) (seq 0 (npix dataQ))) as ->.
    { unfold plane_ok. assert (forall f g : nat -> bool, (forall x, f x = g x) -> forall l, existsb f l = existsb g l) as EX.
      { intros f' g' H l. induction l; simpl; congruence. }
      apply EX. intros p. unfold pC, at2, pcell, is_some, is_none.
      destruct (nth (j * npix dataQ + p) (flat dataQ) None), (nth (j * npix dataQ + p) (flat dataU) None); reflexivity. }
    destruct (existsb _ _); cbn [map]; rewrite ?rsum_cons, ?rsum_nil; cbn [c_w c_l2]; [rewrite Rplus_0_r; reflexivity|ring]. }
  assert (SW : rsum w = wsum live).
  { unfold wsum. pose proof (LS (fun _ => 1)) as L1. cbv beta in L1.
    replace (rsum (map c_w live)) with (rsum (map (fun c => c_w c * 1) live)) by (apply rsum_map_ext; intros; ring).
    rewrite <- L1. rewrite (list_as_seq w 0) at 1. rewrite (list_as_seq w 0) at 2. rewrite (list_as_seq l2 0), LW. fold n.
    rewrite combine_map_same, map_map. apply rsum_map_ext. intros; cbn [fst snd]; ring. }
  pose proof (Hs w LW) as E1. rewrite abs_nonneg in E1 by exact WN. rewrite SW in E1.
  destruct (inverse_close rnd u g (wsum live) (sumf w) Hr Hu Hg HW E1) as [P EK].
  unfold lam0_of_fl. destruct (Req_EM_T (sumf w) 0); [lra|].
  set (K := rnd (1 / sumf w)) in *. set (L := map (fun wl => rnd (fst wl * snd wl)) (combine w l2)).
  assert (LL : length L = n) by (unfold L; rewrite map_length, combine_length, LW; apply Nat.min_id).
  pose proof (Hs L LL) as E2.
  set (M := rsum (map (fun c => c_w c * c_l2 c) live)). set (A := rsum (map (fun c => c_w c * Rabs (c_l2 c)) live)).
  assert (A0 : 0 <= A).
  { unfold A. apply rsum_nonneg. intros x Hx. apply in_map_iff in Hx. destruct Hx as (c & <- & Hc). apply Rmult_le_pos; [|apply Rabs_pos].
    unfold live, live_chans in Hc. apply in_flat_map in Hc. destruct Hc as (j & _ & Hc). destruct (existsb _ _); [|destruct Hc].
    destruct Hc as [<-|[]]. cbn [c_w]. apply W0. }
  assert (CW : forall wl, In wl (combine w l2) -> 0 <= fst wl) by (intros [a b] H; apply in_combine_l in H; auto).
  assert (E3 : Rabs (rsum L - M) <= u * A).
  { unfold L, M, A. pose proof (LS (fun x => x)) as L1. cbv beta in L1. rewrite <- L1, <- (LS Rabs), <- rsum_map_scal. apply rsum_diff. intros wl H.
    pose proof (Hr (fst wl * snd wl)) as E. rewrite Rabs_mult, (Rabs_pos_eq (fst wl)) in E by auto. lra. }
  assert (E4 : rsum (map Rabs L) <= (1 + u) * A).
  { unfold L, A. rewrite map_map, <- (LS Rabs), <- rsum_map_scal. apply rsum_le. intros wl H.
    pose proof (close_size _ _ _ (Hr (fst wl * snd wl))) as E. rewrite Rabs_mult, (Rabs_pos_eq (fst wl)) in E by auto. lra. }
  assert (MA : Rabs M <= A).
  { unfold M, A. replace (rsum (map (fun c => c_w c * c_l2 c) live)) with (rsum (map (fun c => c_w c * c_l2 c) live) - rsum (map (fun _ => 0) live)).
    - apply rsum_diff. intros c Hc. rewrite Rminus_0_r, Rabs_mult. apply Rmult_le_compat_r; [apply Rabs_pos|].
      rewrite Rabs_pos_eq; [lra|]. unfold live, live_chans in Hc. apply in_flat_map in Hc. destruct Hc as (j & _ & Hc). destruct (existsb _ _); [|destruct Hc].
      destruct Hc as [<-|[]]. cbn [c_w]. apply W0.
    - rewrite (rsum_zero (fun _ : chan => 0)) by reflexivity. ring. }
  set (T := sumf L) in *.
  assert (E5 : Rabs (T - M) <= ((1 + g) * (1 + u) - 1) * A).
  { replace (T - M) with ((T - rsum L) + (rsum L - M)) by ring. eapply Rle_trans; [apply Rabs_triang|].
    assert (g * rsum (map Rabs L) <= g * ((1 + u) * A)) by (apply Rmult_le_compat_l; lra). lra. }
  unfold mean_l2. fold M. set (W := wsum live) in *. assert (IW : 0 < 1 / W) by (apply Rdiv_lt_0_compat; lra).
  pose proof (Hr (K * T)) as E6. replace (M / W) with (1 / W * M) by (unfold Rdiv; ring).
  set (kap := (1 + u) / (1 - g) - 1) in *. set (e := (1 + g) * (1 + u) - 1) in *.
  assert (KP : Rabs K <= (1 + kap) * (1 / W)).
  { pose proof (Rabs_triang_inv K (1 / W)) as H. rewrite (Rabs_pos_eq (1 / W)) in H by lra. lra. }
  assert (kap0 : 0 <= kap). { pose proof (Rabs_pos (K - 1 / W)). nra. }
  assert (e0 : 0 <= e) by (unfold e; nra).
  assert (TA : Rabs T <= (1 + e) * A). { pose proof (Rabs_triang_inv T M). lra. }
  assert (E7 : Rabs (K * T - 1 / W * M) <= ((1 + kap) * (1 + e) - 1) * A * (1 / W)).
  { replace (K * T - 1 / W * M) with (K * (T - M) + (K - 1 / W) * M) by ring. eapply Rle_trans; [apply Rabs_triang|]. rewrite !Rabs_mult.
    assert (Rabs K * Rabs (T - M) <= (1 + kap) * (1 / W) * (e * A)) by (apply Rmult_le_compat; auto using Rabs_pos).
    assert (Rabs (K - 1 / W) * Rabs M <= kap * (1 / W) * A) by (apply Rmult_le_compat; auto using Rabs_pos). lra. }
  assert (E8 : Rabs (K * T) <= (1 + kap) * (1 + e) * A * (1 / W)).
  { rewrite Rabs_mult. assert (Rabs K * Rabs T <= (1 + kap) * (1 / W) * ((1 + e) * A)) by (apply Rmult_le_compat; auto using Rabs_pos). lra. }
  replace (rnd (K * T) - 1 / W * M) with ((rnd (K * T) - K * T) + (K * T - 1 / W * M)) by ring.
  eapply Rle_trans; [apply Rabs_triang|].
  assert (u * Rabs (K * T) <= u * ((1 + kap) * (1 + e) * A * (1 / W))) by (apply Rmult_le_compat_l; auto).
  replace ((1 + u) ^ 3 * (1 + g) / (1 - g) - 1) with ((1 + u) * (1 + kap) * (1 + e) - 1) by (unfold kap, e; field; lra).
  replace (A / W) with (A * (1 / W)) by (field; lra). lra.
Qed.

(** a reference wavelength that is handed in is used as it is *)
Theorem lam0_fl_given : forall rnd rndw sumf nufft dataQ dataU l2 phi wA l, valid_synth dataQ dataU l2 wA ->
  exists r, do_rmsynth_planes_fl rnd rndw sumf nufft dataQ dataU l2 phi wA (Some l) = Some r /\ synth_lam0 r = l.
Proof. intros. eexists. split; [now apply do_rmsynth_fl_eq|]. reflexivity. Qed.
