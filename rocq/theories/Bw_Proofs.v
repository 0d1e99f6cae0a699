(** Adjoint RM-synthesis: refinement to sums over channels, and its laws. *)
From Coq Require Import Reals List Arith ZArith Bool Lra Lia.
Set Warnings "-ambiguous-paths".
From Coquelicot Require Import Coquelicot.
From Verif Require Import CBase NdArray PyRes PyList Interp_Model Synth_Model Synth_Spec Synth_Proofs Synth_Laws CleanTop_Model Setup_Model Setup_Proofs
  StokesI_Model Measure_Model Rmsf_Proofs Clean_Grid Bw_Model Bw_Spec Bw_Rot.
Import ListNotations.
Local Open Scope R_scope.

Lemma mean_rotation_eq : forall w c phi, channel_ok w c -> rotation_operator w c phi = mean_rotation w c phi.
Proof.
  intros w c phi H. destruct (rotation_operator_mean w c phi H) as [H1 H2]. unfold mean_rotation.
  apply (is_RInt_unique (V := R_CompleteNormedModule)) in H1. apply (is_RInt_unique (V := R_CompleteNormedModule)) in H2. destruct H as [Hw _]. rewrite H1, H2.
  destruct (rotation_operator w c phi) as [x y]. cbn [fst snd]. f_equal; field; auto.
Qed.

Lemma channel_widths_eq : forall w freq b, width_used w freq b -> channel_widths w freq = POk (repeat b (length freq)).
Proof.
  intros [|c|l] freq b H; cbn in *.
  - destruct H as [H ->]. destruct freq as [|x [|y t]]; cbn in *; try lia. reflexivity.
  - subst; reflexivity.
  - subst; reflexivity.
Qed.

Lemma nth_rotation : forall b freq phi j, (j < length freq)%nat ->
  nth j (rotation_channels (repeat b (length freq)) freq phi) (RtoC 0) = rotation_operator b (nth j freq 0) phi.
Proof.
  intros b freq phi j H. unfold rotation_channels. revert j H. induction freq as [|x t IH]; intros j H; cbn in H; [lia|].
  cbn [length repeat combine map]. destruct j; [reflexivity|]. cbn [nth]. apply IH. lia.
Qed.

Lemma combine3 : forall n (ws d : list R) (r : list C), length ws = n -> length d = n -> length r = n ->
  combine (combine ws (map Some d)) r = map (fun j => ((nth j ws 0, Some (nth j d 0)), nth j r (RtoC 0))) (seq 0 n).
Proof.
  intros n ws d r L1 L2 L3. rewrite (list_as_seq ws 0) at 1. rewrite (list_as_seq d 0) at 1. rewrite (list_as_seq r (RtoC 0)) at 1.
  rewrite L1, L2, L3, map_map, !combine_map_same. reflexivity.
Qed.

Section Adj.
  Variables (n m : nat) (Q U : list (option R)) (freq w0 d : list R) (b : R).
  Hypothesis Hn : n = length freq.
  Hypothesis Hok : forall f, In f freq -> channel_ok b f.

  Lemma nth_ok : forall j, (j < n)%nat -> channel_ok b (nth j freq 0).
  Proof. intros. apply Hok, nth_In. lia. Qed.

  Lemma bK_pix : forall p, (p < m)%nat -> K_pix n m Q U w0 p = inv_or_0 (bwsum (pixel_bchans n m Q U freq w0 d p)).
  Proof.
    intros p Hp. pose proof (K_pix_eq n m Q U freq w0 Hn p Hp) as E. rewrite E. f_equal. 
    unfold wsum, bwsum, pixel_chans, pixel_bchans. rewrite !rsum_flat_map. apply rsum_map_ext. intros j _.
    destruct (nth (j * m + p) Q None), (nth (j * m + p) U None); reflexivity.
  Qed.

  Lemma blive_sum : forall f : R -> R -> R, 
    rsum (map (fun j => f (nth j (w_eff n m Q U w0) 0) (nth j freq 0)) (seq 0 n)) =
    rsum (map (fun j => if existsb (fun p => match nth (j * m + p) Q None, nth (j * m + p) U None with Some _, Some _ => true | _, _ => false end) (seq 0 m)
                        then f (nth j w0 0) (nth j freq 0) else f 0 (nth j freq 0)) (seq 0 n)).
  Proof.
    intros f. apply rsum_map_ext. intros j Hj. apply in_seq in Hj. unfold w_eff. rewrite nth_map_seq by lia. cbn [Nat.add].
    assert (E : plane_ok m Q U w0 j = existsb (fun p => match nth (j * m + p) Q None, nth (j * m + p) U None with
                         | Some _, Some _ => true | _, _ => false end) (seq 0 m)).
    { unfold plane_ok. clear. induction (seq 0 m); cbn; [reflexivity|]. rewrite IHl. f_equal. unfold pC, at2, pcell, is_some, is_none.
      destruct (nth (j * m + a) Q None), (nth (j * m + a) U None); reflexivity. }
    rewrite E. destruct (existsb _ _); reflexivity.
  Qed.

  Lemma length_w_eff : length (w_eff n m Q U w0) = n.
  Proof. unfold w_eff. rewrite map_length, seq_length. reflexivity. Qed.

  Lemma blive_wsum : rsum (w_eff n m Q U w0) = bwsum (live_bchans n m Q U freq w0 d).
  Proof.
    rewrite (list_as_seq (w_eff n m Q U w0) 0), length_w_eff. rewrite (blive_sum (fun w _ => w)).
    unfold bwsum, live_bchans. rewrite rsum_flat_map. apply rsum_map_ext. intros j _. destruct (existsb _ _); cbn [map b_w]; rewrite ?rsum_cons, ?rsum_nil; ring.
  Qed.

  Lemma bcell : forall phi l0 p, (p < m)%nat ->
    (RtoC (K_pix n m Q U w0 p) * csum (map (fun j => nan_to_num (pC m Q U w0 j p) * cis (2 * phi * l0) * Cconj (nth j (rotation_channels (repeat b n) freq phi) (RtoC 0)))%C (seq 0 n)))%C =
    (if Req_EM_T (bwsum (pixel_bchans n m Q U freq w0 d p)) 0 then RtoC 0 else adj_spec b (pixel_bchans n m Q U freq w0 d p) l0 phi).
  Proof.
    intros phi l0 p Hp. rewrite bK_pix by auto. set (chs := pixel_bchans n m Q U freq w0 d p).
    assert (E : csum (map (fun j => nan_to_num (pC m Q U w0 j p) * cis (2 * phi * l0) * Cconj (nth j (rotation_channels (repeat b n) freq phi) (RtoC 0)))%C (seq 0 n)) =
                (cis (2 * phi * l0) * csum (map (fun c => RtoC (b_w c) * b_P c * Cconj (mean_rotation b (b_nu c) phi)) chs))%C).
    { rewrite <- csum_map_scal. unfold chs, pixel_bchans. rewrite csum_flat_map. apply csum_map_ext. intros j Hj. apply in_seq in Hj.
      rewrite Hn at 1. rewrite nth_rotation by lia. rewrite mean_rotation_eq by (apply nth_ok; lia).
      unfold pC, at2, pcell. destruct (nth (j * m + p) Q None), (nth (j * m + p) U None); cbn [nan_to_num map b_w b_P b_nu]; rewrite ?csum_cons, ?csum_nil; ring. }
    rewrite E. destruct (Req_EM_T (bwsum chs) 0) as [Z|Z].
    - rewrite Z, inv_or_0_z. ring.
    - rewrite inv_or_0_nz by auto. rewrite Cmult_comm, RtoC_inv_mult by auto. reflexivity.
  Qed.

  Lemma rsum_idx3 : forall (g : R -> C -> R) (ws : list R) (rs : list C), length ws = n -> length rs = n ->
    rsum (map (fun wr => g (fst wr) (snd wr)) (combine ws rs)) = rsum (map (fun j => g (nth j ws 0) (nth j rs (RtoC 0))) (seq 0 n)).
  Proof.
    intros g ws rs L1 L2. rewrite (list_as_seq ws 0) at 1. rewrite (list_as_seq rs (RtoC 0)) at 1. rewrite L1, L2, combine_map_same, map_map. reflexivity.
  Qed.

  Lemma length_rotation : forall phi, length (rotation_channels (repeat b n) freq phi) = n.
  Proof. intros. unfold rotation_channels. rewrite map_length, combine_length, repeat_length. lia. Qed.

  Lemma bsens : forall phi K ph,
    theory_sens (mk_vars (repeat b n) freq ph K (w_eff n m Q U w0)) phi =
    omul K (Some (rsum (map (fun c => b_w c * Cmod (mean_rotation b (b_nu c) phi) ^ 2) (live_bchans n m Q U freq w0 d)))).
  Proof.
    intros phi K ph. unfold theory_sens. cbn [av_widths av_freq av_K av_weight]. f_equal. f_equal.
    rewrite (rsum_idx3 (fun w r => w * Cmod r ^ 2)) by (first [apply length_w_eff|apply length_rotation]).
    transitivity (rsum (map (fun j => nth j (w_eff n m Q U w0) 0 * Cmod (mean_rotation b (nth j freq 0) phi) ^ 2) (seq 0 n))).
    { apply rsum_map_ext. intros j Hj. apply in_seq in Hj. rewrite Hn at 2. rewrite nth_rotation by lia. rewrite mean_rotation_eq by (apply nth_ok; lia). reflexivity. }
    rewrite (blive_sum (fun w f => w * Cmod (mean_rotation b f phi) ^ 2)). unfold live_bchans. rewrite rsum_flat_map. apply rsum_map_ext. intros j _.
    destruct (existsb _ _); cbn [map b_w b_nu]; rewrite ?rsum_cons, ?rsum_nil; ring.
  Qed.

  Lemma bnoise : forall phi K ph, length d = n -> bwsum (live_bchans n m Q U freq w0 d) <> 0 ->
    theory_noise (mk_vars (repeat b n) freq ph K (w_eff n m Q U w0)) (map Some d) phi =
    Some (noise_spec b (live_bchans n m Q U freq w0 d) phi).
  Proof.
    intros phi K ph Ld W. unfold theory_noise. cbn [av_widths av_freq av_weight]. rewrite blive_wsum.
    set (r := rotation_channels (repeat b n) freq phi). pose proof (length_rotation phi : length r = n) as Lr.
    assert (E : osum (map (fun wdr : R * option R * C => match snd (fst wdr) with Some d => Some ((fst (fst wdr) * d) ^ 2 * Cmod (snd wdr) ^ 2) | None => None end)
                  (combine (combine (w_eff n m Q U w0) (map Some d)) r)) =
                Some (rsum (map (fun c => (b_w c * b_d c) ^ 2 * Cmod (mean_rotation b (b_nu c) phi) ^ 2) (live_bchans n m Q U freq w0 d)))).
    { unfold osum. 
      replace (combine (combine (w_eff n m Q U w0) (map Some d)) r) with (map (fun j => ((nth j (w_eff n m Q U w0) 0, Some (nth j d 0)), nth j r (RtoC 0))) (seq 0 n)).
      2:{ symmetry. apply combine3; auto using length_w_eff. }
      rewrite map_map. cbn [fst snd]. rewrite (all_some_map _ (fun j => (nth j (w_eff n m Q U w0) 0 * nth j d 0) ^ 2 * Cmod (nth j r (RtoC 0)) ^ 2)) by reflexivity.
      cbn [option_map]. f_equal. unfold live_bchans. rewrite rsum_flat_map. apply rsum_map_ext. intros j Hj. apply in_seq in Hj.
      unfold r. rewrite Hn at 2. rewrite nth_rotation by lia. rewrite mean_rotation_eq by (apply nth_ok; lia).
      unfold w_eff. rewrite nth_map_seq by lia. cbn [Nat.add].
      assert (P : plane_ok m Q U w0 j = existsb (fun p => match nth (j * m + p) Q None, nth (j * m + p) U None with
                         | Some _, Some _ => true | _, _ => false end) (seq 0 m)).
      { unfold plane_ok. clear. induction (seq 0 m); cbn; [reflexivity|]. rewrite IHl. f_equal. unfold pC, at2, pcell, is_some, is_none.
        destruct (nth (j * m + a) Q None), (nth (j * m + a) U None); reflexivity. }
      rewrite P. destruct (existsb _ _); cbn [map b_w b_nu b_d]; rewrite ?rsum_cons, ?rsum_nil; ring. }
    rewrite E. set (T := bwsum _) in *. unfold odiv. destruct (Req_EM_T (T ^ 2) 0) as [Z|_]; [exfalso; apply (pow_nonzero T 2); auto|].
    unfold noise_spec. fold T. set (S0 := rsum _). assert (HS : 0 <= S0).
    { unfold S0. apply rsum_nonneg. intros x I. apply in_map_iff in I. destruct I as (c & <- & _). apply Rmult_le_pos; apply pow2_ge_0. }
    assert (HT : 0 < T ^ 2) by (apply pow2_gt_0; auto).
    unfold osqrt. destruct (Rle_dec 0 (S0 / T ^ 2)) as [_|N]; [|exfalso; apply N; apply Rdiv_le_0_compat; auto].
    f_equal. rewrite sqrt_div_alt by auto. f_equal. rewrite <- sqrt_Rsqr_abs. f_equal. unfold Rsqr. ring.
  Qed.
End Adj.

Lemma valid_synth_l2 : forall dQ dU freq wA, valid_synth dQ dU freq wA -> valid_synth dQ dU (lambda_sq freq) wA.
Proof.
  intros dQ dU freq wA (A & B & C1 & D). unfold valid_synth, lambda_sq. rewrite map_length. auto.
Qed.

Lemma nth_lambda_sq : forall freq j, (j < length freq)%nat -> nth j (lambda_sq freq) 0 = (299792458 / nth j freq 0) ^ 2.
Proof. intros. unfold lambda_sq. rewrite (nth_map_lt _ _ _ _ 0) by auto. reflexivity. Qed.

Lemma rmsf_lam0_live : forall n m Q U freq w0 d lam0in, n = length freq ->
  rmsf_lam0_of (w_eff n m Q U w0) (lambda_sq freq) lam0in =
  match lam0in with Some l => Some l | None =>
    if Req_EM_T (bwsum (live_bchans n m Q U freq w0 d)) 0 then None else Some (mean_lam2 (live_bchans n m Q U freq w0 d)) end.
Proof.
  intros n m Q U freq w0 d [l|] Hn; [reflexivity|]. unfold rmsf_lam0_of. rewrite (blive_wsum n m Q U freq w0 d Hn).
  destruct (Req_EM_T _ 0); [reflexivity|]. f_equal. unfold mean_lam2. set (T := bwsum _). unfold Rdiv. rewrite Rmult_1_l, Rmult_comm. f_equal.
  assert (E : combine (w_eff n m Q U w0) (lambda_sq freq) = map (fun j => (nth j (w_eff n m Q U w0) 0, nth j (lambda_sq freq) 0)) (seq 0 n)).
  { rewrite (list_as_seq (w_eff n m Q U w0) 0) at 1. rewrite (list_as_seq (lambda_sq freq) 0) at 1. rewrite length_w_eff.
    replace (length (lambda_sq freq)) with n by (unfold lambda_sq; rewrite map_length; auto). now rewrite combine_map_same. }
  rewrite E, map_map. cbn [fst snd].
  rewrite (rsum_map_ext _ (fun j => nth j (w_eff n m Q U w0) 0 * (299792458 / nth j freq 0) ^ 2)) by (intros j Hj; apply in_seq in Hj; rewrite nth_lambda_sq by lia; reflexivity).
  rewrite (blive_sum n m Q U freq w0 Hn (fun w f => w * (299792458 / f) ^ 2)). unfold live_bchans. rewrite rsum_flat_map. apply rsum_map_ext. intros j _.
  { destruct (existsb _ _); cbn [map b_w b_nu]; rewrite ?rsum_cons, ?rsum_nil; unfold Rdiv; ring. }
Qed.

Theorem adjoint_refines : forall freq dQ dU phi w wA lam0in b,
  valid_synth dQ dU freq wA -> width_used w freq b -> (forall f, In f freq -> channel_ok b f) ->
  exists r, do_adjoint_rmsynth_planes freq dQ dU phi w wA lam0in = POk (Some r) /\
    forall d, length d = length freq ->
    let n := length freq in
    let m := npix dQ in
    let wt := weights_of n wA in
    let live := live_bchans n m (flat dQ) (flat dU) freq wt d in
    (adj_lam0 r = match lam0in with Some l => Some l | None => if Req_EM_T (bwsum live) 0 then None else Some (mean_lam2 live) end) /\
    (forall k p, (k < length phi)%nat -> (p < m)%nat ->
      let chs := pixel_bchans n m (flat dQ) (flat dU) freq wt d p in
      at2 m None (flat (adj_FDF r)) k p =
      option_map (fun l0 => if Req_EM_T (bwsum chs) 0 then RtoC 0 else adj_spec b chs l0 (nth k phi 0)) (adj_lam0 r)) /\
    (bwsum live <> 0 ->
      adjoint_theory (adj_vars r) (map Some d) = (map (fun f => Some (sens_spec b live f)) phi, map (fun f => Some (noise_spec b live f)) phi)).
Proof.
  intros freq dQ dU phi w wA lam0in b V W Hok.
  assert (LS : length (lambda_sq freq) = length freq) by (unfold lambda_sq; now rewrite map_length).
  eexists. split.
  { destruct V as (H1 & H2 & H3 & H4). unfold do_adjoint_rmsynth_planes. rewrite LS. cbv zeta.
    rewrite prep_len by auto. rewrite Nat.eqb_refl. cbn [negb].
    destruct (list_eq_dec Nat.eq_dec (shape dQ) (shape dU)) as [_|]; [|contradiction]. cbn [negb].
    replace (Nat.leb (length (shape dQ)) 3) with true by (symmetry; apply Nat.leb_le; lia). cbn [negb].
    rewrite H3, Nat.eqb_refl. cbn [negb]. rewrite (channel_widths_eq w freq b W). cbn [pybind]. reflexivity. }
  intros d Ld. cbv zeta. change weights_of with prep_weights. cbn [adj_lam0 adj_FDF adj_vars squeeze flat]. fold (npix dQ).
  rewrite <- (rmsf_lam0_live (length freq) (npix dQ) (flat dQ) (flat dU) freq (prep_weights (length freq) wA) d lam0in eq_refl).
  split; [reflexivity|]. split.
  - intros k p Hk Hp. rewrite at2_tab2 by auto. destruct (rmsf_lam0_of _ _ _) as [l0|]; [|reflexivity]. cbn [option_map]. f_equal.
    apply bcell; auto.
  - intros NZ. unfold adjoint_theory. cbn [av_phi]. f_equal; apply map_ext; intros f.
    + rewrite (bsens _ _ _ _ freq _ d b) by auto. rewrite (blive_wsum _ _ _ _ freq _ d) by auto. cbn [odiv]. destruct (Req_EM_T _ 0); [contradiction|].
      cbn [omul o2]. unfold sens_spec. f_equal. field. auto.
    + rewrite (bnoise _ _ _ _ freq _ d b) by auto; reflexivity.
Qed.

(** ** Sensitivity *)

Lemma mean_rotation_bound : forall w c phi, channel_ok w c -> Cmod (mean_rotation w c phi) <= 1.
Proof. intros. rewrite <- mean_rotation_eq by auto. now apply rotation_operator_bound. Qed.
Lemma mean_rotation_zero : forall w c, channel_ok w c -> mean_rotation w c 0 = RtoC 1.
Proof. intros w c H. rewrite <- mean_rotation_eq by auto. apply rotation_operator_zero, H. Qed.
Lemma mean_rotation_conj : forall w c phi, channel_ok w c -> mean_rotation w c (- phi) = Cconj (mean_rotation w c phi).
Proof. intros w c phi H. rewrite <- !mean_rotation_eq by auto. now apply rotation_operator_conj. Qed.


Lemma sens_range : forall b chs phi, chans_ok b chs -> 0 < bwsum chs -> 0 <= sens_spec b chs phi <= 1.
Proof.
  intros b chs phi Ok W. unfold sens_spec. assert (H : 0 <= rsum (map (fun c => b_w c * Cmod (mean_rotation b (b_nu c) phi) ^ 2) chs) <= bwsum chs).
  { split.
    - apply rsum_nonneg. intros x I. apply in_map_iff in I. destruct I as (c & <- & I). apply Rmult_le_pos; [apply Ok, I|apply pow2_ge_0].
    - unfold bwsum. apply rsum_le. intros c I. destruct (Ok c I) as [A B]. pose proof (mean_rotation_bound b (b_nu c) phi A) as M. pose proof (Cmod_ge_0 (mean_rotation b (b_nu c) phi)) as M0.
      rewrite <- (Rmult_1_r (b_w c)) at 2. apply Rmult_le_compat_l; auto. rewrite <- (pow1 2). apply pow_incr. lra. }
  split; [apply Rdiv_le_0_compat; lra|]. apply Rmult_le_reg_r with (bwsum chs); [lra|]. unfold Rdiv. rewrite Rmult_assoc, Rinv_l by lra. lra.
Qed.

Lemma sens_zero : forall b chs, (forall c, In c chs -> channel_ok b (b_nu c)) -> bwsum chs <> 0 -> sens_spec b chs 0 = 1.
Proof.
  intros b chs Ok W. unfold sens_spec. rewrite (rsum_map_ext _ b_w); [unfold bwsum in *; field; auto|].
  intros c I. rewrite mean_rotation_zero by auto. rewrite Cmod_R, Rabs_R1. ring.
Qed.

Lemma Cmod_conj : forall z, Cmod (Cconj z) = Cmod z.
Proof. intros [a b]. unfold Cmod, Cconj. cbn [fst snd]. f_equal. ring. Qed.

Lemma sens_even : forall b chs phi, (forall c, In c chs -> channel_ok b (b_nu c)) -> sens_spec b chs (- phi) = sens_spec b chs phi.
Proof.
  intros b chs phi Ok. unfold sens_spec. f_equal. apply rsum_map_ext. intros c I. rewrite mean_rotation_conj by auto. now rewrite Cmod_conj.
Qed.

Lemma noise_le_zero : forall b chs phi, (forall c, In c chs -> channel_ok b (b_nu c)) -> bwsum chs <> 0 -> 0 <= noise_spec b chs phi <= noise_spec b chs 0.
Proof.
  intros b chs phi Ok W. unfold noise_spec. assert (0 < Rabs (bwsum chs)) by (apply Rabs_pos_lt; auto). split.
  - apply Rdiv_le_0_compat; [apply sqrt_pos|auto].
  - apply Rmult_le_compat_r; [left; now apply Rinv_0_lt_compat|]. apply sqrt_le_1_alt. apply rsum_le. intros c I.
    apply Rmult_le_compat_l; [apply pow2_ge_0|]. rewrite mean_rotation_zero by auto. rewrite Cmod_R, Rabs_R1.
    apply pow_incr. split; [apply Cmod_ge_0|apply mean_rotation_bound; auto].
Qed.

(** ** A source averaged over the channels *)

Lemma Cmod_sqr_conj : forall z : C, (z * Cconj z)%C = RtoC (Cmod z ^ 2).
Proof.
  intros [a b]. unfold Cmult, Cconj, RtoC, Cmod. cbn [fst snd]. rewrite pow2_sqrt; [f_equal; ring|].
  pose proof (pow2_ge_0 a). pose proof (pow2_ge_0 b). lra.
Qed.

Lemma adj_thin : forall b chs l0 amp psi RM, (forall c, In c chs -> b_P c = thin_chan b amp psi RM (b_nu c)) ->
  adj_spec b chs l0 RM = (RtoC amp * cis (2 * (psi + RM * l0)) * RtoC (sens_spec b chs RM))%C \/ bwsum chs = 0.
Proof.
  intros b chs l0 amp psi RM T. destruct (Req_dec (bwsum chs) 0) as [Z|Z]; [right; auto|left]. unfold adj_spec, sens_spec. rewrite RtoC_div by auto.
  assert (E : csum (map (fun c => RtoC (b_w c) * b_P c * Cconj (mean_rotation b (b_nu c) RM))%C chs) =
              (RtoC amp * cis (2 * psi) * RtoC (rsum (map (fun c => b_w c * Cmod (mean_rotation b (b_nu c) RM) ^ 2)%R chs)))%C).
  { rewrite <- csum_map_RtoC, <- csum_map_scal. apply csum_map_ext. intros c I. rewrite T by auto. unfold thin_chan.
    rewrite RtoC_mult, <- Cmod_sqr_conj. ring. }
  rewrite E. replace (2 * (psi + RM * l0)) with (2 * psi + 2 * RM * l0) by ring. rewrite cis_plus. unfold Cdiv. ring.
Qed.

Lemma pixel_live_1 : forall n Q U nu w d, 
  map b_nu (pixel_bchans n 1 Q U nu w d 0) = map b_nu (live_bchans n 1 Q U nu w d) /\
  map b_w (pixel_bchans n 1 Q U nu w d 0) = map b_w (live_bchans n 1 Q U nu w d) /\
  map b_d (pixel_bchans n 1 Q U nu w d 0) = map b_d (live_bchans n 1 Q U nu w d).
Proof.
  intros. unfold pixel_bchans, live_bchans. induction (seq 0 n) as [|j l IH]; [auto|]. cbn [flat_map seq existsb]. rewrite !map_app.
  destruct IH as (-> & -> & ->). destruct (nth (j * 1 + 0) Q None), (nth (j * 1 + 0) U None); cbn; auto.
Qed.

(** sums over channels depend only on centre, weight and error *)
Lemma bsum_by : forall (g : R -> R -> R -> R) chs chs', map b_nu chs = map b_nu chs' -> map b_w chs = map b_w chs' -> map b_d chs = map b_d chs' ->
  rsum (map (fun c => g (b_nu c) (b_w c) (b_d c)) chs) = rsum (map (fun c => g (b_nu c) (b_w c) (b_d c)) chs').
Proof.
  intros g chs. induction chs as [|c t IH]; intros [|c' t'] A B D; try discriminate; auto. cbn [map] in *. injection A as A1 A2. injection B as B1 B2. injection D as D1 D2.
  rewrite !rsum_cons, A1, B1, D1, (IH t'); auto.
Qed.

Lemma live_pixel_1 : forall n Q U nu w d b, let P := pixel_bchans n 1 Q U nu w d 0 in let L := live_bchans n 1 Q U nu w d in
  bwsum L = bwsum P /\ (forall f, sens_spec b L f = sens_spec b P f) /\ (forall f, noise_spec b L f = noise_spec b P f) /\ mean_lam2 L = mean_lam2 P.
Proof.
  intros n Q U nu w d b P L. destruct (pixel_live_1 n Q U nu w d) as (A & B & D). fold P L in A, B, D.
  assert (S1 : bwsum L = bwsum P) by (unfold bwsum; now rewrite B). split; [auto|]. split; [|split].
  - intros f. unfold sens_spec. rewrite S1. f_equal. symmetry. apply (bsum_by (fun nu w d => w * Cmod (mean_rotation b nu f) ^ 2)); auto.
  - intros f. unfold noise_spec. rewrite S1. do 2 f_equal. symmetry. apply (bsum_by (fun nu w d => (w * d) ^ 2 * Cmod (mean_rotation b nu f) ^ 2)); auto.
  - unfold mean_lam2. rewrite S1. f_equal. symmetry. apply (bsum_by (fun nu w d => w * (299792458 / nu) ^ 2)); auto.
Qed.

Lemma pixel_bchans_In : forall n Q U nu w d c, In c (pixel_bchans n 1 Q U nu w d 0) ->
  exists j q u, (j < n)%nat /\ nth j Q None = Some q /\ nth j U None = Some u /\ c = mk_bchan (nth j nu 0) (nth j w 0) (nth j d 0) (q, u).
Proof.
  intros n Q U nu w d c I. unfold pixel_bchans in I. apply in_flat_map in I. destruct I as (j & Hj & I). apply in_seq in Hj.
  replace (j * 1 + 0)%nat with j in I by lia. destruct (nth j Q None) as [q|] eqn:E1; [|contradiction]. destruct (nth j U None) as [u|] eqn:E2; [|contradiction].
  destruct I as [<-|[]]. exists j, q, u. repeat split; auto. lia.
Qed.

(** signal-to-noise with inverse-variance weights *)
Lemma csum_cs : forall (chs : list bchan) (f g : bchan -> C), (forall c, In c chs -> 0 <= b_w c) ->
  Cmod (csum (map (fun c => RtoC (b_w c) * f c * g c)%C chs)) ^ 2 <=
  rsum (map (fun c => b_w c * Cmod (f c) ^ 2) chs) * rsum (map (fun c => b_w c * Cmod (g c) ^ 2) chs).
Proof.
  intros chs f g W. set (A := rsum (map (fun c => b_w c * (Cmod (f c) * Cmod (g c))) chs)).
  assert (H1 : Cmod (csum (map (fun c => RtoC (b_w c) * f c * g c)%C chs)) <= A).
  { eapply Rle_trans; [apply Cmod_csum_le|]. apply rsum_le. intros c I. rewrite !Cmod_mult, Cmod_R, Rabs_pos_eq by auto. lra. }
  assert (H2 : A ^ 2 <= rsum (map (fun c => b_w c * Cmod (f c) ^ 2) chs) * rsum (map (fun c => b_w c * Cmod (g c) ^ 2) chs)).
  { pose proof (cauchy_schwarz (map (fun c => (sqrt (b_w c) * Cmod (f c), sqrt (b_w c) * Cmod (g c))) chs)) as CS. rewrite !map_map in CS. cbn [fst snd] in CS.
    rewrite (rsum_map_ext _ (fun c => b_w c * (Cmod (f c) * Cmod (g c)))) in CS by (intros c I; rewrite <- (sqrt_sqrt (b_w c)) at 3 by auto; ring).
    rewrite (rsum_map_ext (fun c => (sqrt (b_w c) * Cmod (f c)) ^ 2) (fun c => b_w c * Cmod (f c) ^ 2)) in CS by (intros c I; rewrite <- (sqrt_sqrt (b_w c)) at 2 by auto; ring).
    rewrite (rsum_map_ext (fun c => (sqrt (b_w c) * Cmod (g c)) ^ 2) (fun c => b_w c * Cmod (g c) ^ 2)) in CS by (intros c I; rewrite <- (sqrt_sqrt (b_w c)) at 2 by auto; ring).
    exact CS. }
  eapply Rle_trans; [|exact H2]. apply pow_incr. split; [apply Cmod_ge_0|auto].
Qed.


Lemma noise_variance : forall b chs phi, variance_w chs -> 0 < bwsum chs ->
  noise_spec b chs phi = sqrt (rsum (map (fun c => b_w c * Cmod (mean_rotation b (b_nu c) phi) ^ 2) chs)) / bwsum chs.
Proof.
  intros b chs phi V W. unfold noise_spec. rewrite Rabs_pos_eq by lra. do 2 f_equal. apply rsum_map_ext. intros c I. destruct (V c I) as [D ->]. field. auto.
Qed.

Lemma sn_peak : forall b chs l0 amp psi RM phi, variance_w chs -> 0 < bwsum chs -> 0 <= amp ->
  (forall c, In c chs -> b_P c = thin_chan b amp psi RM (b_nu c)) ->
  Cmod (adj_spec b chs l0 phi) * noise_spec b chs RM <= Cmod (adj_spec b chs l0 RM) * noise_spec b chs phi.
Proof.
  intros b chs l0 amp psi RM phi V W Ha T. assert (WN : forall c, In c chs -> 0 <= b_w c).
  { intros c I. destruct (V c I) as [D ->]. apply Rdiv_le_0_compat; [lra|]. apply pow2_gt_0; auto. }
  rewrite !noise_variance by auto. set (T1 := rsum (map (fun c => b_w c * Cmod (mean_rotation b (b_nu c) RM) ^ 2) chs)). set (T2 := rsum (map (fun c => b_w c * Cmod (mean_rotation b (b_nu c) phi) ^ 2) chs)).
  assert (P1 : 0 <= T1) by (apply rsum_nonneg; intros x I; apply in_map_iff in I; destruct I as (c & <- & I); apply Rmult_le_pos; [auto|apply pow2_ge_0]).
  assert (P2 : 0 <= T2) by (apply rsum_nonneg; intros x I; apply in_map_iff in I; destruct I as (c & <- & I); apply Rmult_le_pos; [auto|apply pow2_ge_0]).
  assert (E1 : Cmod (adj_spec b chs l0 RM) = amp * T1 / bwsum chs).
  { destruct (adj_thin b chs l0 amp psi RM T) as [->|Z]; [|lra]. rewrite !Cmod_mult, Cmod_cis, !Cmod_R, Rabs_pos_eq by auto. unfold sens_spec. fold T1.
    rewrite Rabs_pos_eq by (apply Rdiv_le_0_compat; lra). unfold Rdiv. ring. }
  assert (E2 : Cmod (adj_spec b chs l0 phi) <= amp * (sqrt T1 * sqrt T2) / bwsum chs).
  { unfold adj_spec. rewrite Cmod_div by (apply RtoC_neq0; lra). rewrite Cmod_mult, Cmod_cis, Cmod_R, Rabs_pos_eq, Rmult_1_l by lra. apply Rmult_le_compat_r; [left; apply Rinv_0_lt_compat; lra|].
    rewrite (csum_map_ext _ (fun c => (RtoC amp * cis (2 * psi)) * (RtoC (b_w c) * mean_rotation b (b_nu c) RM * Cconj (mean_rotation b (b_nu c) phi)))%C).
    2:{ intros c I. rewrite T by auto. unfold thin_chan. ring. }
    rewrite csum_map_scal, !Cmod_mult, Cmod_cis, Cmod_R, Rabs_pos_eq, Rmult_1_r by auto. apply Rmult_le_compat_l; [auto|].
    rewrite <- sqrt_mult by auto. apply Rsqr_incr_0_var; [|apply sqrt_pos]. rewrite Rsqr_sqrt by (apply Rmult_le_pos; auto).
    pose proof (csum_cs chs (fun c => mean_rotation b (b_nu c) RM) (fun c => Cconj (mean_rotation b (b_nu c) phi)) WN) as CS. unfold Rsqr. cbn [pow] in CS. rewrite Rmult_1_r in CS.
    rewrite (rsum_map_ext (fun c => b_w c * (Cmod (Cconj (mean_rotation b (b_nu c) phi)) * (Cmod (Cconj (mean_rotation b (b_nu c) phi)) * 1))) (fun c => b_w c * Cmod (mean_rotation b (b_nu c) phi) ^ 2)) in CS by (intros; rewrite Cmod_conj; reflexivity).
    exact CS. }
  rewrite E1. apply Rle_trans with (amp * (sqrt T1 * sqrt T2) / bwsum chs * (sqrt T1 / bwsum chs)).
  - apply Rmult_le_compat_r; [|exact E2]. apply Rdiv_le_0_compat; [apply sqrt_pos|lra].
  - right. rewrite <- (sqrt_sqrt T1) at 3 by auto. field. lra.
Qed.
