(** The deprecated synthesis: what it computes, and when it agrees with the
    current routine. *)
From Coq Require Import Reals List Arith ZArith Bool Lra Lia.
Set Warnings "-ambiguous-paths".
From Coquelicot Require Import Coquelicot.
From Verif Require Import PyRes CBase NdArray PyList Interp_Model Synth_Model Synth_Spec Synth_Proofs Rmsf_Proofs
  Clean_Model Ref_Model Ref_Spec Ref_Proofs.
Import ListNotations.
Local Open Scope R_scope.

Lemma nansum_map : forall {A} (f : A -> option R) l,
  nansum (map f l) = rsum (map (fun x => match f x with Some v => v | None => 0 end) l).
Proof. intros. unfold nansum. now rewrite map_map. Qed.
Lemma nancsum_map : forall {A} (f : A -> option C) l,
  nancsum (map f l) = csum (map (fun x => match f x with Some v => v | None => RtoC 0 end) l).
Proof. intros. unfold nancsum. now rewrite map_map. Qed.

Section Dep.
  Variables (n m : nat) (Q U : list (option R)) (l2 phi : list R) (w : list (option R)).
  Hypothesis Hn : n = length l2.
  Let live := spec_live n m Q U l2 w.
  Let chs := spec_chans n Q U l2 w.
  Let weff := d_weff n m Q U w.

  Lemma d_bad_good : forall p j, d_bad n Q U p j = negb (good_at n Q U p j).
  Proof.
    intros. unfold d_bad, good_at, at2, is_none, finite.
    destruct (nth _ Q None), (nth _ U None); reflexivity.
  Qed.

  Lemma weff_nth : forall j, (j < n)%nat -> nth j weff None =
    (if existsb (fun p => good_at n Q U p j) (seq 0 m) then nth j w None else Some 0).
  Proof.
    intros j Hj. unfold weff, d_weff. rewrite nth_map_seq by auto. simpl.
    assert (E : forall l, forallb (fun p => d_bad n Q U p j) l = negb (existsb (fun p => good_at n Q U p j) l)).
    { induction l; simpl; [reflexivity|]. rewrite IHl, d_bad_good. now destruct (good_at n Q U a j). }
    rewrite E. now destruct (existsb _ _).
  Qed.

  Lemma weff_len : length weff = n.
  Proof. unfold weff, d_weff. now rewrite map_length, seq_length. Qed.

  Lemma weff_seq : weff = map (fun j => nth j weff None) (seq 0 n).
  Proof. etransitivity; [apply (list_as_seq weff None)|]. now rewrite weff_len. Qed.

  Lemma l2_seq : l2 = map (fun j => nth j l2 0) (seq 0 n).
  Proof. rewrite Hn. apply list_as_seq. Qed.

  Lemma weff_sum : nansum weff = wsum live.
  Proof.
    rewrite weff_seq, nansum_map. unfold wsum, live, spec_live. rewrite rsum_flat_map. apply rsum_map_ext.
    intros j Hj. apply in_seq in Hj. rewrite weff_nth by lia.
    destruct (existsb _ _); simpl; [|now rewrite rsum_nil].
    destruct (nth j w None); simpl; rewrite ?rsum_cons, ?rsum_nil; ring.
  Qed.

  Lemma dep_lam0_eq : dep_lam0 l2 weff = if Req_EM_T (wsum live) 0 then None else Some (mean_l2 live).
  Proof.
    unfold dep_lam0. rewrite weff_sum. destruct (Req_EM_T _ 0); [reflexivity|]. f_equal.
    unfold mean_l2. unfold Rdiv at 1. rewrite Rmult_1_l, Rmult_comm. unfold Rdiv. f_equal.
    rewrite weff_seq. rewrite l2_seq at 1. rewrite combine_map_same, map_map, nansum_map. simpl.
    unfold live, spec_live. rewrite rsum_flat_map. apply rsum_map_ext. intros j Hj. apply in_seq in Hj.
    rewrite weff_nth by lia. destruct (existsb _ _); simpl.
    - destruct (nth j w None); simpl; rewrite ?rsum_cons, ?rsum_nil; ring.
    - rewrite rsum_nil. ring.
  Qed.

  Lemma RMSF_weff : forall l0 f, wsum live <> 0 -> dep_rmsf_at l2 weff l0 f = Some (RMSF_spec live l0 f).
  Proof.
    intros l0 f H. unfold dep_rmsf_at. rewrite weff_sum. destruct (Req_EM_T _ 0); [contradiction|]. f_equal.
    unfold RMSF_spec. rewrite Cmult_comm, RtoC_inv_mult by auto. f_equal.
    rewrite weff_seq. rewrite l2_seq at 1. rewrite combine_map_same, map_map, nancsum_map. simpl.
    unfold live, spec_live. rewrite csum_flat_map. apply csum_map_ext. intros j Hj. apply in_seq in Hj.
    rewrite weff_nth by lia. destruct (existsb _ _); simpl.
    - destruct (nth j w None); simpl; rewrite ?csum_cons, ?csum_nil; ring.
    - rewrite csum_nil. ring.
  Qed.

  (** the sum over the good channels of the pixel, normalised by all live channels *)
  Lemma d_val_eq : forall p i, (p < m)%nat -> (i < length phi)%nat ->
    d_val n m Q U l2 phi w p i =
    if Req_EM_T (wsum live) 0 then None
    else Some (csum (map (fun c => RtoC (c_w c) * c_P c * cis (-2 * nth i phi 0 * (c_l2 c - mean_l2 live))) (chs p))
               / RtoC (wsum live))%C.
  Proof.
    intros p i Hp Hi. unfold d_val. fold weff. rewrite dep_lam0_eq, weff_sum.
    destruct (Req_EM_T _ 0); [reflexivity|]. f_equal. rewrite Cmult_comm, RtoC_inv_mult by auto. f_equal.
    rewrite nancsum_map. unfold chs, spec_chans. rewrite csum_flat_map. apply csum_map_ext.
    intros j Hj. apply in_seq in Hj. unfold d_pC. fold weff. rewrite weff_nth by lia. unfold at2, pcell.
    destruct (existsb (fun p => good_at n Q U p j) (seq 0 m)) eqn:E.
    - destruct (nth j w None), (nth (p * n + j) Q None), (nth (p * n + j) U None); simpl; rewrite ?csum_cons, ?csum_nil; ring.
    - assert (G : good_at n Q U p j = false).
      { destruct (good_at n Q U p j) eqn:G; [|reflexivity]. exfalso.
        assert (existsb (fun p => good_at n Q U p j) (seq 0 m) = true); [|congruence].
        apply existsb_exists. exists p. split; [apply in_seq; lia|auto]. }
      unfold good_at, finite in G.
      destruct (nth (p * n + j) Q None), (nth (p * n + j) U None), (nth j w None); simpl in *; try discriminate;
        rewrite ?csum_nil; try ring.
  Qed.

  Lemma whole_sum : forall p, (p < m)%nat -> flags_whole n m Q U p -> wsum (chs p) = wsum live.
  Proof.
    intros p Hp F. unfold wsum, chs, live, spec_chans, spec_live. rewrite !rsum_flat_map. apply rsum_map_ext.
    intros j Hj. apply in_seq in Hj.
    destruct (existsb (fun p => good_at n Q U p j) (seq 0 m)) eqn:E.
    - apply existsb_exists in E. destruct E as [q [Hq G]]. apply in_seq in Hq.
      assert (Gp : good_at n Q U p j = true) by (eapply F; [lia| |exact G]; lia).
      unfold good_at, finite in Gp.
      destruct (nth (p * n + j) Q None), (nth (p * n + j) U None), (nth j w None); simpl in *; try discriminate; reflexivity.
    - assert (G : good_at n Q U p j = false).
      { destruct (good_at n Q U p j) eqn:G; [|reflexivity]. exfalso.
        assert (existsb (fun p => good_at n Q U p j) (seq 0 m) = true); [|congruence].
        apply existsb_exists. exists p. split; [apply in_seq; lia|auto]. }
      unfold good_at, finite in G.
      destruct (nth (p * n + j) Q None), (nth (p * n + j) U None), (nth j w None); simpl in *; try discriminate; reflexivity.
  Qed.
End Dep.

Lemma given_len : forall (l2 : list R) wA,
  match wA with None => True | Some w => length w = length l2 end ->
  length (dep_weights (length l2) wA) = length l2.
Proof. intros l2 [w|] H; simpl; [auto|apply repeat_length]. Qed.

(** The deprecated routine ends on all valid data. *)
Lemma dep_total : forall fit dQ dU l2 phi wA,
  valid_spectral dQ dU l2 wA -> l2 <> [] -> (2 <= length phi)%nat ->
  exists r, do_rmsynth fit dQ dU l2 phi wA = DOk r.
Proof.
  intros fit dQ dU l2 phi wA (S & N & L & W) Hl Hphi. unfold do_rmsynth. rewrite given_len by auto.
  rewrite Nat.eqb_refl. simpl negb. cbv iota.
  destruct (list_eq_dec Nat.eq_dec (shape dQ) (shape dU)); [|contradiction]. simpl negb. cbv iota.
  replace (Nat.leb (length (shape dQ)) 3) with true by (symmetry; apply Nat.leb_le; lia). simpl negb. cbv iota.
  rewrite L, Nat.eqb_refl. simpl negb. cbv iota. unfold get_RMSF. cbn [dep_weights].
  unfold d_weff. rewrite map_length, seq_length, Nat.eqb_refl. simpl negb. cbv iota.
  rewrite (phi2_double phi Hphi). destruct l2; [contradiction|]. eexists. reflexivity.
Qed.

Theorem dep_refines : forall fit dQ dU l2 phi wA r,
  valid_spectral dQ dU l2 wA -> do_rmsynth fit dQ dU l2 phi wA = DOk r ->
  let n := length l2 in
  let m := spix dQ in
  let w := given_weights n wA in
  let live := spec_live n m (flat dQ) (flat dU) l2 w in
  (wsum live = 0 -> d_lam0 r = None) /\
  (wsum live <> 0 -> d_lam0 r = Some (mean_l2 live) /\
     length (d_RMSF r) = length (d_phi2 r) /\
     forall i, (i < length (d_phi2 r))%nat ->
       nth i (d_RMSF r) None = Some (RMSF_spec live (mean_l2 live) (nth i (d_phi2 r) 0))) /\
  forall p i, (p < m)%nat -> (i < length phi)%nat ->
    let chs := spec_chans n (flat dQ) (flat dU) l2 w p in
    let c := at2 (length phi) None (flat (d_FDF r)) p i in
    (wsum live = 0 -> c = None) /\
    (wsum live <> 0 -> wsum chs <> 0 ->
       c = Some (FDF_spec chs (mean_l2 live) (nth i phi 0) * RtoC (wsum chs / wsum live))%C) /\
    (wsum live <> 0 -> flags_whole n m (flat dQ) (flat dU) p ->
       c = Some (FDF_spec chs (mean_l2 live) (nth i phi 0))).
Proof.
  intros fit dQ dU l2 phi wA r V E n m w live. pose proof V as (S & N & L & W).
  unfold do_rmsynth in E. rewrite given_len in E by auto.
  rewrite Nat.eqb_refl in E. simpl negb in E. cbv iota in E.
  destruct (list_eq_dec Nat.eq_dec (shape dQ) (shape dU)); [|contradiction]. simpl negb in E. cbv iota in E.
  replace (Nat.leb (length (shape dQ)) 3) with true in E by (symmetry; apply Nat.leb_le; lia).
  simpl negb in E. cbv iota in E. rewrite L, Nat.eqb_refl in E. simpl negb in E. cbv iota in E.
  fold (spix dQ) in E. fold n m in E. change (dep_weights n wA) with w in E.
  unfold get_RMSF in E. cbn [dep_weights] in E.
  destruct (negb _) in E; [discriminate|].
  destruct (phi2_grid true phi) as [phi2|] eqn:G; [|discriminate].
  assert (Hn : n = length l2) by reflexivity.
  destruct l2 as [|l2h l2t]; [discriminate|]. inversion E; subst r. clear E.
  set (l2 := l2h :: l2t) in *. clearbody l2. clear l2h l2t. cbn [d_lam0 d_RMSF d_phi2 d_FDF flat].
  rewrite (dep_lam0_eq n m (flat dQ) (flat dU) l2 w Hn). fold live.
  split; [|split].
  - intros Z. destruct (Req_EM_T (wsum live) 0); [reflexivity|contradiction].
  - intros Z. destruct (Req_EM_T (wsum live) 0); [contradiction|]. split; [reflexivity|].
    rewrite map_length. split; [reflexivity|]. intros i Hi.
    set (F := fun f : R => dep_rmsf_at _ _ _ f). rewrite nth_indep with (d' := F 0) by (now rewrite map_length).
    rewrite map_nth. unfold F. now apply RMSF_weff.
  - intros p i Hp Hi. set (chs := spec_chans n (flat dQ) (flat dU) l2 w p).
    rewrite at2_tab2 by auto. rewrite (d_val_eq n m (flat dQ) (flat dU) l2 phi w Hn) by auto. fold live chs.
    split; [|split].
    + intros Z. destruct (Req_EM_T (wsum live) 0); [reflexivity|contradiction].
    + intros Z Zc. destruct (Req_EM_T (wsum live) 0); [contradiction|]. f_equal. unfold FDF_spec.
      rewrite RtoC_div by auto. field. split; apply RtoC_neq0; auto.
    + intros Z F. destruct (Req_EM_T (wsum live) 0); [contradiction|]. f_equal. unfold FDF_spec.
      pose proof (whole_sum n m (flat dQ) (flat dU) l2 w Hn p Hp F) as WS. fold live chs in WS. rewrite WS. reflexivity.

Qed.

(* ------------------------------------------- against the current routine *)

Lemma nth_nan0 : forall w j, (j < length w)%nat ->
  nth j (nan0 w) 0 = match nth j w None with Some v => v | None => 0 end.
Proof.
  intros. unfold nan0. set (F := fun x : option R => match x with Some v => v | None => 0 end).
  rewrite nth_indep with (d' := F None) by (now rewrite map_length). rewrite map_nth. reflexivity.
Qed.

Lemma weights_given : forall n wA j, (j < n)%nat -> match wA with None => True | Some w => length w = n end ->
  nth j (weights_of n wA) 0 = match nth j (given_weights n wA) None with Some v => v | None => 0 end.
Proof.
  intros n [w|] j Hj H; simpl.
  - apply nth_nan0. lia.
  - rewrite nth_indep with (d' := 1) by (rewrite repeat_length; lia). rewrite nth_repeat.
    rewrite nth_indep with (d' := Some 1) by (rewrite repeat_length; lia). now rewrite nth_repeat.
Qed.

Section Agree.
  Variables (dQ dU cQ cU : nd (option R)) (l2 : list R) (wA : option (list (option R))).
  Let n := length l2.
  Let m := npix cQ.
  Hypothesis HW : match wA with None => True | Some w => length w = length l2 end.
  Hypothesis TQ : transposed n m dQ cQ.
  Hypothesis TU : transposed n m dU cU.

  Lemma agree_sums : forall (g : chan -> C) p, (p < m)%nat -> 
    (forall l v P, g (mk_chan l v P) = (RtoC v * g (mk_chan l 1 P))%C) ->
    csum (map g (spec_chans n (flat dQ) (flat dU) l2 (given_weights n wA) p)) =
    csum (map g (pixel_chans n m (flat cQ) (flat cU) l2 (weights_of n wA) p)).
  Proof.
    intros g p Hp G. unfold spec_chans, pixel_chans. rewrite !csum_flat_map. apply csum_map_ext.
    intros j Hj. apply in_seq in Hj. rewrite weights_given by (auto; lia).
    rewrite TQ, TU by (auto; lia).
    destruct (nth (j * m + p) (flat cQ) None), (nth (j * m + p) (flat cU) None); try reflexivity;
      destruct (nth j (given_weights n wA) None); try reflexivity.
    simpl. rewrite csum_cons, csum_nil. rewrite G. ring.
  Qed.

  Lemma agree_wsum : forall p, (p < m)%nat ->
    wsum (spec_chans n (flat dQ) (flat dU) l2 (given_weights n wA) p) =
    wsum (pixel_chans n m (flat cQ) (flat cU) l2 (weights_of n wA) p).
  Proof.
    intros p Hp. generalize (agree_sums (fun c => RtoC (c_w c)) p Hp). rewrite !csum_map_RtoC. unfold wsum.
    intros H. assert (X : forall a b, RtoC a = RtoC b -> a = b) by (intros; now apply RtoC_inj).
    apply X, H. intros. simpl. ring.
  Qed.

  Lemma live_rsums : forall (g : chan -> R),
    (forall l v, g (mk_chan l v (RtoC 0)) = v * g (mk_chan l 1 (RtoC 0))) ->
    rsum (map g (spec_live n m (flat dQ) (flat dU) l2 (given_weights n wA))) =
    rsum (map g (live_chans n m (flat cQ) (flat cU) l2 (weights_of n wA))).
  Proof.
    intros g G. unfold spec_live, live_chans. rewrite !rsum_flat_map. apply rsum_map_ext.
    intros j Hj. apply in_seq in Hj. rewrite weights_given by (auto; lia).
    assert (E : forall l, (forall p, In p l -> (p < m)%nat) ->
      existsb (fun p => good_at n (flat dQ) (flat dU) p j) l =
      existsb (fun p => match nth (j * m + p) (flat cQ) None, nth (j * m + p) (flat cU) None with
                        | Some _, Some _ => true | _, _ => false end) l).
    { induction l; intros H; simpl; [reflexivity|]. rewrite IHl by (intros; apply H; now right). f_equal.
      unfold good_at. rewrite TQ, TU by (try lia; apply H; now left).
      destruct (nth (j * m + a) (flat cQ) None), (nth (j * m + a) (flat cU) None); reflexivity. }
    rewrite E by (intros p H; apply in_seq in H; lia).
    destruct (existsb _ _); [|reflexivity].
    destruct (nth j (given_weights n wA) None); [reflexivity|]. simpl. rewrite rsum_cons, rsum_nil. rewrite G. ring.
  Qed.

  Lemma agree_live : wsum (spec_live n m (flat dQ) (flat dU) l2 (given_weights n wA)) =
                     wsum (live_chans n m (flat cQ) (flat cU) l2 (weights_of n wA)) /\
                     mean_l2 (spec_live n m (flat dQ) (flat dU) l2 (given_weights n wA)) =
                     mean_l2 (live_chans n m (flat cQ) (flat cU) l2 (weights_of n wA)).
  Proof.
    assert (W : wsum (spec_live n m (flat dQ) (flat dU) l2 (given_weights n wA)) =
                wsum (live_chans n m (flat cQ) (flat cU) l2 (weights_of n wA))).
    { unfold wsum. apply live_rsums. intros. simpl. ring. }
    split; [exact W|]. unfold mean_l2. rewrite W. f_equal. apply live_rsums. intros. simpl. ring.
  Qed.
End Agree.

Theorem dep_agrees : forall fit dQ dU cQ cU l2 phi wA r c p i z,
  valid_spectral dQ dU l2 wA -> valid_synth cQ cU l2 wA -> spix dQ = npix cQ ->
  transposed (length l2) (npix cQ) dQ cQ -> transposed (length l2) (npix cQ) dU cU ->
  antisym phi -> do_rmsynth fit dQ dU l2 phi wA = DOk r ->
  do_rmsynth_planes cQ cU l2 phi wA None = Some c ->
  wsum (live_chans (length l2) (npix cQ) (flat cQ) (flat cU) l2 (weights_of (length l2) wA)) <> 0 ->
  (p < npix cQ)%nat -> (i < length phi)%nat ->
  flags_whole (length l2) (npix cQ) (flat dQ) (flat dU) p ->
  at2 (npix cQ) None (flat (FDFcube c)) i p = Some z ->
  at2 (length phi) None (flat (d_FDF r)) p i = Some z /\ d_lam0 r = Some (synth_lam0 c).
Proof.
  intros fit dQ dU cQ cU l2 phi wA r c p i z V V' Sp TQ TU A Er Ec NZ Hp Hi F Ez.
  destruct (synth_refines cQ cU l2 phi wA None V' A) as [c' [Ec' [L0 P]]].
  rewrite Ec in Ec'. inversion Ec'; subst c'. clear Ec'.
  assert (HW : match wA with None => True | Some w => length w = length l2 end) by (destruct V as (_ & _ & _ & W); exact W).
  destruct (agree_live dQ dU cQ cU l2 wA HW TQ TU) as [AW AM].
  destruct (dep_refines fit dQ dU l2 phi wA r V Er) as [_ [B D]]. rewrite Sp in B, D.
  rewrite AW, AM in B.
  destruct (B NZ) as [B1 _]. specialize (P i p Hi Hp). cbv zeta in P.
  specialize (D p i Hp Hi). cbv zeta in D. rewrite AW, AM in D. destruct D as [_ [_ D]]. specialize (D NZ F).
  destruct (Req_EM_T (wsum (live_chans (length l2) (npix cQ) (flat cQ) (flat cU) l2 (weights_of (length l2) wA))) 0) as [Q0|Q0];
    [contradiction|].
  split; [|rewrite B1, L0; reflexivity].
  rewrite D. f_equal. rewrite <- L0. destruct P as [P1 P2].
  destruct (Req_EM_T (wsum (pixel_chans (length l2) (npix cQ) (flat cQ) (flat cU) l2 (weights_of (length l2) wA) p)) 0) as [W0|W0].
  { rewrite (P1 W0) in Ez. discriminate. }
  destruct (P2 W0) as [_ P3]. rewrite (P3 z Ez). unfold FDF_spec.
  rewrite (agree_wsum dQ dU cQ cU l2 wA HW TQ TU p Hp). f_equal.
  apply (agree_sums dQ dU cQ cU l2 wA HW TQ TU (fun c0 => (RtoC (c_w c0) * c_P c0 * cis (-2 * nth i phi 0 * (c_l2 c0 - synth_lam0 c)))%C) p Hp).
  intros. simpl. ring.
Qed.
