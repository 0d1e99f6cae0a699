(** The deprecated CLEAN against the current one. *)
From Coq Require Import Reals List Arith ZArith Bool Lia Lra Permutation.
Set Warnings "-ambiguous-paths".
From Coquelicot Require Import Coquelicot.
From Verif Require Import PyRes CBase NdArray PyList PyList_Proofs Interp_Model Synth_Model Synth_Spec Synth_Proofs Synth_Laws
  Setup_Proofs Rmsf_Proofs Clean_Model Clean_Spec Clean_Proofs Clean_Cube Clean_Laws Clean_Total StokesI_Model Cl1_Model Cl1_Spec Cl1_Proofs Ref_Model Ref_Spec.
Import ListNotations.
Local Open Scope R_scope.

Lemma index_of_nth : forall l k, NoDup l -> (k < length l)%nat -> index_of (nth k l 0) l = Some k.
Proof.
  intros l k ND Hk. unfold index_of. set (v := nth k l 0).
  match goal with |- ?F 0%nat l = _ => assert (G : forall l k b, NoDup l -> (k < length l)%nat -> F b l = Some (b + k)%nat \/ nth k l 0 <> nth k l 0 \/ True) by auto; clear G; set (go := F) end.
  assert (G : forall l k b, NoDup l -> (k < length l)%nat -> nth k l 0 = v -> go b l = Some (b + k)%nat).
  { clear l k v ND Hk go || idtac. induction l0 as [|x l0 IH]; intros k0 b ND0 Hk0 E; cbn in Hk0; [lia|]. inversion ND0 as [|? ? N0 ND']; subst.
    unfold go; fold go. destruct k0 as [|k0]; cbn [nth] in E.
    - destruct (Req_EM_T x v); [f_equal; lia|contradiction].
    - destruct (Req_EM_T x v) as [F|F]; [exfalso; apply N0; rewrite F, <- E; apply nth_In; lia|].
      fold go. rewrite (IH k0 (S b)) by (auto; lia). f_equal. lia. }
  now rewrite (G l k 0%nat).
Qed.

Lemma increasing_min : forall phi, phi <> [] -> increasing phi -> rmin_list phi = Some (nth 0 phi 0).
Proof.
  intros phi N I. destruct (rmin_list phi) as [m|] eqn:E; [|destruct phi; [congruence|discriminate]].
  apply rmin_list_spec in E. destruct E as [Im M]. f_equal. apply Rle_antisym.
  - apply M. apply nth_In. destruct phi; [congruence|cbn; lia].
  - destruct (In_nth _ _ 0 Im) as (k & Hk & <-). destruct k as [|k]; [lra|]. left. apply I. lia.
Qed.

Section Sim.
  Variables (RMSF : list C) (phi phi2 : list R) (fwhm gain cutoff : R) (imax pad : nat).
  Let n := length phi.
  Hypothesis X : extends_by pad phi phi2.

  Definition same (s t : cst) : Prop := resid s = resid t /\ cc s = cc t /\ iters s = iters t.

  Lemma index_grid : forall i, (i < n)%nat -> index_of (nth i phi 0) phi2 = Some (i + pad)%nat.
  Proof.
    intros i Hi. destruct X as (P0 & L2 & ND & E). rewrite <- E by exact Hi. rewrite index_of_nth by (auto; fold n in L2; lia). f_equal. lia.
  Qed.

  Lemma step_sim : forall i s t, same s t -> (i < n)%nat ->
    match dep_step RMSF phi phi2 fwhm gain imax pad i s, clean_step RMSF phi fwhm gain imax pad i t with
    | POk s', POk t' => same s' t'
    | PErr, PErr => True
    | _, _ => False
    end.
  Proof.
    intros i s t (E1 & E2 & E3) Hi. unfold dep_step, clean_step. rewrite index_grid by exact Hi. unfold dep_shifted, shifted. rewrite E1.
    destruct (negb _); [exact Logic.I|]. unfold same. cbn. rewrite E2, E3. auto.
  Qed.

  Lemma loop_sim : forall rem s t, same s t -> wf_cst phi t ->
    match dep_loop RMSF phi phi2 fwhm gain cutoff imax pad rem s, loop1 RMSF phi fwhm gain imax pad cutoff rem t with
    | POk s', POk t' => same s' t'
    | PErr, PErr => True
    | _, _ => False
    end.
  Proof.
    induction rem as [|rem IH]; intros s t S W; cbn; [exact S|]. pose proof S as (E1 & _). rewrite E1.
    destruct (Rle_dec cutoff (maxabs (resid t))); [|exact S].
    destruct (argmax _ (resid t)) as [i|] eqn:Ea; [|exact Logic.I].
    apply argmax_mod in Ea. destruct Ea as [Hi _]. assert (Hi' : (i < n)%nat) by (destruct W as [W _]; unfold n; lia).
    pose proof (step_sim i s t S Hi') as SS.
    destruct (dep_step _ _ _ _ _ _ _ i s) as [s'|], (clean_step _ _ _ _ _ _ i t) as [t'|] eqn:Et; try contradiction; [|exact Logic.I].
    apply IH; [exact SS|]. exact (proj1 (step_spec RMSF phi fwhm gain imax pad i t t' W Hi' Et)).
  Qed.

  (** the restored part *)
  Lemma dep_step_cln : forall i s s', wf_cst phi s -> (i < n)%nat -> dep_step RMSF phi phi2 fwhm gain imax pad i s = POk s' ->
    wf_cst phi s' /\
    ((forall j, (j < n)%nat -> nth j (cln s) (RtoC 0) = restored12 fwhm phi (cc s) j) ->
     forall j, (j < n)%nat -> nth j (cln s') (RtoC 0) = restored12 fwhm phi (cc s') j).
  Proof.
    intros i s s' (W1 & W2 & W3) Hi H. fold n in W1, W2, W3. unfold dep_step in H. rewrite index_grid in H by exact Hi.
    destruct (Nat.eqb_spec (length (dep_shifted RMSF imax pad (i + pad))) (length (resid s))) as [E|E]; cbn in H; [|discriminate]. injection H as <-.
    unfold wf_cst; cbn. rewrite !map_length, !combine_length, length_upd. fold n. split; [repeat split; lia|]. intros IHc j Hj.
    rewrite (nth_map_combine _ _ _ _ _ (RtoC 0) 0) by (fold n; lia). cbn [fst snd]. rewrite IHc by exact Hj. unfold restored12. rewrite length_upd, W2.
    rewrite (csum_map_ext (fun k => (nth k (upd (cc s) i (fun z => z + RtoC gain * nth i (resid s) (RtoC 0))%C) (RtoC 0) * _)%C)
      (fun k => (nth k (cc s) (RtoC 0) * RtoC (beam12 fwhm (nth j phi 0 - nth k phi 0)) +
                 if Nat.eqb k i then RtoC gain * nth i (resid s) (RtoC 0) * RtoC (beam12 fwhm (nth j phi 0 - nth k phi 0)) else czero)%C)).
    - rewrite csum_map_plus. rewrite (csum_one phi (fun k => (RtoC gain * nth i (resid s) (RtoC 0) * RtoC (beam12 fwhm (nth j phi 0 - nth k phi 0)))%C)) by exact Hi.
      f_equal. f_equal. f_equal. unfold dep_beam, beam12. f_equal. f_equal. lra.
    - intros k Hk. apply in_seq in Hk. rewrite nth_upd by lia. destruct (Nat.eqb_spec k i); [subst; ring|unfold czero; ring].
  Qed.

  Lemma dep_loop_cln : forall rem s s', wf_cst phi s -> dep_loop RMSF phi phi2 fwhm gain cutoff imax pad rem s = POk s' ->
    (forall j, (j < n)%nat -> nth j (cln s) (RtoC 0) = restored12 fwhm phi (cc s) j) ->
    wf_cst phi s' /\ (forall j, (j < n)%nat -> nth j (cln s') (RtoC 0) = restored12 fwhm phi (cc s') j).
  Proof.
    induction rem as [|rem IH]; intros s s' W H Hc; cbn in H; [injection H as <-; auto|].
    destruct (Rle_dec cutoff (maxabs (resid s))); [|injection H as <-; auto].
    destruct (argmax _ (resid s)) as [i|] eqn:Ea; [|discriminate].
    apply argmax_mod in Ea. destruct Ea as [Hi _]. assert (Hi' : (i < n)%nat) by (destruct W as [W _]; unfold n; lia).
    destruct (dep_step _ _ _ _ _ _ _ i s) as [s1|] eqn:Es; [|discriminate].
    destruct (dep_step_cln i s s1 W Hi' Es) as [W1 C1]. exact (IH s1 s' W1 H (C1 Hc)).
  Qed.
End Sim.

(** A second pass at a threshold that is no lower does nothing. *)
Lemma loop2_idle : forall RMSF phi fwhm gain imax pad window mask rem s cutoff,
  length mask = length (resid s) ->
  (forall w, window = Some w -> cutoff <= w) -> rem = 0%nat \/ maxabs (resid s) < cutoff ->
  loop2 RMSF phi fwhm gain imax pad window mask rem s = POk s.
Proof.
  intros RMSF phi fwhm gain imax pad window mask rem s cutoff LM HW [->|HM]; [reflexivity|]. destruct rem as [|rem]; [reflexivity|]. cbn.
  destruct window as [w|]; [|reflexivity]. specialize (HW w eq_refl). destruct (argmax _ _); [|reflexivity].
  destruct (Rle_dec w _) as [L|]; [|reflexivity]. exfalso.
  assert (P : 0 < w) by (pose proof (maxabs_nonneg (resid s)); lra).
  assert (maxabs (map (fun j => nth j (resid s) (RtoC 0)) (open_chans mask)) < w); [|lra].
  apply maxabs_lt; [exact P|]. intros z Hz. apply in_map_iff in Hz. destruct Hz as (j & <- & Hj). apply in_open in Hj.
  eapply Rle_lt_trans; [apply maxabs_ge, nth_In; lia|lra].
Qed.

Lemma nan_to_num_some : forall l : list C, map nan_to_num (map Some l) = l.
Proof. intros l. rewrite map_map. cbn. apply map_id. Qed.

Lemma div2_pad : forall a p, Nat.div2 (a + 2 * p - a) = p.
Proof. intros. replace (a + 2 * p - a)%nat with (2 * p)%nat by lia. apply Nat.div2_double. Qed.

Lemma nz12 : forall fw phi (d : list C) j, RtoC 0 = restored12 fw phi (map (fun _ => RtoC 0) d) j.
Proof.
  intros. unfold restored12. symmetry. apply csum_zero. intros k _. rewrite nth_zeros. unfold czero. ring.
Qed.

Section Api.
  Variables (fit : list R -> list (option C) -> option (Z * R)) (d : list C) (phi l2 : list R) (cutoff : R) (maxIter : nat) (gain : R)
    (weight : option (list (option R))) (rm : list C) (phi2 : list R) (pad : nat).
  Hypothesis (I : increasing phi) (H2 : (2 <= length phi)%nat) (X : extends_by pad phi phi2).
  Variable (window : option R).
  Hypothesis HW : forall w, window = Some w -> cutoff <= w.

  Let cur fw := do_rmclean_hogbom (mk_nd [length d] (map Some d)) phi (mk_nd [length rm] (map Some rm)) phi2 [Some fw]
    cutoff maxIter gain None None window.

  Lemma cur_cleanloop : forall fw, length phi = length d -> length rm = length phi2 -> (2 * length d <= length rm)%nat ->
    forall s, cleanloop d rm phi fw gain cutoff window maxIter = POk s ->
    (maxabs d < cutoff -> s = init_cst d) ->
    exists c, cur fw = CRetOk c /\ flat (ccArr c) = map Some (cc s) /\ flat (residFDF c) = map Some (resid s) /\ nth 0 (flat (iterCountArr c)) 0%nat = iters s.
  Proof.
    intros fw Ld Lr L2 s Es Quiet.
    assert (WF : wf_cst phi s).
    { destruct (cleanloop_inv d rm phi fw gain cutoff window maxIter s ltac:(lia) Es) as (im & s1 & _ & _ & _ & _ & _ & _ & W). exact W. }
    assert (C1 : col 1 None (map Some d) (length phi) 0 = map Some d) by (rewrite Ld, <- (map_length Some d); apply col_one).
    assert (C2 : col 1 None (map Some rm) (length phi2) 0 = map Some rm) by (rewrite <- Lr, <- (map_length Some rm); apply col_one).
    assert (EC : exists c, cur fw = CRetOk c).
    { unfold cur, do_rmclean_hogbom. cbn [shape nth tl length]. rewrite Ld, Nat.eqb_refl, Lr, Nat.eqb_refl. rewrite Lr in L2.
      destruct (Nat.leb_spec (2 * length d) (length phi2)); [|lia].
      destruct (list_eq_dec Nat.eq_dec [] []); [|congruence]. cbn [negb Nat.leb Nat.eqb]. cbv iota zeta.
      change (prodn []) with 1%nat. cbn [seq flat].
      set (task := fun p : nat => cleanloop_nan _ _ _ _ _ _ _ _).
      assert (ET : exists o, task 0%nat = POk o).
      { unfold task. rewrite <- Ld, C1, C2. unfold cleanloop_nan. rewrite !all_some_map. cbn [nth]. rewrite Es. eauto. }
      destruct ET as [o Eo]. clearbody task. cbn [filter].
      generalize (above cutoff (col 1 None (map Some d) (length d) 0)). intros [|]; cbn [rev app]; simpl; [rewrite Eo|]; eauto. }
    destruct EC as [c Ec]. exists c. split; [exact Ec|]. unfold cur in Ec.
    pose proof (rmclean_pixels _ _ _ _ _ _ _ _ _ _ _ _ Ec Logic.I 0%nat ltac:(cbn; lia)) as PX. cbn [tl shape flat nth] in PX. change (prodn []) with 1%nat in PX.
    rewrite C1, C2 in PX. unfold cleanloop_nan in PX. rewrite !all_some_map, Es in PX.
    rewrite <- (map_length Some d) in Ec. apply hogbom_lengths in Ec. destruct Ec as (_ & K1 & K2 & K3).
    destruct WF as (W1 & W2 & W3). unfold above in PX. rewrite nan_to_num_some in PX.
    assert (LL : forall (a : list (option C)) l, length a = length phi -> length l = length phi ->
       (forall k, (k < length phi)%nat -> at2 1 None a k 0 = nth k (map Some l) None) -> a = map Some l).
    { intros a l A1 A2 A3. apply nth_ext with (d := None) (d' := None); [rewrite map_length; lia|]. intros k Hk. rewrite A1 in Hk.
      rewrite <- A3 by exact Hk. unfold at2. f_equal. lia. }
    destruct (Rle_dec cutoff (maxabs d)) as [A|A].
    - destruct PX as [PX _]. destruct (PX eq_refl) as (o & Eo & It & PK). injection Eo as <-. cbn [o_iter o_resid o_cc] in *.
      repeat split; [apply LL; auto; intros; now apply PK|apply LL; auto; intros; now apply PK|exact It].
    - destruct PX as [_ PX]. destruct (PX eq_refl) as (It & PK). rewrite (Quiet ltac:(lra)) in *. cbn [init_cst cc resid iters] in *.
      repeat split; [apply LL; auto|apply LL; auto|exact It]; intros k Hk.
      + rewrite (proj1 (proj2 (PK k Hk))). rewrite nth_indep with (d' := Some (RtoC 0)) by (rewrite !map_length; lia). rewrite map_nth. f_equal. symmetry. apply (nth_zeros d k).
      + rewrite (proj1 (PK k Hk)). unfold at2. f_equal. lia.
  Qed.

  (** What a run of the deprecated routine is made of. *)
  Lemma dep_inv : forall r, do_rmclean fit d phi l2 cutoff maxIter gain weight (Some (rm, Some phi2)) = DCOk r ->
    length phi = length d /\ length rm = length phi2 /\ (2 * length d <= length rm)%nat /\
    exists imax s, argmax cltb rm = Some imax /\
      dep_loop rm phi phi2 (dc_fwhm r) gain cutoff imax pad maxIter (init_cst d) = POk s /\
      dc_cc r = cc s /\ dc_iter r = iters s /\ dc_clean r = map (fun cr => (fst cr + snd cr)%C) (combine (cln s) (resid s)).
  Proof.
    intros r H. unfold do_rmclean in H. cbv zeta in H. destruct (Nat.eqb_spec (length phi) (length d)) as [E|]; [|discriminate]. cbn [negb] in H.
    destruct (Nat.leb_spec (2 * length d) (length rm)) as [E2|]; [|discriminate]. cbn [negb] in H.
    destruct (Nat.eqb_spec (length rm) (length phi2)) as [E3|]; [|discriminate]. cbn [negb] in H.
    destruct (Nat.eqb _ (length l2)); [|discriminate]. cbn [negb] in H.
    match type of H with match ?a with Some x => _ | None => _ end = _ => destruct a as [fw|]; [|discriminate] end.
    destruct (argmax cltb rm) as [imax|] eqn:Ei; [|discriminate].
    rewrite increasing_min in H by first [exact I|intros ->; cbn in H2; lia].
    rewrite (index_grid phi phi2 pad X 0) in H by lia. cbn [plus] in H. fold (init_cst d) in H.
    destruct (dep_loop _ _ _ _ _ _ _ _ _ _) as [s|] eqn:El; [|discriminate]. injection H as <-.
    do 3 (split; [assumption|]). exists imax, s. cbn. auto.
  Qed.

  Theorem dep_clean_is_current : forall r, do_rmclean fit d phi l2 cutoff maxIter gain weight (Some (rm, Some phi2)) = DCOk r ->
    exists c res, do_rmclean_hogbom (mk_nd [length d] (map Some d)) phi (mk_nd [length rm] (map Some rm)) phi2 [Some (dc_fwhm r)]
        cutoff maxIter gain None None window = CRetOk c /\
      flat (ccArr c) = map Some (dc_cc r) /\ nth 0 (flat (iterCountArr c)) 0%nat = dc_iter r /\ flat (residFDF c) = map Some res /\
      length res = length phi /\ length (dc_clean r) = length phi /\
      forall k, (k < length phi)%nat -> nth k (dc_clean r) (RtoC 0) = (restored12 (dc_fwhm r) phi (dc_cc r) k + nth k res (RtoC 0))%C.
  Proof.
    intros r H. destruct (dep_inv r H) as (Ld & Lr & L2 & imax & s & Ei & El & E1 & E2 & E3).
    pose proof (init_wf phi d ltac:(lia)) as W0.
    pose proof (loop_sim rm phi phi2 (dc_fwhm r) gain cutoff imax pad X maxIter (init_cst d) (init_cst d) ltac:(repeat split) W0) as SIM. rewrite El in SIM.
    destruct (loop1 rm phi (dc_fwhm r) gain imax pad cutoff maxIter (init_cst d)) as [t|] eqn:Et; [|contradiction].
    destruct SIM as (S1 & S2 & S3).
    destruct (loop1_reach _ _ _ _ _ _ _ _ _ _ W0 Et) as (RT & B1 & B2). cbn in B1, B2.
    pose proof (reach_wf _ _ _ _ _ _ _ _ _ W0 RT) as WT.
    assert (EC : cleanloop d rm phi (dc_fwhm r) gain cutoff window maxIter = POk t).
    { unfold cleanloop. rewrite Ei. fold (init_cst d). rewrite Lr, (proj1 (proj2 X)), div2_pad, Et. destruct (Nat.ltb_spec (length phi) 2); [lia|].
      apply loop2_idle with cutoff; [|exact HW|].
      - rewrite length_win_mask. destruct WT as (-> & -> & _). reflexivity.
      - destruct B2; [left; lia|right; auto]. }
    destruct (cur_cleanloop (dc_fwhm r) Ld Lr L2 t EC) as (c & Ec & C1 & C2 & C3).
    { intros Q. assert (EQ : loop1 rm phi (dc_fwhm r) gain imax pad cutoff maxIter (init_cst d) = POk (init_cst d)).
      { destruct maxIter as [|mi]; [reflexivity|]. cbn [loop1 init_cst resid]. destruct (Rle_dec cutoff (maxabs d)); [lra|reflexivity]. }
      rewrite EQ in Et. congruence. }
    exists c, (resid t). rewrite E1, E2, E3, S2, S3. do 4 (split; [assumption|]). destruct WT as (V1 & V2 & V3). split; [exact V1|].
    destruct (dep_loop_cln rm phi phi2 (dc_fwhm r) gain cutoff imax pad X maxIter _ s W0 El) as [(U1 & U2 & U3) CL].
    { intros j Hj. cbn. rewrite nth_zeros. apply nz12. }
    split; [rewrite map_length, combine_length; lia|]. intros k Hk. rewrite (nth_map_combine _ _ _ _ _ (RtoC 0) (RtoC 0)) by lia. cbn [fst snd].
    rewrite CL by exact Hk. now rewrite S1, S2.
  Qed.

  (** ... and the other way round: where the current routine returns, so does
      the deprecated one (given a width). *)
  Theorem dep_clean_returns : forall st fw c, fit phi2 (map Some rm) = Some (st, fw) -> (1 <= st)%Z ->
    match weight with Some w => length w = length l2 | None => True end -> cutoff <= maxabs d ->
    do_rmclean_hogbom (mk_nd [length d] (map Some d)) phi (mk_nd [length rm] (map Some rm)) phi2 [Some fw]
        cutoff maxIter gain None None window = CRetOk c ->
    exists r, do_rmclean fit d phi l2 cutoff maxIter gain weight (Some (rm, Some phi2)) = DCOk r /\ dc_fwhm r = fw.
  Proof.
    intros st fw c EF Hst HWt HA H.
    assert (DIM : length phi = length d /\ length rm = length phi2 /\ (2 * length phi <= length phi2)%nat).
    { unfold do_rmclean_hogbom in H. cbn [shape nth] in H. destruct (Nat.eqb_spec (length phi) (length d)); [|discriminate].
      cbn [negb] in H. destruct (Nat.eqb_spec (length phi2) (length rm)); [|discriminate]. cbn [negb] in H.
      destruct (Nat.leb_spec (2 * length phi) (length phi2)); [|discriminate]. auto. }
    destruct DIM as (Ld & Lr & L2).
    assert (C1 : col 1 None (map Some d) (length phi) 0 = map Some d) by (rewrite Ld, <- (map_length Some d); apply col_one).
    assert (C2 : col 1 None (map Some rm) (length phi2) 0 = map Some rm) by (rewrite <- Lr, <- (map_length Some rm); apply col_one).
    pose proof (rmclean_pixels _ _ _ _ _ _ _ _ _ _ _ _ H Logic.I 0%nat ltac:(cbn; lia)) as PX. cbn [tl shape flat nth] in PX. change (prodn []) with 1%nat in PX.
    rewrite C1, C2 in PX. unfold cleanloop_nan in PX. rewrite !all_some_map in PX. unfold above in PX. rewrite nan_to_num_some in PX.
    destruct (Rle_dec cutoff (maxabs d)) as [_|]; [|contradiction]. destruct PX as [PX _]. destruct (PX eq_refl) as (o & Eo & _).
    destruct (cleanloop d rm phi fw gain cutoff window maxIter) as [s|] eqn:Es; [|discriminate].
    destruct (cleanloop_inv d rm phi fw gain cutoff window maxIter s (eq_sym Ld) Es) as (imax & s1 & Ei & L1 & _). rewrite Lr, (proj1 (proj2 X)), div2_pad in L1.
    pose proof (init_wf phi d ltac:(lia)) as W0.
    pose proof (loop_sim rm phi phi2 fw gain cutoff imax pad X maxIter (init_cst d) (init_cst d) ltac:(repeat split) W0) as SIM. rewrite L1 in SIM.
    destruct (dep_loop rm phi phi2 fw gain cutoff imax pad maxIter (init_cst d)) as [t|] eqn:Et; [|contradiction].
    unfold do_rmclean. cbv zeta. rewrite Ld, Nat.eqb_refl, Lr, Nat.eqb_refl. rewrite <- Ld. destruct (Nat.leb_spec (2 * length phi) (length phi2)); [|lia]. cbn [negb].
    rewrite EF. destruct (Z.ltb_spec st 1); [lia|].
    replace (Nat.eqb (length (dep_weights (length l2) weight)) (length l2)) with true.
    2:{ symmetry. apply Nat.eqb_eq. unfold dep_weights. destruct weight as [w|]; [exact HWt|apply repeat_length]. }
    cbn [negb]. rewrite Ei. rewrite increasing_min by first [exact I|intros ->; cbn in H2; lia].
    rewrite (index_grid phi phi2 pad X 0) by lia. rewrite Nat.add_0_l. fold (init_cst d). rewrite Et. eexists. split; reflexivity.
  Qed.
End Api.

(** The grid of the RMSF routines is such an extension. *)
Lemma ext_increasing : forall phi, increasing phi -> (2 <= length phi)%nat -> forall i j : Z, (i < j)%Z -> ext_index phi i < ext_index phi j.
Proof.
  intros phi I H2 i j Hij. set (n := length phi) in *.
  assert (D0 : 0 < nth 1 phi 0 - nth 0 phi 0) by (assert (nth 0 phi 0 < nth 1 phi 0) by (apply I; fold n; lia); lra).
  assert (D1 : 0 < nth (n - 1) phi 0 - nth (n - 2) phi 0) by (assert (nth (n - 2) phi 0 < nth (n - 1) phi 0) by (apply I; fold n; lia); lra).
  assert (IN : forall k, (k < n)%nat -> nth 0 phi 0 <= nth k phi 0 <= nth (n - 1) phi 0).
  { intros k Hk. split.
    - destruct k; [lra|]. left. apply I. fold n. lia.
    - destruct (Nat.eq_dec k (n - 1)) as [->|]; [lra|]. left. apply I. fold n. lia. }
  assert (LO : forall k, (k < 0)%Z -> IZR k * (nth 1 phi 0 - nth 0 phi 0) < 0).
  { intros k Hk. assert (IZR k < 0) by (apply IZR_lt; lia). nra. }
  assert (HI : forall k, (Z.of_nat n <= k)%Z -> 0 < (IZR k - INR (n - 1)) * (nth (n - 1) phi 0 - nth (n - 2) phi 0)).
  { intros k Hk. apply Rmult_lt_0_compat; [|exact D1]. rewrite INR_IZR_INZ, <- minus_IZR. apply IZR_lt. lia. }
  unfold ext_index. fold n.
  destruct (Z.ltb_spec i 0), (Z.ltb_spec j 0); try lia.
  - assert (IZR i < IZR j) by (apply IZR_lt; lia). nra.
  - destruct (Z.ltb_spec j (Z.of_nat n)).
    + specialize (IN (Z.to_nat j) ltac:(lia)). specialize (LO i ltac:(lia)). lra.
    + specialize (IN 0%nat ltac:(lia)). specialize (LO i ltac:(lia)). specialize (HI j ltac:(lia)). lra.
  - destruct (Z.ltb_spec i (Z.of_nat n)), (Z.ltb_spec j (Z.of_nat n)); try lia.
    + apply I. fold n. lia.
    + specialize (IN (Z.to_nat i) ltac:(lia)). specialize (HI j ltac:(lia)). lra.
    + assert (IZR i < IZR j) by (apply IZR_lt; lia). nra.
Qed.

Theorem doubled_grid_extends : forall phi phi2, increasing phi -> (2 <= length phi)%nat -> phi2_grid true phi = Some phi2 ->
  extends_by (Nat.div2 (length phi + 1)) phi phi2.
Proof.
  intros phi phi2 I H2 H. rewrite phi2_double in H by exact H2. cbv zeta in H. injection H as <-. set (e := Nat.div2 (length phi + 1)).
  assert (E1 : (0 < e)%nat).
  { unfold e. destruct (length phi) as [|[|k]]; cbn; lia. }
  split; [exact E1|]. split; [rewrite map_length, seq_length; lia|]. split.
  - apply NoDup_nth with (d := 0). intros a b Ha Hb E. rewrite map_length, seq_length in Ha, Hb. rewrite !nth_map_seq in E by lia. rewrite !Nat.add_0_l in E.
    destruct (Nat.lt_trichotomy a b) as [L|[->|L]]; [|reflexivity|].
    + pose proof (ext_increasing phi I H2 (Z.of_nat a - Z.of_nat e) (Z.of_nat b - Z.of_nat e) ltac:(lia)). lra.
    + pose proof (ext_increasing phi I H2 (Z.of_nat b - Z.of_nat e) (Z.of_nat a - Z.of_nat e) ltac:(lia)). lra.
  - intros i Hi. rewrite nth_map_seq by lia. rewrite Nat.add_0_l. unfold ext_index.
    destruct (Z.ltb_spec (Z.of_nat (e + i) - Z.of_nat e) 0); [lia|]. destruct (Z.ltb_spec (Z.of_nat (e + i) - Z.of_nat e) (Z.of_nat (length phi))); [|lia].
    f_equal. lia.
Qed.
