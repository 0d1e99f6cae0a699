(** RM-CLEAN of one spectrum always returns, and a full example from channel
    frequencies to the prediction. *)
From Coq Require Import Reals List Arith ZArith Bool Lia Lra Permutation.
Set Warnings "-ambiguous-paths".
From Coquelicot Require Import Coquelicot.
From Verif Require Import PyRes CBase NdArray PyList PyList_Proofs Interp_Model Synth_Model Synth_Spec Synth_Proofs Synth_Laws
  Rmsf_Proofs Clean_Model Clean_Spec Clean_Proofs Clean_Cube Clean_Laws StokesI_Model CleanTop_Model Clean_Grid Clean_More Rmsf_Peak.
Import ListNotations.
Local Open Scope R_scope.

Lemma col_one : forall {A} (l : list (option A)), col 1 None l (length l) 0 = l.
Proof.
  intros A l. unfold col. apply nth_ext with (d := None) (d' := None).
  - now rewrite map_length, seq_length.
  - intros k Hk. rewrite map_length, seq_length in Hk. rewrite nth_map_seq by auto. unfold at2. f_equal. simpl. lia.
Qed.

Lemma all_some_map : forall {A} (l : list A), all_some (map Some l) = Some l.
Proof. induction l; simpl; auto. now rewrite IHl. Qed.

Theorem rmclean_1d_total : forall d phi rm phi2 fw cutoff maxIter gain window imax,
  length d = length phi -> length rm = length phi2 -> (2 <= length phi)%nat -> (2 * length phi <= length phi2)%nat ->
  peak_at rm imax -> roomy (length phi) (length phi2) imax ->
  exists r, do_rmclean_hogbom (mk_nd [length phi] (map Some d)) phi (mk_nd [length rm] (map Some rm)) phi2 [Some fw]
     cutoff maxIter gain None None window = CRetOk r.
Proof.
  intros d phi rm phi2 fw cutoff maxIter gain window imax Ld Lr Hn Hn2 HP HR.
  rewrite <- Lr in HR.
  destruct (clean_total d rm phi fw gain cutoff window maxIter imax Ld Hn HP HR) as [s Es].
  unfold do_rmclean_hogbom. cbn [shape nth tl length]. rewrite Nat.eqb_refl. rewrite Lr, Nat.eqb_refl.
  destruct (Nat.leb_spec (2 * length phi) (length phi2)); [|lia].
  destruct (list_eq_dec Nat.eq_dec [] []); [|congruence]. cbn [negb Nat.leb Nat.eqb]. cbv iota zeta.
  change (prodn []) with 1%nat. cbn [seq flat].
  set (task := fun p : nat => cleanloop_nan _ _ _ _ _ _ _ _).
  assert (ET : exists o, task 0%nat = POk o).
  { unfold task. rewrite <- Lr, <- Ld.
    rewrite <- (map_length Some d), <- (map_length Some rm), !col_one.
    unfold cleanloop_nan. rewrite !all_some_map. cbn [nth]. rewrite Es. eauto. }
  destruct ET as [o Eo]. clearbody task. cbn [filter].
  generalize (above cutoff (col 1 None (map Some d) (length phi) 0)). intros [|]; cbn [rev app]; simpl; [rewrite Eo|]; eauto.
Qed.

(* ------------------------------------------------------------- an example *)
(** Two channels at wavelengths squared 1 and 4 m^2, grid -1/10, 0, 1/10. *)
Definition y_freq : list R := [c_light; c_light / 2].
Definition y_phi : list R := [-1/10; 0; 1/10].
Definition y_l2 : list R := map (fun f => (c_light / f) ^ 2) y_freq.

Lemma c_light_nz : c_light <> 0. Proof. unfold c_light. lra. Qed.

Lemma y_l2_eq : y_l2 = [1; 4].
Proof.
  unfold y_l2, y_freq. simpl map. pose proof c_light_nz. f_equal; [|f_equal]; field; auto.
Qed.

Lemma y_grid : centred_grid y_phi 1 (1/10).
Proof.
  split; [lia|]. split; [reflexivity|]. intros k Hk. do 3 (destruct k as [|k]; [simpl; lra|]). simpl in Hk. lia.
Qed.

Lemma y_valid : valid_rmsf y_l2 None (mk_nd [2%nat] [false; false]).
Proof. repeat split; simpl; auto. rewrite y_l2_eq. discriminate. Qed.

Lemma y_rmsf : forall fit, exists r rm,
  get_rmsf_planes fit y_l2 y_phi None (Some (mk_nd [2%nat] [false; false])) (Some (5/2)) true false = RetOk r /\
  length rm = length (phi2Arr r) /\ has_spec 1 0 (flat (RMSFcube r)) rm /\ unit_peak rm (length y_phi) /\
  length (phi2Arr r) = 7%nat.
Proof.
  intros fit. destruct (rmsf_grid_fits_clean y_phi 1 (1/10) y_grid) as [phi2 [E2 [G2 [L2 [_ [Z2 RO]]]]]].
  destruct (rmsf_refines fit y_l2 y_phi None (mk_nd [2%nat] [false; false]) (Some (5/2)) true false phi2 y_valid E2) as [r [Er [Ep F]]].
  assert (HL : rmsf_lam0 r = Some (5/2)) by (rewrite (rmsf_lam0_ret _ _ _ _ _ _ _ _ _ Er); reflexivity).
  set (chs := mask_chans (length y_l2) 1 [false; false] y_l2 (weights_of (length y_l2) None) 0) in *.
  exists r, (map (fun f => RMSF_spec chs (5/2) f) phi2).
  assert (L7 : length phi2 = 7%nat) by (rewrite L2; reflexivity).
  assert (WW : wsum chs = 2).
  { unfold chs, mask_chans, wsum. rewrite y_l2_eq. simpl. rewrite !rsum_cons, rsum_nil. ring. }
  assert (HS : has_spec 1 0 (flat (RMSFcube r)) (map (fun f => RMSF_spec chs (5/2) f) phi2)).
  { intros k Hk. rewrite map_length in Hk. rewrite (nth_map_lt _ _ _ _ 0) by auto.
    specialize (F k 0%nat (5/2) Hk ltac:(simpl; auto) HL). unfold mpix in F. simpl flat in F.
    apply F; [|left; exact (centred_antisym _ _ _ y_grid)].
    change (wsum chs <> 0). lra. }
  split; [exact Er|]. split; [rewrite map_length, Ep; reflexivity|]. split; [exact HS|]. split; [|now rewrite Ep].
  apply (rmsf_unit_peak fit y_l2 y_phi 1 (1/10) None (mk_nd [2%nat] [false; false]) (Some (5/2)) false r 0 (5/2) _ 0 1 y_valid y_grid);
    try (rewrite y_l2_eq); simpl; auto; try lra.
  - rewrite <- y_l2_eq. exact Er.
  - rewrite map_length, Ep; reflexivity.
  - replace (1 - 4) with (-(3)) by ring. rewrite Rabs_Ropp, Rabs_pos_eq by lra. generalize PI2_3_2. lra.
Qed.

(** every hypothesis of [clean_components_predict] *)
Lemma y_predict : forall fit, exists r rm q,
  centred_grid y_phi 1 (1/10) /\ y_freq <> [] /\
  wsum (mask_chans (length y_l2) 1 [false; false] y_l2 (weights_of (length y_l2) None) 0) <> 0 /\
  get_rmsf_planes fit y_l2 y_phi None (Some (mk_nd [2%nat] [false; false])) (Some (5/2)) true false = RetOk r /\
  length rm = length (phi2Arr r) /\ has_spec 1 0 (flat (RMSFcube r)) rm /\ peak_at rm (length y_phi) /\
  do_rmclean_hogbom (mk_nd [length y_phi] (map Some [RtoC 5; RtoC 9; RtoC 1])) y_phi (mk_nd [length rm] (map Some rm)) (phi2Arr r)
     [Some 1] 3 100 (1/10) None None (Some 1) = CRetOk q.
Proof.
  intros fit. destruct (y_rmsf fit) as (r & rm & Er & Lr & HS & HU & L7). exists r, rm.
  destruct (rmclean_1d_total [RtoC 5; RtoC 9; RtoC 1] y_phi rm (phi2Arr r) 1 3 100 (1/10) (Some 1) 3 eq_refl Lr) as [q Eq].
  - simpl; lia.
  - rewrite L7. simpl. lia.
  - apply unit_peak_at. exact HU.
  - rewrite L7. split; [exists 2%nat; split; simpl; lia|simpl; lia].
  - exists q. split; [apply y_grid|]. split; [discriminate|]. split.
    { unfold mask_chans, wsum. rewrite y_l2_eq. simpl. rewrite !rsum_cons, rsum_nil. lra. }
    split; [exact Er|]. split; [exact Lr|]. split; [exact HS|]. split; [now apply unit_peak_at|]. exact Eq.
Qed.
