(** Counterexamples for the measurements. *)
From Coq Require Import Reals List Arith ZArith Bool Lia Lra Psatz.
Set Warnings "-ambiguous-paths".
From Coquelicot Require Import Coquelicot.
From Verif Require Import CBase PyRes PyList PyList_Proofs Interp_Model Synth_Model Setup_Model Setup_Spec Setup_Proofs
  Peak_Proofs Measure_Model Measure_Spec Measure_Proofs Measure_Laws.
Import ListNotations.
Local Open Scope R_scope.

(** a convex peak: the fitted vertex is the minimum of the parabola *)
Theorem measure_convex : forall FDF phi fw dFDF l2 lam0 sb, length FDF = length phi -> forall phi0 d, 0 < d -> uniform phi phi0 d ->
  forall p, measure_FDF_parms FDF phi fw dFDF l2 lam0 sb = POk p ->
  exists i z, peak_channel FDF (length phi) i z /\
  forall z1 z3 a, nth (i - 1) FDF None = Some z1 -> nth (i + 1) FDF None = Some z3 -> 2 * Cmod z < Cmod z1 + Cmod z3 ->
    ampPeakPIfit p = Some a -> a <= Cmod z /\ a <= Cmod z1 /\ a <= Cmod z3.
Proof.
  intros FDF phi fw dFDF l2 lam0 sb Hl phi0 d Hd Hu p H.
  assert (INC : increasing phi).
  { intros j k Hjk. rewrite !Hu by lia. assert (INR j < INR k) by (apply lt_INR; lia). nra. }
  destruct (measure_peak FDF phi fw dFDF l2 lam0 sb Hl INC p H) as (i & z & P & FN & G). exists i, z. split; auto.
  intros z1 z3 a E1 E3 Hc Ha. destruct (phiPeakPIfit p) as [ph|] eqn:Ep; [|rewrite (proj1 FN eq_refl) in Ha; discriminate].
  destruct (G ph a eq_refl Ha) as (z1' & z3' & qa & qb & qc & F1 & F3 & Hqa & (T1 & T2 & T3) & -> & -> & _).
  rewrite E1 in F1. injection F1 as <-. rewrite E3 in F3. injection F3 as <-.
  destruct P as (Hi & _).
  assert (X1 : nth (i - 1) phi 0 = nth i phi 0 - d) by (rewrite !Hu by lia; rewrite minus_INR by lia; simpl (INR 1); ring).
  assert (X3 : nth (i + 1) phi 0 = nth i phi 0 + d) by (rewrite !Hu by lia; rewrite plus_INR; simpl (INR 1); ring).
  rewrite X1 in T1. rewrite X3 in T3. set (x := nth i phi 0) in *.
  assert (E : Cmod z1 + Cmod z3 - 2 * Cmod z = 2 * (qa * d ^ 2)) by (rewrite <- T1, <- T2, <- T3; unfold quad; ring).
  assert (0 < qa). { apply Rnot_le_lt. intros Hle. assert (0 < d ^ 2) by (apply pow_lt; auto). nra. }
  rewrite <- T1, <- T2, <- T3. repeat split; apply quad_min; auto.
Qed.

Definition r_phi : list R := [-2; -1; 0; 1; 2].
Lemma r_uniform : uniform r_phi (-2) 1.
Proof. intros k Hk. simpl in Hk. destruct k as [|[|[|[|[|k]]]]]; simpl; try lra; lia. Qed.
Lemma r_increasing : increasing r_phi.
Proof. intros j k Hjk. rewrite !r_uniform by lia. assert (INR j < INR k) by (apply lt_INR; lia). lra. Qed.

Definition r_spec (a b c d e : R) : list (option C) := map (fun x => Some (RtoC x)) [a; b; c; d; e].

Lemma r_max : rmax_list (map Rabs r_phi) = Some 2.
Proof.
  apply rmax_list_unique. split.
  - left. rewrite Rabs_left; lra.
  - intros y Hy. apply in_map_iff in Hy. destruct Hy as (x & <- & Hx).
    assert (-2 <= x <= 2) by (simpl in Hx; repeat (destruct Hx as [<- | Hx]; [lra|]); destruct Hx).
    unfold Rabs. destruct (Rcase_abs x); lra.
Qed.

(** the channel chosen in a spectrum whose second channel is the largest one
    that is not an edge *)
Lemma r_peak : forall a b c d e i z, peak_channel (r_spec a b c d e) 5 i z -> 0 <= c < b -> 0 <= d < b -> i = 1%nat /\ z = RtoC b.
Proof.
  intros a b c d e i z (Hi & Ez & Hm & _) Hc Hd. specialize (Hm 1%nat (RtoC b) ltac:(lia) eq_refl). rewrite Cmod_R in Hm.
  rewrite Rabs_pos_eq in Hm by lra. destruct i as [|[|[|[|i]]]]; try lia; simpl in Ez; injection Ez as <-; auto; rewrite Cmod_R, Rabs_pos_eq in Hm by lra; lra.
Qed.

(** C31, second channel next to a brighter edge: the reported peak is below the
    amplitude of the peak channel. *)
Theorem edge_peak_refuted : exists FDF phi fw dFDF l2 lam0 sb p i z a, length FDF = length phi /\ uniform phi (-2) 1 /\
  measure_FDF_parms FDF phi fw dFDF l2 lam0 sb = POk p /\ peak_channel FDF (length phi) i z /\
  ampPeakPIfit p = Some a /\ a < Cmod z.
Proof.
  set (F := r_spec 10 4 (39 / 10) 1 1).
  destruct (measure_defined F r_phi (Some 1) (Some (Some 1)) [1; 2; 3] 2 5 eq_refl) as [p H].
  { exists 1%nat, (RtoC 4). split; [simpl; lia|reflexivity]. }
  destruct (measure_shape F r_phi (Some 1) (Some (Some 1)) [1; 2; 3] 2 5 eq_refl p H) as (i & z & P & SH). cbv zeta in SH.
  destruct (r_peak _ _ _ _ _ i z P) as [-> ->]; try lra.
  destruct SH as (_ & _ & Ea & _).
  assert (V : the_vertex F r_phi 1 = Some (-1 + 305 / 590, 4 - 305 / 590 * (305 / 590) * (295 / 100))).
  { unfold the_vertex. simpl nth. cbn [option_map]. rewrite !Cmod_R, !Rabs_pos_eq by lra.
    destruct (vertex_spec (295 / 100) (285 / 100) (39 / 10) (-2) 10 (-1) 4 0 (39 / 10)) as [Hv _]; try lra.
    - unfold through, quad. repeat split; lra.
    - rewrite Hv by lra. unfold quad. f_equal. f_equal; lra. }
  assert (K : the_kept F r_phi 1 = the_vertex F r_phi 1).
  { unfold the_kept. rewrite V, r_max. unfold Rltb. destruct (Rlt_dec 2 _) as [L|_]; [|reflexivity].
    exfalso. rewrite Rabs_left in L by lra. lra. }
  rewrite K, V in Ea. cbn [option_map snd] in Ea.
  exists F, r_phi, (Some 1), (Some (Some 1)), [1; 2; 3], 2, 5, p, 1%nat, (RtoC 4), (4 - 305 / 590 * (305 / 590) * (295 / 100)).
  split; [reflexivity|]. split; [exact r_uniform|]. split; [exact H|]. split; [exact P|]. split; [exact Ea|].
  rewrite Cmod_R, Rabs_pos_eq by lra. lra.
Qed.

(** C31, a vertex outside the grid: depth and amplitude are blanked, but the
    signal to noise ratio stays finite. *)
Theorem outside_snr_refuted : exists FDF phi fw dFDF l2 lam0 sb p s, length FDF = length phi /\ uniform phi (-2) 1 /\
  measure_FDF_parms FDF phi fw dFDF l2 lam0 sb = POk p /\
  phiPeakPIfit p = None /\ ampPeakPIfit p = None /\ snrPIfit p = Some s /\ 10 < s.
Proof.
  set (F := r_spec 10 (99 / 10) (97 / 10) 1 1).
  destruct (measure_defined F r_phi (Some 1) (Some (Some 1)) [1; 2; 3] 2 5 eq_refl) as [p H].
  { exists 1%nat, (RtoC (99 / 10)). split; [simpl; lia|reflexivity]. }
  destruct (measure_shape F r_phi (Some 1) (Some (Some 1)) [1; 2; 3] 2 5 eq_refl p H) as (i & z & P & SH). cbv zeta in SH.
  destruct (r_peak _ _ _ _ _ i z P) as [-> ->]; try lra.
  destruct SH as (EdF & Ep & Ea & Es & _).
  assert (V : the_vertex F r_phi 1 = Some (-25 / 10, 100125 / 10000)).
  { unfold the_vertex. simpl nth. cbn [option_map]. rewrite !Cmod_R, !Rabs_pos_eq by lra.
    destruct (vertex_spec (-5 / 100) (-25 / 100) (97 / 10) (-2) 10 (-1) (99 / 10) 0 (97 / 10)) as [Hv _]; try lra.
    - unfold through, quad. repeat split; lra.
    - rewrite Hv by lra. unfold quad. f_equal. f_equal; lra. }
  assert (K : the_kept F r_phi 1 = None).
  { unfold the_kept. rewrite V, r_max. unfold Rltb. destruct (Rlt_dec 2 _) as [_|L]; [reflexivity|].
    exfalso. apply L. rewrite Rabs_left by lra. lra. }
  rewrite K in Ep, Ea. rewrite V, EdF in Es. cbn [option_map snd odiv] in *. destruct (Req_EM_T 1 0) as [?|_]; [lra|].
  exists F, r_phi, (Some 1), (Some (Some 1)), [1; 2; 3], 2, 5, p, (100125 / 10000 / 1).
  split; [reflexivity|]. split; [exact r_uniform|]. repeat (split; [assumption|]). lra.
Qed.
