(** Peaks near the first sample, and a spread function for the examples: two
    channels. *)
From Coq Require Import Reals List Arith ZArith Bool Lra Lia Psatz.
Set Warnings "-ambiguous-paths".
From Coquelicot Require Import Coquelicot.
From Verif Require Import CBase PyRes PyList NdArray Synth_Model Synth_Spec Synth_Proofs Synth_Laws Rmsf_Proofs Clean_Spec Clean_Grid Rmsf_Peak Cube_Model Bw_Proofs
  Mp_Model Mp_Spec Ref_Spec Lobe_Spec Lobe_Model Lobe_Proofs Lobe_Fit.
Import ListNotations.
Local Open Scope R_scope.

Lemma mask_empty : forall y (msk : list bool) n, (forall i, (i < n)%nat -> nth i msk false = false) -> length msk = n ->
  filter (fun i => nth i msk false) (seq 0 y) = [].
Proof.
  intros y msk n H L. assert (G : forall i, nth i msk false = false).
  { intros i. destruct (le_lt_dec n i); [apply nth_overflow; lia|auto]. }
  induction (seq 0 y) as [|a l IH]; cbn; [reflexivity|]. now rewrite G.
Qed.

Lemma all_false : forall (l : list bool), (forall b, In b l -> b = false) -> length (filter (fun b => b) l) = 0%nat.
Proof. induction l as [|b l IH]; intros H; cbn; [reflexivity|]. rewrite (H b) by now left. apply IH. intros; apply H; now right. Qed.

(** Then nothing is fitted. *)
Theorem near_start_fails : forall fuel rest x y t u k s, first_peak y k -> falls_after t y k s -> (k + 1 < s)%nat -> (2 * s <= length y + 1)%nat ->
  fit_rmsf fuel rest x (map Some y) t u = None.
Proof.
  intros fuel rest x y t u k s P F L L2. destruct (detect_near_start t y k s P F L) as (msk & E & _ & H).
  assert (LM : length msk = length y).
  { rewrite (detect_eq t y k s P F) in E. injection E as <-. now rewrite map_length, seq_length. }
  assert (Z : forall i, (i < length y)%nat -> nth i msk false = false).
  { intros i Hi. destruct (nth i msk false) eqn:B; [|reflexivity]. apply H in B; [|exact Hi]. lia. }
  unfold fit_rmsf. rewrite E. cbv zeta. rewrite map_length.
  rewrite all_false.
  2:{ intros b Hb. apply in_map_iff in Hb. destruct Hb as ((v & c) & <- & Hb). cbn [fst snd]. apply in_combine_r in Hb.
      destruct (In_nth _ _ false Hb) as (i & Hi & <-). rewrite Z by lia. now destruct (below u v). }
  change (Nat.ltb 0 4) with true. cbv iota. rewrite (mask_empty (length y) msk (length y) Z LM). reflexivity.
Qed.

(** A Gaussian does not tell the sign of its width. *)
Theorem width_sign : forall xs ys a b w, distance xs ys a b (- w) = distance xs ys a b w.
Proof.
  intros. unfold distance. f_equal. apply map_ext. intros v. unfold gaussian.
  replace ((2 * (fst v - b) / - w) ^ 2) with ((2 * (fst v - b) / w) ^ 2); [reflexivity|].
  destruct (Req_dec w 0) as [->|N]; [now rewrite Ropp_0|]. field. lra.
Qed.

(** ---------- two channels *)
Definition t_l2 : list R := [1; 2].
Definition t_step : R := PI / 6.
Definition t_phi : list R := map (fun k => (INR k - 2) * t_step) (seq 0 5).
Definition t_msk : nd bool := mk_nd [2%nat] [false; false].
Definition t_chs : list chan := [mk_chan 1 1 (RtoC 0); mk_chan 2 1 (RtoC 0)].
Definition t_rm : list C := map (fun k => RMSF_spec t_chs (3 / 2) ((INR k - 5) * t_step)) (seq 0 11).

Lemma t_grid : centred_grid t_phi 2 t_step.
Proof.
  split; [lia|]. split; [reflexivity|]. intros k Hk. unfold t_phi in *. rewrite map_length, seq_length in Hk. rewrite nth_map_seq by exact Hk. reflexivity.
Qed.

Lemma t_step_pos : 0 < t_step.
Proof. unfold t_step. pose proof PI_RGT_0. lra. Qed.

Lemma t_valid : valid_rmsf t_l2 None t_msk.
Proof. split; [discriminate|]. split; [cbn; lia|]. split; [reflexivity|exact I]. Qed.

Lemma t_two : 0 < INR (length t_phi) * t_step * Rabs (nth 0 t_l2 0 - nth 1 t_l2 0) < PI.
Proof.
  pose proof PI_RGT_0. change (length t_phi) with 5%nat. cbn [nth t_l2]. replace (1 - 2) with (- (1)) by ring. rewrite Rabs_Ropp, Rabs_R1.
  unfold t_step. cbn [INR]. lra.
Qed.

Lemma t_runs : forall fit ft, exists r, get_rmsf_planes fit t_l2 t_phi None (Some t_msk) (Some (3 / 2)) true ft = RetOk r /\
  rmsf_lam0 r = Some (3 / 2) /\ length t_rm = length (phi2Arr r) /\ has_spec (mpix t_msk) 0 (flat (RMSFcube r)) t_rm.
Proof.
  intros fit ft. destruct (rmsf_grid_fits_clean t_phi 2 t_step t_grid) as [phi2 [E2 [G2 _]]].
  destruct (rmsf_refines fit t_l2 t_phi None t_msk (Some (3 / 2)) true ft phi2 t_valid E2) as (r & Er & Ep & F).
  assert (HL : rmsf_lam0 r = Some (3 / 2)) by (rewrite (rmsf_lam0_ret _ _ _ _ _ _ _ _ _ Er); reflexivity).
  destruct G2 as (_ & L2 & N2). change (length t_phi) with 5%nat in L2, N2.
  exists r. split; [exact Er|]. split; [exact HL|]. split; [rewrite Ep, L2; reflexivity|].
  intros k Hk. unfold t_rm in Hk. rewrite map_length, seq_length in Hk.
  unfold t_rm. rewrite nth_map_seq by exact Hk. rewrite Nat.add_0_l.
  specialize (F k 0%nat (3 / 2) ltac:(lia) ltac:(cbn; lia) HL). cbv zeta in F.
  assert (CE : mask_chans (length t_l2) (mpix t_msk) (flat t_msk) t_l2 (weights_of (length t_l2) None) 0 = t_chs) by reflexivity.
  rewrite CE in F. unfold at2 in F. rewrite F.
  - rewrite N2 by lia. do 3 f_equal. cbn [INR]. ring.
  - unfold wsum, rsum. cbn. lra.
  - left. exact (centred_antisym _ _ _ t_grid).
Qed.

Lemma t_mod : forall x, Cmod (RMSF_spec t_chs (3 / 2) x) = Rabs (cos x).
Proof.
  intros x. unfold RMSF_spec, t_chs, wsum. cbn [map c_w c_l2]. unfold rsum, csum. cbn [fold_right].
  replace ((RtoC 1 * cis (-2 * x * (1 - 3 / 2)) + (RtoC 1 * cis (-2 * x * (2 - 3 / 2)) + RtoC 0)) / RtoC (1 + (1 + 0)))%C with (RtoC (cos x)).
  - now rewrite Cmod_R.
  - replace (-2 * x * (1 - 3 / 2)) with x by field. replace (-2 * x * (2 - 3 / 2)) with (- x) by field.
    unfold cis. rewrite cos_neg, sin_neg. replace (1 + (1 + 0)) with 2 by ring.
    apply injective_projections; cbn; field.
Qed.

Lemma t_y : forall k, (k < 11)%nat -> nth k (map Cmod t_rm) 0 = Rabs (cos ((INR k - 5) * t_step)).
Proof.
  intros k Hk. unfold t_rm. rewrite map_map. rewrite nth_map_seq by exact Hk. rewrite Nat.add_0_l. apply t_mod.
Qed.

Lemma t_values : nth 5 (map Cmod t_rm) 0 = 1 /\ nth 6 (map Cmod t_rm) 0 = sqrt 3 / 2 /\ nth 7 (map Cmod t_rm) 0 = 1 / 2 /\ nth 8 (map Cmod t_rm) 0 = 0.
Proof.
  rewrite !t_y by lia. unfold t_step. cbn [INR].
  replace ((1 + 1 + 1 + 1 + 1 - 5) * (PI / 6)) with 0 by ring. replace ((1 + 1 + 1 + 1 + 1 + 1 - 5) * (PI / 6)) with (PI / 6) by field.
  replace ((1 + 1 + 1 + 1 + 1 + 1 + 1 - 5) * (PI / 6)) with (PI / 3) by field. replace ((1 + 1 + 1 + 1 + 1 + 1 + 1 + 1 - 5) * (PI / 6)) with (PI / 2) by field.
  rewrite cos_0, cos_PI6, cos_PI3, cos_PI2, Rabs_R1, Rabs_R0. pose proof (sqrt_pos 3).
  rewrite !Rabs_pos_eq by lra. auto.
Qed.

Lemma t_falls : falls_after (4 / 10) (map Cmod t_rm) (length t_phi) 3 /\
  forall j, (j < 3)%nat -> 1 - 6 / 10 * (INR j / INR (3 - 1)) <= nth (length t_phi + j) (map Cmod t_rm) 0.
Proof.
  destruct t_values as (V5 & V6 & V7 & V8). change (length t_phi) with 5%nat.
  assert (S : 17 / 10 <= sqrt 3). { apply Rsqr_incr_0_var; [|apply sqrt_pos]. rewrite Rsqr_sqrt by lra. unfold Rsqr. lra. }
  split; [split; [unfold t_rm; rewrite !map_length, seq_length; lia|]; split|].
  - cbn [Nat.add]. rewrite V8. lra.
  - intros j Hj. do 3 (destruct j as [|j]; [cbn [Nat.add]; lra|]). lia.
  - intros j Hj. do 3 (destruct j as [|j]; [cbn [Nat.add INR Nat.sub]; lra|]). lia.
Qed.

(** Modulus or real part. *)
Theorem part_fit : forall fuel (real : bool) x rm k s st w,
  let y := map (if real then Re else Cmod) rm in
  first_peak y k -> falls_after (4 / 10) y k s -> (2 <= s <= k + 1)%nat -> (length rm <= length x)%nat -> 4 / 10 <= nth k y 0 ->
  (forall rest, rmsf_fit fuel rest real x (map Some rm) = Some (st, w)) ->
  let idx := used (4 / 10) y k s in
  exists a b e, extent (take idx x) e /\ (1 <= st <= 8)%Z /\
    distance (take idx x) (take idx y) a b w <= distance (take idx x) (take idx y) 1 (nth k x 0) e.
Proof.
  intros fuel real x rm k s st w y P F Hs L H4 H idx.
  assert (YY : map (option_map (if real then fst else Cmod)) (map Some rm) = map Some y) by (unfold y; rewrite !map_map; destruct real; reflexivity).
  unfold rmsf_fit in H. rewrite YY in H.
  assert (LY : length y = length rm) by (unfold y; apply map_length).
  destruct (fit_eq fuel (fun _ _ => None) x y (4 / 10) (4 / 10) k s P F ltac:(lia) H4 ltac:(lia)) as (e0 & EX0 & E0).
  pose proof (H (fun _ _ => None)) as H0. rewrite E0 in H0.
  destruct (mpfit _ _ _ _ _ _) as [[o|]|] eqn:EM; try discriminate.
  assert (A : forall rest, fit_rmsf fuel rest x (map Some y) (4 / 10) (4 / 10) = Some o).
  { intros rest. destruct (fit_eq fuel rest x y (4 / 10) (4 / 10) k s P F ltac:(lia) H4 ltac:(lia)) as (e & EX & E). rewrite E.
    assert (e = e0) as ->.
    { destruct EX as (h1 & l1 & A1 & A2 & A3 & ->).
      destruct EX0 as (h2 & l2 & B1 & B2 & B3 & ->).
      pose proof (A3 h2 B1). pose proof (A3 l2 B2). pose proof (B3 h1 A1). pose proof (B3 l1 A2). lra. }
    now rewrite EM. }
  destruct (fit_lobe fuel x y (4 / 10) (4 / 10) k s o P F Hs H4 ltac:(lia) A) as (e & EX & ST & DD & _).
  cbn in H0. injection H0 as <- <-. exists (o_params o 0%nat), (o_params o 1%nat), e. auto.
Qed.
