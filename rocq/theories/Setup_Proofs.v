(** Proofs about the set-up of RM-synthesis. *)
From Coq Require Import Reals List Arith ZArith Bool Lra Lia Psatz.
Set Warnings "-ambiguous-paths".
From Coquelicot Require Import Coquelicot.
From Verif Require Import PyRes CBase NdArray PyList PyList_Proofs Synth_Model Synth_Spec Clean_Spec Setup_Model Setup_Spec.
Import ListNotations.
Local Open Scope R_scope.

Lemma Int_part_spec : forall x, IZR (Int_part x) <= x < IZR (Int_part x) + 1.
Proof. intros x. destruct (base_Int_part x). lra. Qed.

Lemma py_round_close : forall x, Rabs (IZR (py_round x) - x) <= 1 / 2.
Proof.
  intros x. unfold py_round. pose proof (Int_part_spec x).
  destruct (Rlt_dec (x - IZR (Int_part x)) (1 / 2)).
  - apply Rabs_le. lra.
  - destruct (Rlt_dec (1 / 2) (x - IZR (Int_part x))).
    + rewrite plus_IZR. apply Rabs_le. lra.
    + destruct Z.even; rewrite ?plus_IZR; apply Rabs_le; lra.
Qed.

Lemma py_round_nonneg : forall x, 0 <= x -> (0 <= py_round x)%Z.
Proof.
  intros x H. pose proof (py_round_close x) as C. apply Rabs_le_between in C.
  assert (IZR (-1) < IZR (py_round x)) by lra. apply lt_IZR in H0. lia.
Qed.

(** Ties go to the even integer. *)
Lemma py_round_half : forall z, py_round (IZR z + 1 / 2) = if Z.even z then z else (z + 1)%Z.
Proof.
  intros z. unfold py_round.
  assert (E : Int_part (IZR z + 1 / 2) = z). { apply (Rfloor_unique (IZR z + 1 / 2)). lra. }
  rewrite E. destruct Rlt_dec; [lra|]. destruct Rlt_dec; [lra|]. reflexivity.
Qed.

Lemma linspace_nth : forall a b n l, linspace a b n = POk l -> (2 <= n)%Z ->
  length l = Z.to_nat n /\ forall k, (k < Z.to_nat n)%nat -> nth k l 0 = a + INR k * ((b - a) / IZR (n - 1)).
Proof.
  intros a b n l H Hn. unfold linspace in H. destruct (Z.ltb_spec n 0); [lia|].
  assert (Hl : POk (map (fun i => a + INR i * ((b - a) / INR (Z.to_nat n - 1))) (seq 0 (Z.to_nat n))) = POk l).
  { destruct (Z.to_nat n) as [|[|m]] eqn:E; try lia. rewrite <- H. replace (S (S m) - 1)%nat with (S m) by lia. reflexivity. }
  injection Hl as <-. rewrite map_length, seq_length. split; auto. intros k Hk.
  rewrite nth_map_seq by auto. cbn [Nat.add]. do 3 f_equal.
  rewrite INR_IZR_INZ. f_equal. lia.
Qed.

Lemma linspace_total : forall a b n, (0 <= n)%Z -> exists l, linspace a b n = POk l.
Proof. intros. unfold linspace. destruct (Z.ltb_spec n 0); [lia|]. eauto. Qed.

Lemma linspace_centred : forall N dPhi l, (0 <= N)%Z ->
  linspace (- (IZR (2 * N + 1) - 1) * dPhi / 2) ((IZR (2 * N + 1) - 1) * dPhi / 2) (2 * N + 1) = POk l ->
  odd_centred l (Z.to_nat N) dPhi.
Proof.
  intros N d l HN H.
  destruct (Z.eq_dec N 0) as [->|Hz].
  - cbn in H. injection H as <-. split; [reflexivity|]. intros [|k] Hk; [|cbn in Hk; lia]. cbn. lra.
  - destruct (linspace_nth _ _ _ _ H) as [L A]; [lia|]. split; [lia|].
    intros k Hk. rewrite A by lia.
    rewrite !plus_IZR, !mult_IZR. replace (2 * N + 1 - 1)%Z with (2 * N)%Z by lia. rewrite mult_IZR.
    rewrite (INR_IZR_INZ (Z.to_nat N)), Z2Nat.id by lia.
    assert (IZR N <> 0) by (apply not_0_IZR; auto). field. auto.
Qed.

Theorem depth_grid_1D_spec : forall phiMax dPhi, dPhi <> 0 ->
  exists phi h, depth_grid_1D phiMax dPhi = POk phi /\ odd_centred phi h dPhi /\
    Rabs (INR h * Rabs dPhi - Rabs phiMax) <= Rabs dPhi / 2.
Proof.
  intros P d Hd. unfold depth_grid_1D. destruct (Req_EM_T d 0); [contradiction|].
  set (N := py_round (Rabs ((P - 0) / d))).
  assert (HN : (0 <= N)%Z) by (apply py_round_nonneg, Rabs_pos).
  replace (py_int (IZR N * 2 + 1)) with (2 * N + 1)%Z.
  2:{ rewrite <- (py_int_IZR (2 * N + 1)). f_equal. rewrite plus_IZR, mult_IZR. ring. }
  destruct (linspace_total (- (IZR (2 * N + 1) - 1) * d / 2) ((IZR (2 * N + 1) - 1) * d / 2) (2 * N + 1)) as [l E]; [lia|].
  exists l, (Z.to_nat N). split; [exact E|]. split; [now apply linspace_centred|].
  rewrite INR_IZR_INZ, Z2Nat.id by auto.
  pose proof (py_round_close (Rabs ((P - 0) / d))) as C. fold N in C.
  assert (Hp : 0 < Rabs d) by now apply Rabs_pos_lt.
  replace (IZR N * Rabs d - Rabs P) with ((IZR N - Rabs ((P - 0) / d)) * Rabs d).
  - rewrite Rabs_mult, (Rabs_pos_eq (Rabs d)) by lra. nra.
  - rewrite Rminus_0_r, Rabs_div by auto. field. lra.
Qed.

(** Both tools build the same grid. *)
Theorem depth_grid_same : forall phiMax dPhi, depth_grid_3D phiMax dPhi = depth_grid_1D phiMax dPhi.
Proof.
  intros P d. unfold depth_grid_3D, depth_grid_1D. destruct (Req_EM_T d 0); auto. rewrite !py_int_IZR.
  set (N := py_round _).
  replace (py_int (IZR N * 2 + 1)) with (N * 2 + 1)%Z.
  2:{ rewrite <- (py_int_IZR (N * 2 + 1)). f_equal. rewrite plus_IZR, mult_IZR. ring. }
  reflexivity.
Qed.

Lemma odd_centred_antisym : forall phi h d, odd_centred phi h d -> antisym phi.
Proof.
  intros phi h d [L A] k Hk. rewrite !A by lia. rewrite L.
  replace (2 * h + 1 - 1 - k)%nat with (2 * h - k)%nat by lia. rewrite minus_INR by lia.
  rewrite mult_INR. cbn [INR]. lra.
Qed.

Theorem depth_grid_properties : forall phiMax dPhi phi, depth_grid_1D phiMax dPhi = POk phi ->
  exists h, length phi = (2 * h + 1)%nat /\ nth h phi 0 = 0 /\
    (forall k, (k < length phi)%nat -> nth (length phi - 1 - k) phi 0 = - nth k phi 0) /\
    (forall k, (S k < length phi)%nat -> nth (S k) phi 0 - nth k phi 0 = dPhi) /\
    Rabs (Rabs (nth 0 phi 0) - Rabs phiMax) <= Rabs dPhi / 2.
Proof.
  intros P d phi H.
  assert (Hd : d <> 0). { intros ->. unfold depth_grid_1D in H. destruct (Req_EM_T 0 0); [discriminate|lra]. }
  destruct (depth_grid_1D_spec P d Hd) as (phi' & h & E & O & C). rewrite H in E. injection E as <-.
  pose proof O as [L A]. exists h. split; [exact L|]. split; [rewrite A by lia; ring|].
  split; [exact (odd_centred_antisym _ _ _ O)|]. split.
  - intros k Hk. rewrite !A by lia. rewrite S_INR. ring.
  - rewrite A by lia. cbn [INR]. replace ((0 - INR h) * d) with (- (INR h * d)) by ring.
    rewrite Rabs_Ropp, Rabs_mult, (Rabs_pos_eq (INR h)) by apply pos_INR. exact C.
Qed.

Theorem depth_grid_zero_step : forall phiMax, depth_grid_1D phiMax 0 = PErr /\ depth_grid_3D phiMax 0 = PErr.
Proof. intros. unfold depth_grid_1D, depth_grid_3D. destruct (Req_EM_T 0 0); [auto|lra]. Qed.

Lemma fold_Rmax_spec : forall t x, (x <= fold_left Rmax t x) /\ (forall y, In y t -> y <= fold_left Rmax t x) /\
  (fold_left Rmax t x = x \/ In (fold_left Rmax t x) t).
Proof.
  induction t as [|a t IH]; intros x; cbn [fold_left].
  - repeat split; [lra|intros y []|auto].
  - destruct (IH (Rmax x a)) as (A & B & D). pose proof (Rmax_l x a). pose proof (Rmax_r x a).
    split; [lra|]. split.
    + intros y [<-|I]; [lra|auto].
    + destruct D as [->|I]; [|right; now right]. destruct (Rle_dec x a).
      * right. left. symmetry. now apply Rmax_right.
      * left. apply Rmax_left. lra.
Qed.

Lemma fold_Rmin_spec : forall t x, (fold_left Rmin t x <= x) /\ (forall y, In y t -> fold_left Rmin t x <= y) /\
  (fold_left Rmin t x = x \/ In (fold_left Rmin t x) t).
Proof.
  induction t as [|a t IH]; intros x; cbn [fold_left].
  - repeat split; [lra|intros y []|auto].
  - destruct (IH (Rmin x a)) as (A & B & D). pose proof (Rmin_l x a). pose proof (Rmin_r x a).
    split; [lra|]. split.
    + intros y [<-|I]; [lra|auto].
    + destruct D as [->|I]; [|right; now right]. destruct (Rle_dec x a).
      * left. now apply Rmin_left.
      * right. left. symmetry. apply Rmin_right. lra.
Qed.

Lemma rmax_list_spec : forall l m, rmax_list l = Some m -> is_max l m.
Proof.
  intros [|x t] m H; [discriminate|]. injection H as <-. destruct (fold_Rmax_spec t x) as (A & B & D).
  split; [destruct D as [->|D]; [now left|now right]|]. intros y [<-|I]; auto.
Qed.

Lemma rmin_list_spec : forall l m, rmin_list l = Some m -> is_min l m.
Proof.
  intros [|x t] m H; [discriminate|]. injection H as <-. destruct (fold_Rmin_spec t x) as (A & B & D).
  split; [destruct D as [->|D]; [now left|now right]|]. intros y [<-|I]; auto.
Qed.

Lemma rmax_list_unique : forall l m, is_max l m -> rmax_list l = Some m.
Proof.
  intros l m [I M]. destruct (rmax_list l) as [m'|] eqn:E.
  - apply rmax_list_spec in E. destruct E as [I' M']. f_equal. apply Rle_antisym; auto.
  - destruct l; [destruct I|discriminate].
Qed.
Lemma rmin_list_unique : forall l m, is_min l m -> rmin_list l = Some m.
Proof.
  intros l m [I M]. destruct (rmin_list l) as [m'|] eqn:E.
  - apply rmin_list_spec in E. destruct E as [I' M']. f_equal. apply Rle_antisym; auto.
  - destruct l; [destruct I|discriminate].
Qed.

(** The default grid: [nSamples] samples per theoretical RMSF width, and at
    least ten widths on either side of zero. *)
Theorem default_grid : forall l2 nSamples d p phi mx mn,
  is_max l2 mx -> is_min l2 mn -> mn < mx -> 0 < nSamples ->
  grid_params l2 false None None nSamples = POk (d, p) -> depth_grid_1D p d = POk phi ->
  let fwhm := 38 / 10 / (mx - mn) in
  d * nSamples = fwhm /\ 10 * fwhm - d / 2 <= Rabs (nth 0 phi 0) /\ 20 * nSamples <= INR (length phi).
Proof.
  intros l2 ns d p phi mx mn Hmx Hmn Hlt Hns H G fwhm.
  unfold grid_params in H. rewrite (rmax_list_unique _ _ Hmx), (rmin_list_unique _ _ Hmn) in H.
  destruct (rmax_list (map Rabs (np_diff l2))) as [dmax|]; [|discriminate].
  destruct (Req_EM_T (mx - mn) 0); [lra|]. fold fwhm in H.
  destruct (Req_EM_T dmax 0); [discriminate|]. injection H as Hd Hp.
  assert (F : 0 < fwhm) by (unfold fwhm; apply Rdiv_lt_0_compat; lra).
  assert (D : 0 < d) by (rewrite <- Hd; apply Rdiv_lt_0_compat; lra).
  split; [rewrite <- Hd; field; lra|].
  destruct (depth_grid_1D_spec p d) as (phi' & h & E & [L A] & C); [lra|]. rewrite G in E. injection E as <-.
  assert (PF : 10 * fwhm <= p). { rewrite <- Hp. rewrite Rmult_comm. apply Rmax_r. }
  rewrite (Rabs_pos_eq p) in C by lra. rewrite (Rabs_pos_eq d) in C by lra.
  apply Rabs_le_between in C.
  assert (A0 : Rabs (nth 0 phi 0) = INR h * d).
  { rewrite A by lia. cbn [INR]. replace ((0 - INR h) * d) with (- (INR h * d)) by ring.
    rewrite Rabs_Ropp. apply Rabs_pos_eq. apply Rmult_le_pos; [apply pos_INR|lra]. }
  rewrite A0. split; [lra|].
  rewrite L, plus_INR, mult_INR. cbn [INR].
  assert (ns * d = fwhm) by (rewrite <- Hd; field; lra).
  assert ((10 * ns - 1 / 2) * d <= INR h * d) by nra.
  assert (10 * ns - 1 / 2 <= INR h) by (apply Rmult_le_reg_r with d; lra). lra.
Qed.

(* ------------------------------------------------------------ FITS axis *)

Lemma uniform_ext : forall l start step l', uniform l start step -> length l' = length l ->
  (forall k, (k < length l)%nat -> nth k l' 0 = start + INR k * step) -> l' = l.
Proof.
  intros l s d l' U L H. apply nth_ext with 0 0; auto. intros k Hk. rewrite L in Hk. rewrite H, U; auto.
Qed.

Lemma np_diff_head : forall phi, (2 <= length phi)%nat -> exists t, np_diff phi = (nth 1 phi 0 - nth 0 phi 0) :: t.
Proof. intros [|a [|b t]] H; cbn in H; try lia. cbn. eauto. Qed.

(** Reading a linear axis with a positive increment: one value per pixel, at
    the world coordinate. *)
Theorem lin_axis_world : forall n crpix crval cdelt, 0 < cdelt -> (1 <= n)%nat ->
  exists l, fits_make_lin_axis (mk_axis (Z.of_nat n) crpix crval cdelt) = POk l /\ length l = n /\
    forall k, (k < n)%nat -> nth k l 0 = world crval crpix cdelt (S k).
Proof.
  intros n crpix crval d Hd Hn. unfold fits_make_lin_axis. cbn [NAXISn CRPIX CRVAL CDELT].
  destruct (Req_EM_T d 0); [lra|].
  assert (N : py_int (Rabs (crval + (1 - crpix) * d - (crval + (IZR (Z.of_nat n) - crpix) * d)) / d + 1) = Z.of_nat n).
  { transitivity (py_int (IZR (Z.of_nat n))); [f_equal|apply py_int_IZR].
    replace (crval + (1 - crpix) * d - (crval + (IZR (Z.of_nat n) - crpix) * d)) with (- ((IZR (Z.of_nat n) - 1) * d)) by ring.
    assert (1 <= IZR (Z.of_nat n)) by (apply IZR_le; lia).
    rewrite Rabs_Ropp, Rabs_pos_eq by (apply Rmult_le_pos; lra). field. lra. }
  rewrite N. destruct (linspace_total (crval + (1 - crpix) * d) (crval + (IZR (Z.of_nat n) - crpix) * d) (Z.of_nat n)) as [l E]; [lia|].
  exists l. split; [exact E|]. unfold world. destruct (Nat.eq_dec n 1) as [->|Hn1].
  - cbn in E. injection E as <-. split; [reflexivity|]. intros [|k] Hk; [|lia]. cbn. ring.
  - destruct (linspace_nth _ _ _ _ E) as [L A]; [lia|]. rewrite Nat2Z.id in *. split; auto. intros k Hk. rewrite A by auto.
    rewrite minus_IZR, S_INR.
    assert (IZR 1 < IZR (Z.of_nat n)) by (apply IZR_lt; lia). field. lra.
Qed.

Theorem depth_axis_round_trip : forall phi start step, (2 <= length phi)%nat -> 0 < step -> uniform phi start step ->
  exists a, write_depth_axis phi = POk a /\ fits_make_lin_axis a = POk phi /\ NAXISn a = Z.of_nat (length phi).
Proof.
  intros phi s d L Hd U. unfold write_depth_axis. destruct (np_diff_head phi L) as [t ->].
  eexists. split; [reflexivity|]. split; [|reflexivity].
  rewrite (U 1%nat), (U 0%nat) by lia. cbn [INR]. replace (s + 1 * d - (s + 0 * d)) with d by ring.
  destruct (lin_axis_world (length phi) (INR (length phi / 2 + 1)) (nth (length phi / 2) phi 0) d Hd ltac:(lia)) as (l & E & Ll & A).
  rewrite E. f_equal. apply (uniform_ext phi s d); auto. intros k Hk. rewrite A by auto. unfold world.
  rewrite U by (apply Nat.div_lt; lia). rewrite S_INR, plus_INR. cbn [INR]. ring.
Qed.

(** A decreasing axis is not read back: an exception, or nothing at all. *)
Theorem depth_axis_decreasing : forall phi start step, (2 <= length phi)%nat -> step < 0 -> uniform phi start step ->
  exists a, write_depth_axis phi = POk a /\
    fits_make_lin_axis a = (if Nat.eqb (length phi) 2 then POk [] else PErr).
Proof.
  intros phi s d L Hd U. unfold write_depth_axis. destruct (np_diff_head phi L) as [t ->].
  eexists. split; [reflexivity|].
  rewrite (U 1%nat), (U 0%nat) by lia. cbn [INR]. replace (s + 1 * d - (s + 0 * d)) with d by ring.
  unfold fits_make_lin_axis. cbn [NAXISn CRPIX CRVAL CDELT].
  set (n := length phi) in *. set (v := nth _ phi 0). set (c := INR _).
  destruct (Req_EM_T d 0); [lra|].
  assert (N : py_int (Rabs (v + (1 - c) * d - (v + (IZR (Z.of_nat n) - c) * d)) / d + 1) = (2 - Z.of_nat n)%Z).
  { transitivity (py_int (IZR (2 - Z.of_nat n))); [f_equal|apply py_int_IZR].
    replace (v + (1 - c) * d - (v + (IZR (Z.of_nat n) - c) * d)) with (- ((IZR (Z.of_nat n) - 1) * d)) by ring.
    assert (2 <= IZR (Z.of_nat n)) by (apply IZR_le; lia).
    rewrite Rabs_pos_eq by nra. rewrite minus_IZR. field. lra. }
  rewrite N. unfold linspace. destruct (Nat.eqb_spec n 2) as [->|Hn].
  - reflexivity.
  - destruct (Z.ltb_spec (2 - Z.of_nat n) 0); [reflexivity|lia].
Qed.

Theorem depth_axis_single : forall x, write_depth_axis [x] = PErr.
Proof. reflexivity. Qed.

(* ---------------------------------------------------------------- noise *)

Lemma inv_var_ok : forall s, (forall x, In x s -> x <> 0) -> inv_var (map Some s) = POk (map (fun x => Some (1 / x ^ 2)) s).
Proof.
  induction s as [|x s IH]; intros H; [reflexivity|]. cbn [map inv_var].
  destruct (Req_EM_T x 0) as [->|]; [exfalso; apply (H 0); [now left|reflexivity]|].
  rewrite IH by (intros; apply H; now right). reflexivity.
Qed.

Lemma rsum_nonneg : forall l, (forall x, In x l -> 0 <= x) -> 0 <= rsum l.
Proof.
  induction l; intros H; [rewrite rsum_nil; lra|]. rewrite rsum_cons.
  assert (0 <= a) by (apply H; now left). assert (0 <= rsum l) by (apply IHl; intros; apply H; now right). lra.
Qed.

Lemma rsum_pos : forall l, l <> [] -> (forall x, In x l -> 0 < x) -> 0 < rsum l.
Proof.
  intros [|a l] N H; [congruence|]. rewrite rsum_cons.
  assert (0 < a) by (apply H; now left).
  assert (0 <= rsum l) by (apply rsum_nonneg; intros; left; apply H; now right). lra.
Qed.

Lemma dFDFth_finite : forall I0 w s, length w = length s -> 0 < rsum w ->
  dFDFth I0 (map Some w) (map Some s) = Some (Rabs I0 * propagated_noise (combine w s)).
Proof.
  intros I0 w s L H. unfold dFDFth, propagated_noise.
  assert (E1 : map nan0 (map Some w) = w) by (rewrite map_map; cbn; apply map_id). rewrite E1.
  assert (E2 : map fst (combine w s) = w).
  { clear -L. revert s L. induction w; intros [|b s] L; try discriminate; cbn; auto. f_equal. apply IHw. now injection L. }
  rewrite E2. destruct (Req_EM_T (rsum w) 0); [lra|]. do 2 f_equal.
  assert (E3 : map (fun ab : option R * option R => nan0 (fst ab) ^ 2 * nan0 (snd ab) ^ 2) (combine (map Some w) (map Some s)) =
               map (fun x : R * R => (fst x * snd x) ^ 2) (combine w s)).
  { clear. revert s. induction w; intros [|b s]; cbn [map combine]; auto. f_equal; [cbn; ring|apply IHw]. }
  rewrite E3. rewrite sqrt_div_alt by (apply pow_lt; auto). rewrite sqrt_pow2 by lra. reflexivity.
Qed.

Theorem noise_variance_weights : forall I0 s, s <> [] -> (forall x, In x s -> 0 < x) ->
  exists w, weights_1D true (length s) (map Some s) = POk w /\
    dFDFth I0 w (map Some s) = Some (Rabs I0 / sqrt (rsum (map (fun x => / x ^ 2) s))).
Proof.
  intros I0 s N H. exists (map (fun x => Some (1 / x ^ 2)) s). split.
  - apply inv_var_ok. intros x I. apply H in I. lra.
  - rewrite <- (map_map (fun x => 1 / x ^ 2) Some).
    assert (P : 0 < rsum (map (fun x => 1 / x ^ 2) s)).
    { apply rsum_pos; [destruct s; [congruence|discriminate]|]. intros y I. apply in_map_iff in I. destruct I as (x & <- & I).
      apply Rdiv_lt_0_compat; [lra|]. apply pow_lt; auto. }
    rewrite dFDFth_finite by (rewrite ?map_length; auto). f_equal. unfold propagated_noise.
    assert (E1 : map (fun x => (fst x * snd x) ^ 2) (combine (map (fun x => 1 / x ^ 2) s) s) = map (fun x => / x ^ 2) s).
    { clear -H. induction s as [|a s IH]; [reflexivity|]. cbn [map combine]. f_equal; [|apply IH; intros; apply H; now right].
      cbn [fst snd]. assert (a <> 0) by (generalize (H a (or_introl eq_refl)); lra). field. auto. }
    assert (E2 : map fst (combine (map (fun x => 1 / x ^ 2) s) s) = map (fun x => / x ^ 2) s).
    { clear. induction s; [reflexivity|]. cbn [map combine fst]. rewrite IHs. f_equal. unfold Rdiv. ring. }
    rewrite E1, E2.
    replace (map (fun x => 1 / x ^ 2) s) with (map (fun x => / x ^ 2) s) in P by (apply map_ext; intros; unfold Rdiv; ring).
    set (W := rsum _) in *. assert (Q : 0 < sqrt W) by now apply sqrt_lt_R0.
    assert (Q2 : sqrt W * sqrt W = W) by (apply sqrt_sqrt; lra). unfold Rdiv. f_equal.
    apply Rmult_eq_reg_r with (sqrt W); [|lra]. rewrite Rinv_l by lra. rewrite Rmult_assoc, (Rmult_comm (/ W)), <- Rmult_assoc, Q2. apply Rinv_r. lra.
Qed.

Theorem noise_uniform_weights : forall I0 s, s <> [] ->
  exists w, weights_1D false (length s) (map Some s) = POk w /\
    dFDFth I0 w (map Some s) = Some (Rabs I0 * sqrt (rsum (map (fun x => x ^ 2) s)) / INR (length s)).
Proof.
  intros I0 s N. exists (repeat (Some 1) (length s)). split; [reflexivity|].
  assert (E : repeat (Some 1) (length s) = map Some (map (fun _ => 1) s)).
  { clear. induction s; cbn; congruence. }
  assert (W : rsum (map (fun _ : R => 1) s) = INR (length s)).
  { clear. induction s; [reflexivity|]. cbn [map length]. rewrite rsum_cons, IHs, S_INR. ring. }
  rewrite E, dFDFth_finite; [|now rewrite map_length|].
  2:{ rewrite W. apply lt_0_INR. destruct s; [congruence|cbn; lia]. }
  f_equal. unfold propagated_noise.
  assert (E1 : map (fun x => (fst x * snd x) ^ 2) (combine (map (fun _ => 1) s) s) = map (fun x => x ^ 2) s).
  { clear. induction s; [reflexivity|]. cbn [map combine fst snd]. rewrite IHs. f_equal. ring. }
  assert (E2 : map fst (combine (map (fun _ => 1) s) s) = map (fun _ => 1) s).
  { clear. induction s; [reflexivity|]. cbn [map combine fst]. now rewrite IHs. }
  rewrite E1, E2, W. unfold Rdiv. ring.
Qed.

Lemma cauchy_schwarz : forall l : list (R * R),
  rsum (map (fun x => fst x * snd x) l) ^ 2 <= rsum (map (fun x => fst x ^ 2) l) * rsum (map (fun x => snd x ^ 2) l).
Proof.
  induction l as [|[x y] l IH]; [cbn; rewrite rsum_nil; lra|]. cbn [map fst snd]. rewrite !rsum_cons.
  set (S := rsum (map (fun x => fst x * snd x) l)) in *. set (A := rsum (map (fun x => fst x ^ 2) l)) in *.
  set (B := rsum (map (fun x => snd x ^ 2) l)) in *.
  assert (HA : 0 <= A) by (apply rsum_nonneg; intros z I; apply in_map_iff in I; destruct I as (w & <- & _); apply pow2_ge_0).
  assert (HB : 0 <= B) by (apply rsum_nonneg; intros z I; apply in_map_iff in I; destruct I as (w & <- & _); apply pow2_ge_0).
  assert (K : 2 * S * (x * y) <= A * y ^ 2 + B * x ^ 2).
  { set (a := sqrt A). set (b := sqrt B).
    assert (Ea : a * a = A) by now apply sqrt_sqrt. assert (Eb : b * b = B) by now apply sqrt_sqrt.
    assert (Pa : 0 <= a) by apply sqrt_pos. assert (Pb : 0 <= b) by apply sqrt_pos.
    assert (SS : Rabs S <= a * b).
    { apply Rsqr_incr_0; [|apply Rabs_pos|now apply Rmult_le_pos]. rewrite <- Rsqr_abs. unfold Rsqr. nra. }
    apply Rle_trans with (2 * (a * b) * Rabs (x * y)).
    - assert (S * (x * y) <= Rabs S * Rabs (x * y)) by (rewrite <- Rabs_mult; apply Rle_abs).
      assert (Rabs S * Rabs (x * y) <= a * b * Rabs (x * y)) by (apply Rmult_le_compat_r; [apply Rabs_pos|auto]). lra.
    - rewrite Rabs_mult.
      replace (A * y ^ 2 + B * x ^ 2) with ((a * Rabs y) ^ 2 + (b * Rabs x) ^ 2).
      + pose proof (pow2_ge_0 (a * Rabs y - b * Rabs x)). nra.
      + rewrite <- Ea, <- Eb, !Rpow_mult_distr, !pow2_abs. ring. }
  nra.
Qed.

(** No weighting beats inverse-variance weighting. *)
Theorem noise_optimal : forall I0 w s v, length w = length s -> (forall x, In x s -> 0 < x) -> 0 < rsum w ->
  dFDFth I0 (map Some w) (map Some s) = Some v ->
  Rabs I0 / sqrt (rsum (map (fun x => / x ^ 2) s)) <= v.
Proof.
  intros I0 w s v L H W E. rewrite dFDFth_finite in E by auto. injection E as <-. unfold Rdiv at 1.
  apply Rmult_le_compat_l; [apply Rabs_pos|]. unfold propagated_noise.
  assert (E2 : map fst (combine w s) = w).
  { clear -L. revert s L. induction w; intros [|b s] L; try discriminate; cbn; auto. f_equal. apply IHw. now injection L. }
  rewrite E2. set (V := rsum (map (fun x => / x ^ 2) s)). set (A := rsum (map (fun x => (fst x * snd x) ^ 2) (combine w s))).
  pose proof (cauchy_schwarz (map (fun x => (fst x * snd x, / snd x)) (combine w s))) as C.
  rewrite !map_map in C. cbn [fst snd] in C. fold A in C.
  assert (C1 : rsum (map (fun x : R * R => fst x * snd x * / snd x) (combine w s)) = rsum w).
  { rewrite <- E2 at 2. f_equal. apply map_ext_in. intros [a b] I. cbn. apply in_combine_r in I. apply H in I. field. lra. }
  assert (C2 : rsum (map (fun x : R * R => (/ snd x) ^ 2) (combine w s)) = V).
  { unfold V. f_equal. clear -L H. revert s L H. induction w; intros [|b s] L H; try discriminate; auto.
    cbn [map combine]. f_equal; [|apply IHw; [now injection L|intros; apply H; now right]]. cbn [snd].
    generalize (H b (or_introl eq_refl)). intros. field. lra. }
  rewrite C1, C2 in C.
  assert (HA : 0 <= A) by (apply rsum_nonneg; intros z I; apply in_map_iff in I; destruct I as (u & <- & _); apply pow2_ge_0).
  assert (HV : 0 < V).
  { apply rsum_pos.
    - destruct s; [|discriminate]. destruct w; [|discriminate]. rewrite rsum_nil in W. lra.
    - intros y I. apply in_map_iff in I. destruct I as (x & <- & I). apply Rinv_0_lt_compat, pow_lt; auto. }
  assert (SV : 0 < sqrt V) by now apply sqrt_lt_R0.
  assert (K : rsum w <= sqrt A * sqrt V).
  { rewrite <- sqrt_mult by lra. rewrite <- (sqrt_pow2 (rsum w)) by lra. apply sqrt_le_1_alt. exact C. }
  apply Rmult_le_reg_r with (sqrt V * rsum w); [apply Rmult_lt_0_compat; auto|].
  replace (/ sqrt V * (sqrt V * rsum w)) with (rsum w) by (field; lra).
  replace (sqrt A / rsum w * (sqrt V * rsum w)) with (sqrt A * sqrt V) by (field; lra). exact K.
Qed.

(** Two of four equal channels are flagged (NaN value, NaN error): the noise
    of the spectrum is that of two channels, but the quoted one is half of
    it... i.e. the flagged channels count in the sum of weights. *)
Theorem noise_flagged_refuted :
  let dqu := [Some 1; None; Some 1; None] in
  exists w, weights_1D false 4 dqu = POk w /\
    dFDFth 1 w dqu = Some (propagated_noise [(1, 1); (1, 1)] / 2).
Proof.
  cbn zeta. exists (repeat (Some 1) 4). split; [reflexivity|]. unfold dFDFth, propagated_noise.
  cbn [repeat map nan0 combine fst snd]. rewrite !rsum_cons, !rsum_nil.
  destruct Req_EM_T as [e|]; [lra|]. f_equal. rewrite Rabs_R1.
  match goal with |- 1 * sqrt ?e = _ => replace e with (2 / (2 * 2) ^ 2) by field end.
  match goal with |- _ = sqrt ?e / _ / 2 => replace e with 2 by ring end.
  rewrite sqrt_div_alt by nra. rewrite sqrt_pow2 by lra. field.
Qed.

(* ------------------------------------------------------- I at freq0 *)

Lemma argmin_spec : forall l r, argmin l = Some r -> (r < length l)%nat /\ forall j, (j < length l)%nat -> nth r l 0 <= nth j l 0.
Proof.
  intros l r H. unfold argmin in H.
  apply (argmax_spec (fun a b => Rltb b a) (fun a b => b <= a)) with (d := 0) in H; auto.
  - intros; lra.
  - intros a b c ? ?. lra.
  - intros a b. unfold Rltb. destruct Rlt_dec; [lra|discriminate].
  - intros a b. unfold Rltb. destruct Rlt_dec; [discriminate|lra].
Qed.

Lemma py_index_ok : forall (l : list R) (k : nat), (k < length l)%nat -> py_index l (Z.of_nat k) = POk (nth k l 0).
Proof.
  intros l k H. unfold py_index. destruct (Z.ltb_spec (Z.of_nat k) 0); [lia|].
  destruct (Z.ltb_spec (Z.of_nat k) 0); [lia|]. rewrite Nat2Z.id. now rewrite (nth_error_nth' l 0 H).
Qed.

Theorem Ifreq0_ascending : forall freq I freq0, ascending freq -> length I = length freq ->
  (1 <= length freq)%nat -> nth 0 freq 0 <= freq0 <= nth (length freq - 1) freq 0 ->
  exists v, Ifreq0_3D freq I freq0 = POk v /\
    ((exists k, (k < length freq)%nat /\ nth k freq 0 = freq0 /\ v = nth k I 0) \/
     (exists k, (S k < length freq)%nat /\ nth k freq 0 < freq0 < nth (S k) freq 0 /\ v = (nth k I 0 + nth (S k) I 0) / 2)).
Proof.
  intros freq I f0 A L Hn B. unfold Ifreq0_3D.
  destruct (argmin (map (fun f => Rabs (f - f0)) freq)) as [i|] eqn:E.
  2:{ destruct freq; [cbn in Hn; lia|discriminate]. }
  apply argmin_spec in E. rewrite map_length in E. destruct E as [Hi M].
  assert (M' : forall j, (j < length freq)%nat -> Rabs (nth i freq 0 - f0) <= Rabs (nth j freq 0 - f0)).
  { intros j Hj. specialize (M j Hj). rewrite !nth_indep with (d := 0) (d' := (fun f => Rabs (f - f0)) 0) in M by (rewrite map_length; auto).
    rewrite !(map_nth (fun f => Rabs (f - f0))) in M. exact M. }
  destruct (Rlt_dec (nth i freq 0) f0) as [Hl|Hl]; [|destruct (Rlt_dec f0 (nth i freq 0)) as [Hg|Hg]].
  - assert (Hi1 : (S i < length freq)%nat).
    { destruct (Nat.eq_dec (S i) (length freq)) as [e|]; [|lia]. replace (length freq - 1)%nat with i in B by lia. lra. }
    rewrite py_index_ok by lia. replace (Z.of_nat i + 1)%Z with (Z.of_nat (S i)) by lia. rewrite py_index_ok by lia.
    cbn [pybind]. eexists. split; [reflexivity|]. right. exists i. split; auto. split; [|unfold interp_images; field].
    split; auto. destruct (Rle_dec (nth (S i) freq 0) f0) as [Hc|]; [|lra].
    specialize (M' (S i) Hi1). assert (nth i freq 0 < nth (S i) freq 0) by (apply A; lia).
    rewrite !Rabs_left1 in M' by lra. lra.
  - destruct i as [|i]; [lra|].
    replace (Z.of_nat (S i) - 1)%Z with (Z.of_nat i) by lia. rewrite !py_index_ok by lia.
    cbn [pybind]. eexists. split; [reflexivity|]. right. exists i. split; auto. split; [|unfold interp_images; field].
    split; auto. destruct (Rle_dec f0 (nth i freq 0)) as [Hc|]; [|lra].
    specialize (M' i ltac:(lia)). assert (nth i freq 0 < nth (S i) freq 0) by (apply A; lia).
    rewrite !Rabs_pos_eq in M' by lra. lra.
  - rewrite py_index_ok by lia. eexists. split; [reflexivity|]. left. exists i. repeat split; auto. lra.
Qed.

(** Off by at most half the difference of the two channels. *)
Theorem Ifreq0_error : forall freq I freq0 v k, ascending freq -> length I = length freq ->
  (S k < length freq)%nat -> nth k freq 0 <= freq0 <= nth (S k) freq 0 -> Ifreq0_3D freq I freq0 = POk v ->
  Rabs (v - lin_interp freq I k freq0) <= Rabs (nth (S k) I 0 - nth k I 0) / 2.
Proof.
  intros freq I f0 v k A L Hk B E.
  assert (K : nth k freq 0 < nth (S k) freq 0) by (apply A; lia).
  assert (mono : forall i j, (i <= j < length freq)%nat -> nth i freq 0 <= nth j freq 0).
  { intros i j H. destruct (Nat.eq_dec i j) as [->|]; [lra|]. left. apply A. lia. }
  destruct (Ifreq0_ascending freq I f0 A L) as (v' & E' & Hv); [lia| |].
  { generalize (mono 0%nat k ltac:(lia)) (mono (S k) (length freq - 1)%nat ltac:(lia)). lra. }
  rewrite E in E'. injection E' as <-.
  set (t := (f0 - nth k freq 0) / (nth (S k) freq 0 - nth k freq 0)).
  assert (T : 0 <= t <= 1).
  { unfold t. split; [apply Rdiv_le_0_compat; lra|]. apply Rmult_le_reg_r with (nth (S k) freq 0 - nth k freq 0); [lra|].
    unfold Rdiv. rewrite Rmult_assoc, Rinv_l by lra. lra. }
  unfold lin_interp. fold t.
  destruct Hv as [(i & Hi & Ef & ->)|(i & Hi & Ef & ->)].
  - assert (i = k \/ i = S k) as [->| ->].
    { destruct (Nat.lt_trichotomy i k) as [Hc|[Hc|Hc]]; auto.
      - assert (nth i freq 0 < nth k freq 0) by (apply A; lia). lra.
      - destruct (Nat.eq_dec i (S k)); auto. assert (nth (S k) freq 0 < nth i freq 0) by (apply A; lia). lra. }
    + assert (t = 0) as -> by (unfold t; rewrite Ef; unfold Rdiv; ring).
      replace (_ - _) with 0 by ring. rewrite Rabs_R0. generalize (Rabs_pos (nth (S k) I 0 - nth k I 0)). lra.
    + assert (t = 1) as -> by (unfold t; rewrite <- Ef; field; lra).
      replace (nth (S k) I 0 - _) with 0 by ring. rewrite Rabs_R0. generalize (Rabs_pos (nth (S k) I 0 - nth k I 0)). lra.
  - assert (i = k) as ->.
    { destruct (Nat.lt_trichotomy i k) as [Hc|[Hc|Hc]]; auto.
      - generalize (mono (S i) k ltac:(lia)). lra.
      - generalize (mono (S k) i ltac:(lia)). lra. }
    replace (_ - _) with ((1 / 2 - t) * (nth (S k) I 0 - nth k I 0)) by field.
    rewrite Rabs_mult. assert (Rabs (1 / 2 - t) <= 1 / 2) by (apply Rabs_le; lra).
    generalize (Rabs_pos (nth (S k) I 0 - nth k I 0)). nra.
Qed.

(** Exact at the midpoint of two channels. *)
Theorem Ifreq0_midpoint : forall freq I k, ascending freq -> length I = length freq -> (S k < length freq)%nat ->
  Ifreq0_3D freq I ((nth k freq 0 + nth (S k) freq 0) / 2) = POk (lin_interp freq I k ((nth k freq 0 + nth (S k) freq 0) / 2)).
Proof.
  intros freq I k A L Hk.
  assert (K : nth k freq 0 < nth (S k) freq 0) by (apply A; lia).
  assert (mono : forall i j, (i <= j < length freq)%nat -> nth i freq 0 <= nth j freq 0).
  { intros i j H. destruct (Nat.eq_dec i j) as [->|]; [lra|]. left. apply A. lia. }
  set (f0 := (nth k freq 0 + nth (S k) freq 0) / 2).
  assert (F : nth k freq 0 < f0 < nth (S k) freq 0) by (unfold f0; lra).
  destruct (Ifreq0_ascending freq I f0 A L) as (v & -> & Hv); [lia| |].
  { generalize (mono 0%nat k ltac:(lia)) (mono (S k) (length freq - 1)%nat ltac:(lia)). lra. }
  f_equal. destruct Hv as [(i & Hi & Ef & ->)|(i & Hi & Ef & ->)].
  - exfalso. destruct (Nat.le_gt_cases i k) as [Hc|Hc].
    + generalize (mono i k ltac:(lia)). lra.
    + generalize (mono (S k) i ltac:(lia)). lra.
  - assert (i = k) as ->.
    { destruct (Nat.lt_trichotomy i k) as [Hc|[Hc|Hc]]; auto.
      - generalize (mono (S i) k ltac:(lia)). lra.
      - generalize (mono (S k) i ltac:(lia)). lra. }
    unfold lin_interp, f0. field. lra.
Qed.

Lemma argmin_unique : forall l r, (r < length l)%nat -> (forall j, (j < length l)%nat -> j <> r -> nth r l 0 < nth j l 0) -> argmin l = Some r.
Proof.
  intros l r Hr H. unfold argmin. apply argmax_unique with (le := fun a b => b <= a) (d := 0); auto.
  - intros; lra.
  - intros; lra.
  - intros a b. unfold Rltb. destruct Rlt_dec; [lra|discriminate].
  - intros a b. unfold Rltb. destruct Rlt_dec; [discriminate|lra].
  - intros j Hj N. specialize (H j Hj N). lra.
Qed.

(** Not the linear interpolation away from the midpoint. *)
Theorem Ifreq0_interp_refuted :
  ascending [1; 2] /\ Ifreq0_3D [1; 2] [0; 10] (11 / 10) = POk 5 /\ lin_interp [1; 2] [0; 10] 0 (11 / 10) = 1.
Proof.
  split; [|split].
  - intros i j H. cbn in H. destruct i as [|[|]], j as [|[|]]; cbn; lra || lia.
  - unfold Ifreq0_3D. rewrite (argmin_unique _ 0).
    + cbn [nth]. destruct Rlt_dec as [|n]; [|exfalso; apply n; lra]. cbn; unfold Pos.to_nat; cbn. f_equal. unfold interp_images. field.
    + cbn; lia.
    + intros [|[|j]] Hj N; cbn in *; try lia. rewrite (Rabs_left (1 - 11 / 10)), (Rabs_pos_eq (2 - 11 / 10)) by lra. lra.
  - unfold lin_interp. cbn. field.
Qed.

(** With descending frequencies the wrong neighbour is used: a value outside
    the range of the bracketing channels, a wrap to the other end of the
    band, or an exception. *)
Theorem Ifreq0_descending_refuted :
  Ifreq0_3D [3; 2; 1] [100; 2; 1] (19 / 10) = POk 51 /\
  Ifreq0_3D [3; 2; 1] [2; 3; 100] (29 / 10) = POk 51 /\
  Ifreq0_3D [3; 2; 1] [3; 2; 1] (11 / 10) = PErr.
Proof.
  split; [|split]; unfold Ifreq0_3D.
  - rewrite (argmin_unique _ 1).
    + cbn [nth]. destruct Rlt_dec; [exfalso; lra|]. destruct Rlt_dec as [|n']; [|exfalso; apply n'; lra]. cbn; unfold Pos.to_nat; cbn. f_equal. unfold interp_images. field.
    + cbn; lia.
    + intros [|[|[|j]]] Hj N; cbn in *; try lia; rewrite (Rabs_pos_eq (2 - 19 / 10)) by lra.
      * rewrite Rabs_pos_eq; lra.
      * rewrite Rabs_left; lra.
  - rewrite (argmin_unique _ 0).
    + cbn [nth]. destruct Rlt_dec; [exfalso; lra|]. destruct Rlt_dec as [|n']; [|exfalso; apply n'; lra]. cbn; unfold Pos.to_nat; cbn. f_equal. unfold interp_images. field.
    + cbn; lia.
    + intros [|[|[|j]]] Hj N; cbn in *; try lia; rewrite (Rabs_pos_eq (3 - 29 / 10)) by lra; rewrite Rabs_left; lra.
  - rewrite (argmin_unique _ 2).
    + cbn [nth]. destruct Rlt_dec as [|n']; [|exfalso; apply n'; lra]. reflexivity.
    + cbn; lia.
    + intros [|[|[|j]]] Hj N; cbn in *; try lia; rewrite (Rabs_left (1 - 11 / 10)) by lra; rewrite Rabs_pos_eq; lra.
Qed.

(* ------------------------------- the noise is the one of the transform *)

Section Noise.
  Variables (l0 phi : R).
  Let chans (ch : list nchan) (P : list C) : list chan := map (fun x => mk_chan (n_l2 (fst x)) (n_w (fst x)) (snd x)) (combine ch P).

  Lemma chans_wsum : forall ch P, length P = length ch -> wsum (chans ch P) = rsum (map n_w ch).
  Proof.
    unfold chans, wsum. induction ch as [|c ch IH]; intros [|p P] L; try discriminate; [reflexivity|].
    cbn [combine map c_w fst]. rewrite !rsum_cons. f_equal. apply IH. now injection L.
  Qed.

  Lemma re_form : forall W ch P, length P = length ch -> W <> 0 ->
    fst (csum (map (fun c => RtoC (c_w c) * c_P c * cis (-2 * phi * (c_l2 c - l0)))%C (chans ch P)) / RtoC W)%C =
    lin_form (map (fun c => (n_w c * cos (-2 * phi * (n_l2 c - l0)) / W, - (n_w c * sin (-2 * phi * (n_l2 c - l0))) / W)) ch) P /\
    snd (csum (map (fun c => RtoC (c_w c) * c_P c * cis (-2 * phi * (c_l2 c - l0)))%C (chans ch P)) / RtoC W)%C =
    lin_form (map (fun c => (n_w c * sin (-2 * phi * (n_l2 c - l0)) / W, n_w c * cos (-2 * phi * (n_l2 c - l0)) / W)) ch) P.
  Proof.
    intros W. induction ch as [|c ch IH]; intros [|[p1 p2] P] L HW; try discriminate.
    - unfold chans, lin_form. cbn [combine map]. rewrite csum_nil, rsum_nil. unfold Cdiv, Cmult, RtoC. cbn. split; ring.
    - destruct (IH P) as [A B]; [now injection L|auto|]. unfold chans, lin_form in *. cbn [combine map fst snd c_w c_l2 c_P].
      rewrite csum_cons, !rsum_cons. cbn [fst snd]. rewrite <- A, <- B.
      set (K := csum _). unfold Cdiv. rewrite Cmult_plus_distr_r. rewrite <- RtoC_inv by auto.
      destruct K as [k1 k2]. unfold cis, Cmult, Cplus, RtoC. cbn [fst snd]. split; field; auto.
  Qed.

  Lemma form_noise_eq : forall W (ch : list nchan) (f : nchan -> R * R), 0 < W ->
    (forall c, In c ch -> fst (f c) ^ 2 + snd (f c) ^ 2 = (n_w c / W) ^ 2) ->
    form_noise (map f ch) (map n_s ch) = sqrt (rsum (map (fun c => (n_w c * n_s c) ^ 2) ch)) / W.
  Proof.
    intros W ch f HW H. unfold form_noise.
    assert (E : rsum (map (fun x : R * R * R => (fst (fst x) ^ 2 + snd (fst x) ^ 2) * snd x ^ 2) (combine (map f ch) (map n_s ch))) =
                rsum (map (fun c => (n_w c * n_s c) ^ 2) ch) / W ^ 2).
    { induction ch as [|c ch IH]; [cbn; rewrite rsum_nil; unfold Rdiv; ring|]. cbn [map combine fst snd]. rewrite !rsum_cons.
      cbn [fst snd]. rewrite IH by (intros; apply H; now right). rewrite H by now left. field. lra. }
    rewrite E, sqrt_div_alt by (apply pow_lt; auto). rewrite sqrt_pow2 by lra. reflexivity.
  Qed.

  (** Each of the two parts of the Faraday spectrum is a fixed linear form in
      the channel values, and its noise is the quoted one. *)
  Lemma FDF_noise_propagates_sec : forall ch, 0 < rsum (map n_w ch) -> exists ab cd,
    (forall P, length P = length ch ->
      fst (FDF_spec (map (fun x => mk_chan (n_l2 (fst x)) (n_w (fst x)) (snd x)) (combine ch P)) l0 phi) = lin_form ab P /\
      snd (FDF_spec (map (fun x => mk_chan (n_l2 (fst x)) (n_w (fst x)) (snd x)) (combine ch P)) l0 phi) = lin_form cd P) /\
    Some (form_noise ab (map n_s ch)) = dFDFth 1 (map (fun c => Some (n_w c)) ch) (map (fun c => Some (n_s c)) ch) /\
    form_noise cd (map n_s ch) = form_noise ab (map n_s ch).
  Proof.
    intros ch HW. set (W := rsum (map n_w ch)) in *.
    exists (map (fun c => (n_w c * cos (-2 * phi * (n_l2 c - l0)) / W, - (n_w c * sin (-2 * phi * (n_l2 c - l0))) / W)) ch).
    exists (map (fun c => (n_w c * sin (-2 * phi * (n_l2 c - l0)) / W, n_w c * cos (-2 * phi * (n_l2 c - l0)) / W)) ch).
    assert (T : forall t, cos t ^ 2 = 1 - sin t ^ 2) by (intros t; generalize (sin2_cos2 t); unfold Rsqr; lra).
    split; [|split].
    - intros P L. unfold FDF_spec. fold (chans ch P). rewrite chans_wsum by auto. apply re_form; auto. fold W. lra.
    - rewrite (form_noise_eq W) by (auto; intros; cbn [fst snd]; rewrite !Rpow_mult_distr || idtac; generalize (T (-2 * phi * (n_l2 c - l0))); intros E; unfold Rdiv; 
        match goal with |- (?w * ?a * ?i) ^ 2 + (- (?w * ?b) * ?i) ^ 2 = _ => transitivity ((w * i) ^ 2 * (a ^ 2 + b ^ 2)); [ring|rewrite E; ring] end).
      rewrite <- (map_map n_w Some), <- (map_map n_s Some). rewrite dFDFth_finite by (rewrite ?map_length; auto).
      rewrite Rabs_R1, Rmult_1_l. unfold propagated_noise. do 2 f_equal.
      + do 2 f_equal. clear. induction ch; [reflexivity|]. cbn [map combine fst snd]. now rewrite IHch.
      + unfold W. f_equal. clear. induction ch; [reflexivity|]. cbn [map combine fst]. now rewrite IHch at 1.
    - rewrite !(form_noise_eq W); auto; intros; cbn [fst snd]; generalize (T (-2 * phi * (n_l2 c - l0))); intros E; unfold Rdiv.
      + match goal with |- (?w * ?a * ?i) ^ 2 + (- (?w * ?b) * ?i) ^ 2 = _ => transitivity ((w * i) ^ 2 * (a ^ 2 + b ^ 2)); [ring|rewrite E; ring] end.
      + match goal with |- (?w * ?b * ?i) ^ 2 + (?w * ?a * ?i) ^ 2 = _ => transitivity ((w * i) ^ 2 * (a ^ 2 + b ^ 2)); [ring|rewrite E; ring] end.
  Qed.
End Noise.

Theorem FDF_noise_propagates : forall l0 phi ch, 0 < rsum (map n_w ch) -> exists ab cd,
  (forall P, length P = length ch ->
    let F := FDF_spec (map (fun x => mk_chan (n_l2 (fst x)) (n_w (fst x)) (snd x)) (combine ch P)) l0 phi in
    fst F = lin_form ab P /\ snd F = lin_form cd P) /\
  Some (form_noise ab (map n_s ch)) = dFDFth 1 (map (fun c => Some (n_w c)) ch) (map (fun c => Some (n_s c)) ch) /\
  form_noise cd (map n_s ch) = form_noise ab (map n_s ch).
Proof. exact FDF_noise_propagates_sec. Qed.

(** The grid of the tools, written and read back. *)
Theorem tool_grid_round_trip : forall phiMax dPhi phi, 0 < dPhi -> depth_grid_3D phiMax dPhi = POk phi -> (2 <= length phi)%nat ->
  exists a, write_depth_axis phi = POk a /\ fits_make_lin_axis a = POk phi.
Proof.
  intros P d phi Hd H L. rewrite depth_grid_same in H.
  destruct (depth_grid_1D_spec P d ltac:(lra)) as (phi' & h & E & [_ A] & _). rewrite H in E. injection E as <-.
  destruct (depth_axis_round_trip phi (- INR h * d) d L Hd) as (a & E1 & E2 & _).
  { intros k Hk. rewrite A by auto. ring. }
  eauto.
Qed.

(** The grid of the tools meets the grid hypotheses of the synthesis, RMSF and
    CLEAN theorems. *)
Theorem tool_grid_centred : forall phiMax dPhi phi, depth_grid_1D phiMax dPhi = POk phi -> (2 <= length phi)%nat ->
  exists h, centred_grid phi h dPhi.
Proof.
  intros P d phi H L.
  assert (Hd : d <> 0). { intros ->. unfold depth_grid_1D in H. destruct (Req_EM_T 0 0); [discriminate|lra]. }
  destruct (depth_grid_1D_spec P d Hd) as (phi' & h & E & [Lh A] & _). rewrite H in E. injection E as <-.
  exists h. unfold centred_grid. repeat split; auto; lia || (intros k Hk; apply A; lia).
Qed.
