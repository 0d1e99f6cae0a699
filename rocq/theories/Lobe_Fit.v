(** What the fit to the main lobe returns, and what get_rmsf_planes makes of it. *)
From Coq Require Import Reals List Arith ZArith Bool Lra Lia Psatz Sorting.Sorted.
Set Warnings "-ambiguous-paths".
From Coquelicot Require Import Coquelicot.
From Verif Require Import CBase PyRes PyList NdArray Synth_Model Synth_Spec Synth_Proofs Synth_Laws Rmsf_Proofs Clean_Spec Clean_Grid Rmsf_Peak Cube_Model Bw_Proofs
  Mp_Model Mp_Spec Mp_Sums Mp_Run Mp_Fit Mp_Properties Ref_Spec Ref_Width Lobe_Spec Lobe_Model Lobe_Proofs.
Import ListNotations.
Local Open Scope R_scope.

Lemma lobe_reads : forall xs ys m, reads 3 m (lobe_err xs ys).
Proof. intros xs ys m p q H i Hi. unfold lobe_err, lobe_gauss. now rewrite (H 0%nat), (H 1%nat), (H 2%nat) by lia. Qed.

Lemma three_nodup : NoDup [0; 1; 2]%nat.
Proof. repeat constructor; cbn; intuition discriminate. Qed.

Lemma take_len : forall idx l, length (take idx l) = length idx.
Proof. intros. unfold take. apply map_length. Qed.

Lemma used_len : forall t y k s, (2 <= s)%nat -> (3 <= length (used t y k s))%nat.
Proof. intros. unfold used. destruct (Nat.leb_spec 4 (length (filter (fun i => if Rle_dec t (nth i y 0) then true else false) (around k s)))); [lia|]. unfold around. rewrite seq_length. lia. Qed.

(** One sample above the threshold: no fit. *)
Theorem fit_one_sample : forall x y t u k, first_peak y k -> falls_after t y k 1 -> u <= nth k y 0 -> (length y <= length x)%nat ->
  exists o, o_status o = 0%Z /\ forall fuel rest, fit_rmsf fuel rest x (map Some y) t u = Some o.
Proof.
  intros x y t u k P F Hu L.
  assert (U : used u y k 1 = [k]).
  { unfold used. replace (around k 1) with [k] by (unfold around; cbn [Nat.mul Nat.add Nat.sub seq]; f_equal; lia).
    cbn [filter]. destruct (Rle_dec _ _); reflexivity. }
  exists (mk_mpout (lobe_start (nth k x 0) 0) 0 (-1) 0 None None). split; [reflexivity|]. intros fuel rest.
  destruct (fit_eq fuel rest x y t u k 1 P F ltac:(lia) Hu L) as (e & (hi & lo & H1 & H2 & _ & ->) & ->). rewrite U in *.
  cbn in H1, H2. destruct H1 as [<-|[]], H2 as [<-|[]]. rewrite Rminus_diag_eq by reflexivity. reflexivity.
Qed.

(** A fit that ended: never further from the samples than where it started, a
    Gaussian of height one at the peak, as wide as the lobe. *)
Theorem fit_lobe : forall fuel x y t u k s o, first_peak y k -> falls_after t y k s -> (2 <= s <= k + 1)%nat -> u <= nth k y 0 ->
  (length y <= length x)%nat ->
  (forall rest, fit_rmsf fuel rest x (map Some y) t u = Some o) ->
  let idx := used u y k s in let xs := take idx x in let ys := take idx y in
  exists e, extent xs e /\ (1 <= o_status o <= 8)%Z /\
    distance xs ys (o_params o 0%nat) (o_params o 1%nat) (o_params o 2%nat) <= distance xs ys 1 (nth k x 0) e /\
    distance xs ys (o_params o 0%nat) (o_params o 1%nat) (o_params o 2%nat) <= o_fnorm o.
Proof.
  intros fuel x y t u k s o P F Hs Hu L H idx xs ys. specialize (H (fun _ _ => None)).
  destruct (fit_eq fuel (fun _ _ => None) x y t u k s P F ltac:(lia) Hu L) as (e & EX & E). fold idx xs ys in EX, E. rewrite E in H. clear E.
  exists e. split; [exact EX|].
  assert (LX : length xs = length ys) by (unfold xs, ys; now rewrite !take_len).
  assert (L3 : (length [0; 1; 2] <= length xs)%nat) by (unfold xs, idx; rewrite take_len; cbn [length]; now apply used_len).
  destruct (mpfit _ _ _ _ _ _) as [[o'|]|] eqn:E; try discriminate. injection H as ->.
  destruct (C68_result _ _ _ _ _ _ _ (lobe_reads xs ys _) three_nodup ltac:(discriminate) L3 E) as (C1 & _ & C3 & _).
  destruct (C68_reported _ _ _ _ _ _ _ (lobe_reads xs ys _) three_nodup ltac:(discriminate) L3 E) as (C5 & _).
  rewrite !chi2_distance in C1 by exact LX. rewrite chi2_distance in C5 by exact LX. auto.
Qed.

Lemma snd_combine : forall (xs ys : list R), length xs = length ys -> map snd (combine xs ys) = ys.
Proof. induction xs as [|a xs IH]; intros [|b ys] LX; cbn in *; try lia; try reflexivity. f_equal. apply IH. lia. Qed.

(** It ends, if that Gaussian describes the samples no worse than nothing does. *)
Theorem fit_lobe_ends : forall x y t u k s, first_peak y k -> falls_after t y k s -> (2 <= s <= k + 1)%nat -> u <= nth k y 0 ->
  (length y <= length x)%nat ->
  let idx := used u y k s in let xs := take idx x in let ys := take idx y in
  (forall e, extent xs e -> distance xs ys 1 (nth k x 0) e <= rsum (map (fun v => v ^ 2) ys)) ->
  exists N o, forall fuel rest, (N <= fuel)%nat -> fit_rmsf fuel rest x (map Some y) t u = Some o.
Proof.
  intros x y t u k s P F Hs Hu L idx xs ys H.
  destruct (fit_eq 0 (fun _ _ => None) x y t u k s P F ltac:(lia) Hu L) as (e & EX & _). fold idx xs ys in EX.
  assert (LX : length xs = length ys) by (unfold xs, ys; now rewrite !take_len).
  assert (L3 : (length [0; 1; 2] <= length xs)%nat) by (unfold xs, idx; rewrite take_len; cbn [length]; now apply used_len).
  destruct (C68_ends (lobe_err xs ys) 3 (length xs) [0; 1; 2]%nat (lobe_start (nth k x 0) e) (lobe_reads xs ys _) three_nodup) as (N & res & E).
  - intros p Z _. rewrite !chi2_distance by exact LX. rewrite (Z 0%nat) by (cbn; auto). 
    eapply Rle_trans; [apply (H e EX)|]. apply Req_le. unfold distance.
    rewrite <- (snd_combine xs ys LX) at 1. rewrite map_map. f_equal. apply map_ext. intros v. unfold gaussian. ring.
  - exists 0%nat. split; [cbn; auto|]. cbn. lra.
  - pose proof (E N ltac:(lia)) as EN. destruct res as [o|].
    + exists N, o. intros fuel rest Hf.
      destruct (fit_eq fuel rest x y t u k s P F ltac:(lia) Hu L) as (e' & EX' & ->). fold idx xs ys in EX' |- *.
      assert (e' = e) as ->.
      { destruct EX as (h1 & l1 & A1 & A2 & A3 & ->), EX' as (h2 & l2 & B1 & B2 & B3 & ->).
        pose proof (A3 h2 B1). pose proof (A3 l2 B2). pose proof (B3 h1 A1). pose proof (B3 l1 A2). lra. }
      now rewrite (E fuel Hf).
    + exfalso. unfold mpfit in EN. destruct (Nat.ltb _ _); [discriminate|]. destruct (outer _ _ _ _ _ _ _ _) as [[[? ?] ?]|]; discriminate.
Qed.

(** Samples at or above half that Gaussian are enough. *)
Lemma half_enough : forall xs ys b e, length xs = length ys ->
  (forall j, (j < length xs)%nat -> gaussian 1 b e (nth j xs 0) <= 2 * nth j ys 0) ->
  distance xs ys 1 b e <= rsum (map (fun v => v ^ 2) ys).
Proof.
  intros xs ys b e. revert ys. induction xs as [|x xs IH]; intros [|y ys] L H; cbn in L; try lia.
  - unfold distance, rsum. cbn. lra.
  - unfold distance. cbn [combine map]. rewrite !rsum_cons. cbn [fst snd].
    assert (I := IH ys ltac:(lia) (fun j Hj => H (S j) ltac:(cbn; lia))). unfold distance in I.
    specialize (H 0%nat ltac:(cbn; lia)). cbn [nth] in H.
    assert (0 < gaussian 1 b e x) by (unfold gaussian; rewrite Rmult_1_l; apply exp_pos).
    assert ((gaussian 1 b e x - y) ^ 2 <= y ^ 2) by nra. lra.
Qed.

Lemma exp_le' : forall a b, a <= b -> exp a <= exp b.
Proof. intros a b [H| ->]; [left; now apply exp_increasing|lra]. Qed.

(** A lobe above the straight lines from its peak to its ends is above half the
    Gaussian. *)
Lemma chord_half : forall v, 0 <= v <= 1 -> exp (- ln 2 * v ^ 2) <= 2 * (1 - 6 / 10 * v).
Proof.
  intros v Hv. assert (L : 0 < ln 2) by (rewrite <- ln_1; apply ln_increasing; lra).
  destruct (Rle_dec v (5 / 6)) as [S|S].
  - assert (exp (- ln 2 * v ^ 2) <= 1); [|lra]. rewrite <- exp_0. apply exp_le'. nra.
  - assert (exp (- ln 2 * v ^ 2) <= 3 / 4); [|lra].
    apply Rle_trans with (exp (- ln 2 * (1 / 2))).
    + apply exp_le'. assert (1 / 2 <= v ^ 2) by nra. nra.
    + assert (0 < exp (- ln 2 * (1 / 2))) by apply exp_pos.
      assert (exp (- ln 2 * (1 / 2)) * exp (- ln 2 * (1 / 2)) = 1 / 2).
      { rewrite <- exp_plus. replace (- ln 2 * (1 / 2) + - ln 2 * (1 / 2)) with (- ln 2) by field. rewrite exp_Ropp, exp_ln by lra. lra. }
      nra.
Qed.

(** ---------- in get_rmsf_planes *)

(** The width and the fit state of every pixel. *)
Theorem rmsf_widths : forall fit l2 phi wA msk lam0in double fitRMSF r,
  valid_rmsf l2 wA msk -> get_rmsf_planes fit l2 phi wA (Some msk) lam0in double fitRMSF = RetOk r ->
  exists fw0, range_width (38 / 10) l2 fw0 /\
  forall p, (p < mpix msk)%nat ->
    let curve := map (fun k => nth (k * mpix msk + p) (flat (RMSFcube r)) None) (seq 0 (length (phi2Arr r))) in
    (nth p (flat (statArr r)) 0%Z, nth p (flat (fwhmRMSFArr r)) None) =
    fit_or (if fitRMSF then fit (phi2Arr r) curve else None) fw0.
Proof.
  intros fit l2 phi wA msk lam0in double fitRMSF r (V0 & V1 & V2 & V3) H.
  unfold get_rmsf_planes in H. destruct (phi2_grid double phi) as [phi2|]; [|discriminate].
  rewrite prep_len in H by auto. rewrite Nat.eqb_refl in H. cbn [negb] in H.
  replace (Nat.leb (length (shape msk)) 3) with true in H by (symmetry; apply Nat.leb_le; lia). cbn [negb] in H.
  rewrite V2, Nat.eqb_refl in H. cbn [negb] in H.
  destruct l2 as [|h t]; [congruence|]. set (l2 := h :: t) in *. clearbody l2. clear h t. cbv zeta in H.
  exists (fwhm_analytic l2). split; [now apply analytic_range|]. intros p Hp.
  fold (mpix msk) in H. injection H as <-. cbn [phi2Arr RMSFcube statArr fwhmRMSFArr]. cbv zeta.
  set (one := do1Dcalc (length l2) (mpix msk) (flat msk)).
  set (spec := fun p => if one then rmsf_1d (length l2) (mpix msk) (flat msk) l2 phi2 (prep_weights (length l2) wA) lam0in
                  else rmsf_pix (length l2) (mpix msk) (flat msk) l2 phi2 (prep_weights (length l2) wA) lam0in p).
  assert (LS : length (spec p) = length phi2).
  { unfold spec. destruct one; [unfold rmsf_1d; now rewrite map_length|]. unfold rmsf_pix. destruct (rlam0 _ _ _ _ _ _); [|now rewrite map_length].
    unfold nufft1d3. now rewrite !map_length, rev_length. }
  assert (CV : map (fun k => nth (k * mpix msk + p) (tab2 (length phi2) (mpix msk) (fun k p => nth k (spec p) None)) None) (seq 0 (length phi2)) = spec p).
  { transitivity (map (fun k => nth k (spec p) None) (seq 0 (length phi2))).
    - apply map_ext_in. intros k Hk. apply in_seq in Hk. exact (at2_tab2 (length phi2) (mpix msk) (fun k p => nth k (spec p) None) None k p ltac:(lia) Hp).
    - rewrite <- LS. symmetry. apply list_as_seq. }
  destruct (Nat.eqb (length (shape msk)) 3); cbn [squeeze flat shape];
  (unfold spec in CV; rewrite CV; rewrite !nth_map_seq by exact Hp; rewrite Nat.add_0_l; cbn [fst snd];
   destruct fitRMSF; [|reflexivity]; unfold fit_or; destruct (fit phi2 _) as [[st x]|]; [|reflexivity]; rewrite ltb_leb; destruct (1 <=? st)%Z; reflexivity).
Qed.

(** The spread function of a pixel, on a grid symmetric about zero. *)
Section Width.
  Variables (l2 phi : list R) (h : nat) (step : R) (wA : option (list (option R))) (msk : nd bool) (lam0in : option R) (p j1 j2 : nat).
  Hypothesis V : valid_rmsf l2 wA msk.
  Hypothesis G : centred_grid phi h step.
  Hypothesis Hstep : 0 < step.
  Hypothesis NW : nonneg_w wA.
  Hypothesis Hp : (p < mpix msk)%nat.
  Hypothesis B1 : (j1 < length l2)%nat.
  Hypothesis B2 : (j2 < length l2)%nat.
  Hypothesis U1 : at2 (mpix msk) false (flat msk) j1 p = false.
  Hypothesis U2 : at2 (mpix msk) false (flat msk) j2 p = false.
  Hypothesis W1 : 0 < nth j1 (weights_of (length l2) wA) 0.
  Hypothesis W2 : 0 < nth j2 (weights_of (length l2) wA) 0.
  Hypothesis HA : 0 < INR (length phi) * step * Rabs (nth j1 l2 0 - nth j2 l2 0) < PI.

  Variables (fit : list R -> list (option C) -> option (Z * R)) (ft : bool) (r : rmsf_results) (l0 : R) (rm : list C).
  Hypothesis Er : get_rmsf_planes fit l2 phi wA (Some msk) lam0in true ft = RetOk r.
  Hypothesis HL : rmsf_lam0 r = Some l0.
  Hypothesis Lrm : length rm = length (phi2Arr r).
  Hypothesis HS : has_spec (mpix msk) p (flat (RMSFcube r)) rm.

  Lemma grid2 : centred_grid (phi2Arr r) (length phi) step.
  Proof.
    destruct (rmsf_grid_fits_clean phi h step G) as [phi2 [E2 [G2 _]]].
    destruct (rmsf_refines fit l2 phi wA msk lam0in true ft phi2 V E2) as [r' [Er' [Ep _]]].
    rewrite Er in Er'. injection Er' as <-. now rewrite Ep.
  Qed.

  Lemma rm_peak : first_peak (map Cmod rm) (length phi) /\ nth (length phi) (map Cmod rm) 0 = 1.
  Proof.
    destruct (rmsf_unit_peak fit l2 phi h step wA msk lam0in ft r p l0 rm j1 j2 V G Hstep NW Hp Er HL Lrm HS B1 B2 U1 U2 W1 W2 HA) as (P1 & P2 & P3).
    assert (N : forall i, (i < length rm)%nat -> nth i (map Cmod rm) 0 = Cmod (nth i rm czero)) by (intros; now apply nth_map_lt).
    assert (E1 : nth (length phi) (map Cmod rm) 0 = 1) by (rewrite N, P2 by exact P1; now rewrite Cmod_R, Rabs_R1).
    split; [|exact E1]. split; [now rewrite map_length|]. rewrite E1, map_length. split.
    - intros i Hi. destruct (Nat.eq_dec i (length phi)) as [->|D]; [lra|]. rewrite N by exact Hi. left. now apply P3.
    - intros i Hi. rewrite N by lia. apply P3; lia.
  Qed.

  Lemma rm_mirrored : forall s, (s <= length phi)%nat -> mirrored (map Cmod rm) (length phi) s.
  Proof.
    intros s Hs. split; [exact Hs|]. intros j Hj. pose proof grid2 as (_ & L2 & _).
    destruct (rmsf_grid_fits_clean phi h step G) as [phi2 [E2 _]].
    assert (W : 0 < wsum (mask_chans (length l2) (mpix msk) (flat msk) l2 (weights_of (length l2) wA) p)).
    { assert (NN : forall c, In c (mask_chans (length l2) (mpix msk) (flat msk) l2 (weights_of (length l2) wA) p) -> 0 <= c_w c).
      { intros c Hc. unfold mask_chans in Hc. apply in_flat_map in Hc.
        destruct Hc as (j' & _ & Hc). destruct (nth _ (flat msk) false); [destruct Hc|]. destruct Hc as [<-|[]]. simpl.
        change weights_of with prep_weights. now apply prep_nonneg. }
      assert (IN : In (mk_chan (nth j1 l2 0) (nth j1 (weights_of (length l2) wA) 0) (RtoC 0)) (mask_chans (length l2) (mpix msk) (flat msk) l2 (weights_of (length l2) wA) p)).
      { unfold mask_chans. apply in_flat_map. exists j1. split; [apply in_seq; lia|]. unfold at2 in U1. rewrite U1. left. reflexivity. }
      destruct (in_take _ _ IN) as [rest [Q1 [_ [_ Q4]]]]. unfold wsum. rewrite Q4. simpl.
      assert (0 <= rsum (map c_w rest)); [|lra]. apply rsum_nonneg. intros x Hx. apply in_map_iff in Hx. destruct Hx as [c [<- Hc]]. auto. }
    destruct (rmsf_norm_bound_sym fit l2 phi wA msk lam0in true ft phi2 p V E2 NW Hp (centred_antisym _ _ _ G) W) as (r' & Er' & F).
    rewrite Er in Er'. injection Er' as <-.
    assert (Ep : phi2Arr r = phi2).
    { destruct (rmsf_refines fit l2 phi wA msk lam0in true ft phi2 V E2) as [r' [Er' [Ep _]]]. rewrite Er in Er'. injection Er' as <-. exact Ep. }
    rewrite <- Ep in F. destruct (F (length phi + j)%nat ltac:(lia) ltac:(congruence)) as (z & Z1 & _ & _ & Z2).
    unfold at2 in Z1, Z2. replace (length (phi2Arr r) - 1 - (length phi + j))%nat with (length phi - j)%nat in Z2 by lia.
    rewrite HS in Z1, Z2 by lia. injection Z1 as Z1. assert (Gc : forall a b : C, Some a = Some b -> a = b) by congruence. apply Gc in Z2.
    rewrite !(nth_map_lt Cmod rm _ 0 czero) by lia. rewrite Z2. rewrite <- Z1. apply Cmod_conj.
  Qed.

  (** whatever the fit, the spread function is the same *)
  Lemma same_cube : forall fit' ft' r', get_rmsf_planes fit' l2 phi wA (Some msk) lam0in true ft' = RetOk r' ->
    RMSFcube r' = RMSFcube r /\ phi2Arr r' = phi2Arr r.
  Proof.
    intros fit' ft' r' E. clear - Er E. unfold get_rmsf_planes in E, Er. destruct (phi2_grid true phi); [|discriminate].
    destruct (negb _); [discriminate|]. destruct (negb _); [discriminate|]. destruct (negb _); [discriminate|].
    destruct l2; [discriminate|]. injection Er as <-. injection E as <-. split; reflexivity.
  Qed.

  Lemma lobe_within : forall s, falls_after (4 / 10) (map Cmod rm) (length phi) s -> (s <= length phi)%nat.
  Proof. intros s (F & _). rewrite map_length, Lrm in F. destruct grid2 as (_ & L2 & _). lia. Qed.

  Lemma take_lobe : forall s, (1 <= s)%nat -> falls_after (4 / 10) (map Cmod rm) (length phi) s ->
    used (4 / 10) (map Cmod rm) (length phi) s = around (length phi) s /\ take (around (length phi) s) (phi2Arr r) = lobe_axis (length phi) s step.
  Proof.
    intros s Hs F. pose proof (lobe_within s F) as W. split.
    - apply used_mirrored; [exact F| |exact Hs]. now apply rm_mirrored.
    - unfold take, lobe_axis. apply map_ext_in. intros i Hi. apply in_around in Hi; [|lia..]. destruct grid2 as (_ & L2 & N2). apply N2. lia.
  Qed.

  Lemma lobe_extent : forall s e, (1 <= s <= length phi)%nat -> extent (lobe_axis (length phi) s step) e -> e = 2 * (INR (s - 1) * step).
  Proof.
    intros s e Hs (hi & lo & H1 & H2 & H3 & ->). unfold lobe_axis in *.
    assert (A : In (INR (s - 1) * step) (map (fun i => (INR i - INR (length phi)) * step) (around (length phi) s))).
    { apply in_map_iff. exists (length phi + (s - 1))%nat. split; [rewrite plus_INR; ring|]. apply in_around; lia. }
    assert (B : In (- (INR (s - 1) * step)) (map (fun i => (INR i - INR (length phi)) * step) (around (length phi) s))).
    { apply in_map_iff. exists (length phi - (s - 1))%nat. split; [rewrite minus_INR by lia; ring|]. apply in_around; lia. }
    apply in_map_iff in H1. destruct H1 as (i & E1 & I1). apply in_around in I1; [|lia..].
    apply in_map_iff in H2. destruct H2 as (j & E2 & I2). apply in_around in I2; [|lia..].
    pose proof (proj2 (H3 _ A)). pose proof (proj1 (H3 _ B)).
    assert (INR i <= INR (length phi + (s - 1))) by (apply le_INR; lia). assert (INR (length phi) <= INR (j + (s - 1))) by (apply le_INR; lia).
    rewrite plus_INR in *. nra.
  Qed.

  Lemma grid_len : length rm = (2 * length phi + 1)%nat.
  Proof. rewrite Lrm. destruct grid2 as (_ & L2 & _). exact L2. Qed.

  Theorem lobe_width : exists fw0, range_width (38 / 10) l2 fw0 /\
    let answer fuel rest := match get_rmsf_planes (rmsf_fit fuel rest false) l2 phi wA (Some msk) lam0in true true with
                            | RetOk r' => Some (nth p (flat (statArr r')) 0%Z, nth p (flat (fwhmRMSFArr r')) None)
                            | _ => None end in
    ((forall i, (length phi <= i < length rm)%nat -> 4 / 10 <= nth i (map Cmod rm) 0) \/ falls_after (4 / 10) (map Cmod rm) (length phi) 1 ->
       forall fuel rest, answer fuel rest = Some ((-1)%Z, fw0)) /\
    (forall s, (2 <= s)%nat -> falls_after (4 / 10) (map Cmod rm) (length phi) s ->
       (forall j, (j < s)%nat -> 1 - 6 / 10 * (INR j / INR (s - 1)) <= nth (length phi + j) (map Cmod rm) 0) ->
       exists N st a b w, (1 <= st <= 8)%Z /\
         distance (lobe_axis (length phi) s step) (take (around (length phi) s) (map Cmod rm)) a b w <= distance (lobe_axis (length phi) s step) (take (around (length phi) s) (map Cmod rm)) 1 0 (2 * (INR (s - 1) * step)) /\
         forall fuel rest, (N <= fuel)%nat -> answer fuel rest = Some (st, Some w)).
  Proof.
    destruct (rmsf_widths fit l2 phi wA msk lam0in true ft r V Er) as (fw0 & RW & _). exists fw0. split; [exact RW|]. intros answer.
    assert (AN : forall fuel rest, answer fuel rest = Some (fit_or (rmsf_fit fuel rest false (phi2Arr r) (map Some rm)) fw0)).
    { intros fuel rest. unfold answer. destruct (rmsf_grid_fits_clean phi h step G) as [phi2 [E2 _]].
      destruct (rmsf_refines (rmsf_fit fuel rest false) l2 phi wA msk lam0in true true phi2 V E2) as [r' [Er' _]]. rewrite Er'. f_equal.
      destruct (same_cube _ _ _ Er') as (C1 & C2).
      destruct (rmsf_widths _ l2 phi wA msk lam0in true true r' V Er') as (fw0' & RW' & H). specialize (H p Hp). cbv zeta in H. rewrite C1, C2 in H. rewrite H.
      assert (fw0' = fw0) as ->.
      { destruct RW as (h1 & l1 & A1 & A2 & A3 & ->), RW' as (h2 & l2' & D1 & D2 & D3 & ->).
        pose proof (A3 h2 D1). pose proof (A3 l2' D2). pose proof (D3 h1 A1). pose proof (D3 l1 A2). assert (h1 = h2) as -> by lra. assert (l1 = l2') as -> by lra. reflexivity. }
      f_equal. f_equal. rewrite <- Lrm. rewrite (list_as_seq rm czero) at 2. rewrite map_map. apply map_ext_in. intros k Hk. apply in_seq in Hk. apply HS. lia. }
    pose proof rm_peak as (P1 & P2). pose proof grid_len as GL. set (y := map Cmod rm) in *.
    assert (LY : length y = length rm) by (unfold y; apply map_length).
    assert (YY : map (option_map (if false then fst else Cmod)) (map Some rm) = map Some y) by (unfold y; rewrite !map_map; reflexivity).
    assert (H4 : 4 / 10 <= nth (length phi) y 0) by (rewrite P2; lra).
    split.
    - intros HN fuel rest. rewrite AN. f_equal. unfold rmsf_fit. rewrite YY. destruct HN as [HN|HN].
      + assert (D : detect_peak (map Some y) (4 / 10) = PErr).
        { apply detect_raises. intros k K i Hi. assert (k = length phi) as ->; [|apply HN; lia].
          destruct K as (K1 & K2 & K3), P1 as (Q1 & Q2 & Q3). destruct (Nat.lt_trichotomy k (length phi)) as [D|[D|D]]; [|exact D|].
          - pose proof (Q3 k D). pose proof (K2 (length phi) ltac:(lia)). lra.
          - pose proof (K3 (length phi) D). pose proof (Q2 k K1). lra. }
        unfold fit_rmsf. rewrite D. reflexivity.
      + destruct (fit_one_sample (phi2Arr r) y (4 / 10) (4 / 10) (length phi) P1 HN H4 ltac:(lia)) as (o & O1 & O2).
        rewrite O2. cbn [option_map]. rewrite O1. reflexivity.
    - intros s Hs F CH. pose proof (lobe_within s F) as W. destruct (take_lobe s ltac:(lia) F) as (T1 & T2).
      destruct (fit_lobe_ends (phi2Arr r) y (4 / 10) (4 / 10) (length phi) s P1 F ltac:(lia) H4 ltac:(lia)) as (N & o & E).
      { fold y in T1. rewrite T1, T2. intros e EX. apply lobe_extent in EX; [|lia]. subst e.
        assert (X0 : nth (length phi) (phi2Arr r) 0 = 0).
        { destruct grid2 as (_ & L2 & N2). rewrite N2 by lia. ring. }
        rewrite X0. apply half_enough; [unfold lobe_axis, take; now rewrite !map_length|]. intros i Hi. unfold lobe_axis in Hi. rewrite map_length in Hi.
        assert (LA : length (around (length phi) s) = (2 * s - 1)%nat) by (unfold around; apply seq_length). rewrite LA in Hi.
        assert (NA : nth i (around (length phi) s) 0%nat = (length phi + 1 - s + i)%nat) by (unfold around; apply seq_nth; lia).
        unfold lobe_axis, take. rewrite (nth_map_lt _ (around (length phi) s) i 0 0%nat) by lia. rewrite (nth_map_lt _ (around (length phi) s) i 0 0%nat) by lia. rewrite NA.
        destruct (rm_mirrored s W) as (_ & MM). fold y in MM.
        assert (S1 : 0 < INR (s - 1)) by (apply lt_0_INR; lia).
        assert (KEY : forall j v, (j < s)%nat -> v ^ 2 = INR j ^ 2 -> gaussian 1 0 (2 * (INR (s - 1) * step)) (v * step) <= 2 * nth (length phi + j) y 0).
        { intros j v Hj Hv. eapply Rle_trans; [|apply Rmult_le_compat_l; [lra|apply (CH j Hj)]].
          unfold gaussian. rewrite Rmult_1_l. replace ((2 * (v * step - 0) / (2 * (INR (s - 1) * step))) ^ 2) with ((INR j / INR (s - 1)) ^ 2).
          - apply chord_half. split; [apply Rmult_le_pos; [apply pos_INR|left; now apply Rinv_0_lt_compat]|].
            apply (Rmult_le_reg_r (INR (s - 1))); [exact S1|]. unfold Rdiv. rewrite Rmult_assoc, Rinv_l by lra. rewrite Rmult_1_l, Rmult_1_r. apply le_INR. lia.
          - unfold Rdiv. rewrite Rpow_mult_distr, <- Hv. field_simplify; [reflexivity|lra..]. }
        destruct (le_lt_dec (s - 1) i) as [Hi2|Hi2].
        - replace (length phi + 1 - s + i)%nat with (length phi + (i - (s - 1)))%nat by lia. apply KEY; [lia|]. rewrite plus_INR. ring.
        - replace (length phi + 1 - s + i)%nat with (length phi - (s - 1 - i))%nat by lia. rewrite MM by lia. apply KEY; [lia|]. rewrite (minus_INR (length phi)) by lia. ring. }
      destruct (fit_lobe N (phi2Arr r) y (4 / 10) (4 / 10) (length phi) s o P1 F ltac:(lia) H4 ltac:(lia) (fun rest => E N rest (Nat.le_refl N))) as (e & EX & ST & DD & _).
      fold y in T1. rewrite T1, T2 in EX, DD. apply lobe_extent in EX; [|lia]. subst e.
      assert (X0 : nth (length phi) (phi2Arr r) 0 = 0).
      { destruct grid2 as (_ & L2 & N2). rewrite N2 by lia. ring. }
      rewrite X0 in DD.
      exists N, (o_status o), (o_params o 0%nat), (o_params o 1%nat), (o_params o 2%nat). split; [exact ST|]. split; [exact DD|].
      intros fuel rest Hf. rewrite AN. f_equal. unfold rmsf_fit. rewrite YY, (E fuel rest Hf). cbn [option_map fit_or].
      replace (1 <=? o_status o)%Z with true by (symmetry; apply Z.leb_le; lia). reflexivity.
  Qed.
End Width.
