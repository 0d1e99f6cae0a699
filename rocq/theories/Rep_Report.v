(** What rmtools_calcRMSF reports. *)
From Coq Require Import Reals List Arith ZArith Bool Lra Lia Psatz Permutation Sorting.Sorted.
Set Warnings "-ambiguous-paths".
From Coquelicot Require Import Coquelicot.
From Verif Require Import CBase PyRes PyList PyList_Proofs NdArray Synth_Model Synth_Spec Synth_Proofs Synth_Laws Measure_Model Median_Proofs Setup_Model Setup_Proofs Rmsf_Proofs
  Clean_Spec Clean_Grid Rmsf_Peak Ref_Spec Ref_Width Mp_Model Lobe_Spec Lobe_Model Lobe_Proofs Lobe_Fit Rep_Spec Rep_Model Rep_Proofs.
Import ListNotations.
Local Open Scope R_scope.

Lemma middle_median : forall l m, middle l m -> median l = Some m.
Proof.
  intros l m (H & v & P & SS & ->). rewrite (median_of_sorted l v H P SS). f_equal. unfold mid.
  assert (L : (0 < length v)%nat). { rewrite <- (Permutation_length P). destruct l; [congruence|cbn; lia]. }
  destruct (Nat.even (length v)) eqn:E.
  - apply Nat.even_spec in E. destruct E as [q E]. rewrite E. rewrite (Nat.mul_comm 2 q), Nat.div_mul by lia.
    replace ((q * 2 - 1) / 2)%nat with (q - 1)%nat; [reflexivity|]. destruct q as [|q]; [lia|].
    replace (S q * 2 - 1)%nat with (1 + q * 2)%nat by lia. rewrite Nat.div_add by lia. cbn. lia.
  - assert (O : Nat.odd (length v) = true) by (rewrite <- Nat.negb_even, E; reflexivity). apply Nat.odd_spec in O. destruct O as [q O]. rewrite O.
    replace (2 * q + 1 - 1)%nat with (q * 2)%nat by lia. rewrite Nat.div_mul by lia. replace (2 * q + 1)%nat with (1 + q * 2)%nat by lia.
    rewrite Nat.div_add by lia. cbn [Nat.div Nat.divmod fst Nat.add]. field.
Qed.

Definition open_mask (n : nat) : nd bool := mk_nd [n] (repeat false n).

Lemma open_cell : forall n j, at2 1 false (flat (open_mask n)) j 0 = false.
Proof.
  intros n j. unfold at2, open_mask. cbn [flat]. destruct (le_lt_dec n (j * 1 + 0)) as [L|L]; [apply nth_overflow; rewrite repeat_length; lia|].
  apply (repeat_spec n false). apply nth_In. rewrite repeat_length. lia.
Qed.

Lemma none_mask : forall fit l2 phi wA lam0in dbl ft,
  get_rmsf_planes fit l2 phi wA None lam0in dbl ft = get_rmsf_planes fit l2 phi wA (Some (open_mask (length l2))) lam0in dbl ft.
Proof. intros. reflexivity. Qed.

Lemma combine_seq : forall (l w : list R), length w = length l -> combine l w = map (fun j => (nth j l 0, nth j w 0)) (seq 0 (length l)).
Proof.
  induction l as [|a l IH]; intros [|b w] H; cbn in H; try discriminate; [reflexivity|]. cbn [combine length seq map nth]. f_equal.
  rewrite IH by lia. rewrite <- seq_shift, map_map. reflexivity.
Qed.

Lemma open_chans : forall l2 w, length w = length l2 -> mask_chans (length l2) 1 (flat (open_mask (length l2))) l2 w 0 = weighted l2 w.
Proof.
  intros l2 w H. unfold mask_chans, weighted. rewrite combine_seq by exact H. rewrite map_map. induction (seq 0 (length l2)) as [|j l IH]; [reflexivity|].
  cbn [flat_map map]. pose proof (open_cell (length l2) j) as O. unfold at2 in O. rewrite O. cbn [app fst snd]. now f_equal.
Qed.

Lemma prep_some : forall n (w : list R), prep_weights n (Some (map Some w)) = w.
Proof. intros. cbn. rewrite map_map. apply map_id. Qed.

Lemma weighted_sum : forall l2 w, length w = length l2 -> wsum (weighted l2 w) = rsum w.
Proof.
  intros l2 w H. unfold wsum, weighted. rewrite map_map. cbn [c_w]. f_equal. revert w H. induction l2 as [|a l2 IH]; intros [|b w] H; cbn in H |- *; try discriminate; [reflexivity|].
  f_equal. apply IH. lia.
Qed.

Lemma open_eff : forall (l2 w : list R), length w = length l2 -> rw_eff (length l2) 1 (flat (open_mask (length l2))) w = w.
Proof.
  intros l2 w H. unfold rw_eff. transitivity (map (fun j => nth j w 0) (seq 0 (length w))); [|symmetry; apply list_as_seq]. rewrite H. apply map_ext. intros j. unfold xySum, mskd. cbn [seq filter].
  rewrite open_cell. reflexivity.
Qed.

Lemma mean_eq : forall l2 w, length w = length l2 -> rsum w <> 0 ->
  1 / rsum w * rsum (map (fun wl => fst wl * snd wl) (combine w l2)) = mean_l2 (weighted l2 w).
Proof.
  intros l2 w H HW. unfold mean_l2. rewrite weighted_sum by exact H. unfold weighted. rewrite map_map. cbn [c_w c_l2].
  replace (rsum (map (fun wl => fst wl * snd wl) (combine w l2))) with (rsum (map (fun x => snd x * fst x) (combine l2 w))); [field; exact HW|].
  clear HW. revert w H. induction l2 as [|a l2 IH]; intros [|b w] H; cbn in H; try discriminate; [reflexivity|]. cbn [combine map]. rewrite !rsum_cons. cbn [fst snd]. rewrite IH by lia. reflexivity.
Qed.

(** The spread function, for any evenly spaced grid. *)
Lemma open_rmsf : forall fit l2 w a d n (super : bool), l2 <> [] -> length w = length l2 -> rsum w <> 0 -> (2 <= n)%nat ->
  let phi2 := padded_axis a d n (Nat.div2 (n + 1)) in
  let chs := weighted l2 w in
  let rm := map (RMSF_spec chs (if super then 0 else mean_l2 chs)) phi2 in
  exists r fw0, get_rmsf_planes fit l2 (map (fun k => a + INR k * d) (seq 0 n)) (Some (map Some w)) (Some (open_mask (length l2))) (if super then Some 0 else None) true true = RetOk r /\
    phi2Arr r = phi2 /\ flat (RMSFcube r) = map Some rm /\ rmsf_lam0 r = Some (if super then 0 else mean_l2 chs) /\
    range_width (38 / 10) l2 fw0 /\ (nth 0 (flat (statArr r)) 0%Z, nth 0 (flat (fwhmRMSFArr r)) None) = fit_or (fit phi2 (map Some rm)) fw0.
Proof.
  intros fit l2 w a d n super H0 HL HW Hn phi2 chs rm.
  pose proof (uniform_double a d n Hn) as E2. cbv zeta in E2. fold (padded_axis a d n (Nat.div2 (n + 1))) in E2. fold phi2 in E2. unfold grid_of in E2.
  assert (V : valid_rmsf l2 (Some (map Some w)) (open_mask (length l2))).
  { split; [exact H0|]. split; [cbn; lia|]. split; [reflexivity|]. now rewrite map_length. }
  destruct (rmsf_refines fit l2 _ _ _ (if super then Some 0 else None) true true phi2 V E2) as (r & Er & Ep & F).
  destruct (rmsf_widths _ _ _ _ _ _ _ _ _ V Er) as (fw0 & RW & FW). specialize (FW 0%nat ltac:(cbn; lia)). cbv zeta in FW.
  change (mpix (open_mask (length l2))) with 1%nat in F, FW.
  assert (LAM : rmsf_lam0 r = Some (if super then 0 else mean_l2 chs)).
  { rewrite (rmsf_lam0_ret _ _ _ _ _ _ _ _ _ Er). unfold rlam0, rmsf_lam0_of. destruct super; [reflexivity|].
    change (mpix (open_mask (length l2))) with 1%nat. rewrite prep_some, open_eff by exact HL.
    destruct (Req_EM_T (rsum w) 0) as [E|E]; [contradiction|]. f_equal. now apply mean_eq. }
  assert (CELL : forall k, (k < length phi2)%nat -> nth k (flat (RMSFcube r)) None = Some (nth k rm czero)).
  { intros k Hk. specialize (F k 0%nat _ Hk ltac:(lia) LAM). cbv zeta in F. change weights_of with prep_weights in F. rewrite prep_some, open_chans in F by exact HL. fold chs in F.
    unfold at2 in F. rewrite Nat.mul_1_r, Nat.add_0_r in F. rewrite F.
    - f_equal. unfold rm. symmetry. now rewrite (nth_map_lt _ phi2 k czero 0).
    - unfold chs. now rewrite weighted_sum.
    - right. intros j Hj. right. intros p Hp. assert (p = 0)%nat as -> by lia. exact (open_cell (length l2) j). }
  assert (LC : length (flat (RMSFcube r)) = length phi2).
  { unfold get_rmsf_planes in Er. rewrite E2 in Er. rewrite prep_some in Er. rewrite HL, Nat.eqb_refl in Er. cbn [negb open_mask shape length Nat.leb nth tl prodn Nat.eqb] in Er. rewrite Nat.eqb_refl in Er.
    cbn [negb] in Er. destruct l2 as [|h t]; [congruence|]. injection Er as <-. cbn [RMSFcube squeeze flat]. rewrite length_tab2. lia. }
  exists r, fw0. split; [exact Er|]. split; [exact Ep|].
  assert (CU : flat (RMSFcube r) = map Some rm).
  { apply nth_ext with (d := None) (d' := None); [rewrite LC; unfold rm; now rewrite !map_length|]. intros k Hk. rewrite LC in Hk. rewrite CELL by exact Hk.
    rewrite (nth_map_lt Some rm k None czero); [reflexivity|]. unfold rm. now rewrite map_length. }
  split; [exact CU|]. split; [exact LAM|]. split; [exact RW|]. rewrite FW. f_equal. rewrite Ep. f_equal.
  rewrite CU. transitivity (map (fun k => nth k (map Some rm) None) (seq 0 (length phi2))).
  - apply map_ext. intros k. now rewrite Nat.mul_1_r, Nat.add_0_r.
  - replace (length phi2) with (length (map Some rm)) by (unfold rm; now rewrite !map_length). symmetry. apply list_as_seq.
Qed.

Lemma mid_exists : forall l, l <> [] -> exists m, middle l m /\ median l = Some m.
Proof.
  intros l H. assert (M : middle l ((nth ((length (rsort l) - 1) / 2) (rsort l) 0 + nth (length (rsort l) / 2) (rsort l) 0) / 2)).
  { split; [exact H|]. exists (rsort l). split; [apply rsort_perm|]. split; [apply rsort_sorted|reflexivity]. }
  eexists. split; [exact M|]. now apply middle_median.
Qed.

Lemma range_span : forall l2 s fw, span l2 s -> range_width (38 / 10) l2 fw -> fw = if Req_EM_T s 0 then None else Some (38 / 10 / s).
Proof.
  intros l2 s fw (h1 & l1 & A1 & A2 & A3 & ->) (h2 & l2' & B1 & B2 & B3 & ->).
  pose proof (A3 h2 B1). pose proof (A3 l2' B2). pose proof (B3 h1 A1). pose proof (B3 l1 A2). assert (E1 : h1 = h2) by lra. assert (E2 : l1 = l2') by lra. rewrite E1, E2.
  destruct (Req_EM_T h2 l2') as [E|E], (Req_EM_T (h2 - l2') 0) as [E'|E']; try reflexivity; lra.
Qed.

Theorem report_values : forall fit freq w phi_max dphi (super : bool) l2 s lo pm dp,
  all_some (lambda2 freq) = Some l2 -> length w = length l2 -> rsum w <> 0 ->
  span l2 s -> In lo l2 -> (forall x, In x l2 -> lo <= x) -> lo <> 0 ->
  chosen 10 s phi_max pm -> chosen (1 / 10) s dphi dp -> 0 < dp -> dp < pm + 1 / 1000000 ->
  exists n rep, determine_RMSF_parameters fit freq w phi_max dphi super = Some (POk rep) /\
    (forall k, (k < n)%nat <-> - pm / 2 + INR k * dp < pm / 2 + 1 / 1000000) /\
    let phi2 := padded_axis (- pm / 2) dp n (Nat.div2 (n + 1)) in
    let chs := weighted l2 w in
    let rm := map (RMSF_spec chs (if super then 0 else mean_l2 chs)) phi2 in
    let y := map Cmod (skipn (length rm / 2) rm) in
    p_theory rep = (if Req_EM_T s 0 then None else Some (38 / 10 / s)) /\
    p_fwhm rep = snd (fit_or (fit super phi2 (map Some rm)) (p_theory rep)) /\
    p_scale rep = Some (PI / lo) /\
    (forall d, middle (steps l2) d -> d <> 0 -> p_maxfd rep = Some (sqrt 3 / d)) /\
    match p_lobe rep with
    | Some (x, a) => exists i, highest_max y i /\ x = nth (length rm / 2 + i) phi2 0 /\ a = 100 * nth i y 0
    | None => forall i, ~ sharp_max y i
    end.
Proof.
  intros fit freq w phi_max dphi super l2 s lo pm dp El HL HW SP Ilo Hlo Nlo CP CD Hd H2.
  assert (H0 : l2 <> []) by (intros ->; destruct Ilo).
  unfold determine_RMSF_parameters. rewrite El.
  destruct (rmin_list l2) as [mn|] eqn:Emn; [|destruct l2; [congruence|discriminate]].
  destruct (rmax_list l2) as [mx|] eqn:Emx; [|destruct l2; [congruence|discriminate]].
  pose proof (rmin_list_spec _ _ Emn) as (M1 & M2). pose proof (rmax_list_spec _ _ Emx) as (X1 & X2).
  assert (mn = lo) as -> by (pose proof (Hlo mn M1); pose proof (M2 lo Ilo); lra).
  assert (mx - lo = s) as Es.
  { destruct SP as (h1 & l1 & A1 & A2 & A3 & ->). pose proof (A3 mx X1). pose proof (A3 lo Ilo). pose proof (M2 l1 A2). pose proof (X2 h1 A1). lra. }
  rewrite !Es.
  assert (C : forall c o v, chosen c s o v -> match o with Some v => Some v | None => if Req_EM_T s 0 then None else Some (c * 2 * sqrt 3 / s) end = Some v).
  { intros c [x|] v CH; cbn in CH; [now rewrite CH|]. destruct CH as [N ->]. destruct (Req_EM_T s 0); [contradiction|]. f_equal. field. exact N. }
  rewrite (C 10 phi_max pm CP), (C (1 / 10) dphi dp CD). cbv zeta.
  replace (-1 * pm / 2) with (- pm / 2) by field.
  destruct (arange_values (- pm / 2) (pm / 2 + 1 / 1000000) dp Hd) as (n & EA & N). rewrite EA. cbn [pybind].
  assert (Hn : (2 <= n)%nat). { assert (1 < n)%nat; [|lia]. apply N. cbn [INR]. lra. }
  rewrite none_mask.
  destruct (open_rmsf (fit super) l2 w (- pm / 2) dp n super H0 HL HW Hn) as (r & fw0 & Er & Ep & Ec & _ & RW & FW). rewrite Er.
  exists n. eexists. split; [reflexivity|]. split; [exact N|]. cbv zeta. cbn [p_theory p_fwhm p_scale p_maxfd p_lobe].
  split; [reflexivity|]. split.
  { rewrite <- (range_span l2 s fw0 SP RW). rewrite <- FW. reflexivity. }
  split; [destruct (Req_EM_T lo 0); [contradiction|reflexivity]|]. split.
  { intros d M D. fold (steps l2). rewrite (middle_median _ _ M). destruct (Req_EM_T d 0); [contradiction|reflexivity]. }
  rewrite Ep, Ec. apply sidelobe_found; [reflexivity|]. now rewrite !map_length.
Qed.
