(** Proofs about rmtools_calcRMSF. *)
From Coq Require Import Reals List Arith ZArith Bool Lra Lia Psatz.
Set Warnings "-ambiguous-paths".
From Coquelicot Require Import Coquelicot.
From Verif Require Import CBase PyRes PyList PyList_Proofs NdArray Synth_Model Synth_Spec Synth_Proofs Synth_Laws Measure_Model Setup_Model Setup_Proofs Rmsf_Proofs
  Clean_Spec Clean_Grid Ref_Spec Ref_Width Peak_Proofs Lobe_Spec Lobe_Proofs Rep_Spec Rep_Model.
Import ListNotations.
Local Open Scope R_scope.

(** ---------- squared wavelengths *)

Lemma all_some_map_some : forall {A B} (f : A -> option B) (g : A -> B) l, (forall x, In x l -> f x = Some (g x)) -> all_some (map f l) = Some (map g l).
Proof.
  intros A B f g l. induction l as [|a l IH]; intros H; cbn; [reflexivity|]. rewrite (H a) by now left. rewrite IH by (intros; apply H; now right). reflexivity.
Qed.

Theorem float_wavelengths : forall l, (forall f, In f l -> f <> 0) -> all_some (lambda2 (CFloat l)) = Some (map wavelength2 l).
Proof.
  intros l H. unfold lambda2. cbv zeta. apply all_some_map_some. intros f Hf. specialize (H f Hf).
  destruct (Req_EM_T (f ^ 2) 0) as [E|E]; [exfalso; revert E; apply pow_nonzero; exact H|]. f_equal. unfold wavelength2. field. exact H.
Qed.

Lemma wrap_small : forall z, (- 2 ^ 63 <= z < 2 ^ 63)%Z -> wrap64 z = z.
Proof. intros z H. unfold wrap64. rewrite Z.mod_small by lia. lia. Qed.

Theorem integer_wavelengths : forall l, (forall z, In z l -> (z <> 0 /\ Z.abs z <= 3037000499)%Z) ->
  all_some (lambda2 (CInt l)) = Some (map (fun z => wavelength2 (IZR z)) l).
Proof.
  intros l H. unfold lambda2. cbv zeta. apply all_some_map_some. intros z Hz. destruct (H z Hz) as [H0 H1].
  rewrite wrap_small by nia. rewrite mult_IZR. assert (IZR z <> 0) by now apply IZR_neq.
  destruct (Req_EM_T _ 0) as [E|E]; [exfalso; apply Rmult_integral in E; tauto|]. f_equal. unfold wavelength2. field. assumption.
Qed.

Lemma inv_square : forall w z, w <> 0 -> z <> 0 -> 299792458 ^ 2 / w = (299792458 / z) ^ 2 -> w = z * z.
Proof.
  intros w z Hw Hz H. assert (X : 299792458 ^ 2 / w * (w * (z * z)) = (299792458 / z) ^ 2 * (w * (z * z))) by (f_equal; exact H).
  replace (299792458 ^ 2 / w * (w * (z * z))) with (299792458 ^ 2 * (z * z)) in X by (field; exact Hw).
  replace ((299792458 / z) ^ 2 * (w * (z * z))) with (299792458 ^ 2 * w) in X by (field; exact Hz). lra.
Qed.

(** The square of a frequency above 3037000499 does not fit. *)
Theorem integer_overflow_refuted : forall z, (3037000500 <= z)%Z ->
  nth 0 (lambda2 (CInt [z])) None <> Some (wavelength2 (IZR z)) /\
  ((z < 4294967296)%Z -> exists v, lambda2 (CInt [z]) = [Some v] /\ v < 0).
Proof.
  intros z H. unfold lambda2. cbv zeta. cbn [map nth].
  assert (P : 0 < IZR z) by (apply IZR_lt; lia). split.
  - assert (W : (wrap64 (z * z) < z * z)%Z).
    { unfold wrap64. pose proof (Z.mod_pos_bound (z * z + 2 ^ 63) (2 ^ 64) ltac:(lia)). nia. }
    destruct (Req_EM_T (IZR (wrap64 (z * z))) 0) as [E|E]; [discriminate|]. intros X.
    assert (X0 : 299792458 ^ 2 / IZR (wrap64 (z * z)) = wavelength2 (IZR z)) by congruence. clear X. rename X0 into X. unfold wavelength2 in X. apply IZR_lt in W. rewrite mult_IZR in W.
    assert (Q : IZR (wrap64 (z * z)) = IZR z * IZR z); [|lra].
    assert (F := inv_square _ _ E (Rgt_not_eq _ _ P) X). exact F.
  - intros H2. assert (W : (wrap64 (z * z) < 0)%Z).
    { unfold wrap64. replace ((z * z + 2 ^ 63) mod 2 ^ 64)%Z with (z * z + 2 ^ 63 - 2 ^ 64)%Z; [nia|]. apply Z.mod_unique with 1%Z; [left; nia|nia]. }
    apply IZR_lt in W. destruct (Req_EM_T _ 0) as [E|E]; [lra|]. eexists. split; [reflexivity|].
    assert (0 < / - IZR (wrap64 (z * z))) by (apply Rinv_0_lt_compat; lra). unfold Rdiv. rewrite Rinv_opp in H0. nra.
Qed.

(** ---------- numpy.arange *)

Lemma Rceil_nat : forall x, 0 < x -> exists n, Z.to_nat (Rceil x) = n /\ INR n - 1 < x <= INR n.
Proof.
  intros x Hx. unfold Rceil. pose proof (Rfloor_spec (- x)) as [A B]. eexists. split; [reflexivity|].
  assert (G : (0 <= - Rfloor (- x))%Z). { apply le_IZR. rewrite opp_IZR. cbn. lra. }
  rewrite INR_IZR_INZ, Z2Nat.id by exact G. rewrite opp_IZR. lra.
Qed.

Theorem arange_values : forall a b d, 0 < d -> exists n, arange a b d = POk (map (fun k => a + INR k * d) (seq 0 n)) /\
  forall k, (k < n)%nat <-> a + INR k * d < b.
Proof.
  intros a b d Hd. unfold arange. destruct (Req_EM_T d 0) as [E|E]; [lra|]. eexists. split; [reflexivity|]. intros k.
  assert (DV : (b - a) / d * d = b - a) by (field; lra).
  destruct (Rle_lt_dec b a) as [L|L].
  - replace (Z.to_nat (Rceil ((b - a) / d))) with 0%nat.
    + split; [lia|]. intros H. pose proof (pos_INR k). nra.
    + symmetry. unfold Rceil. pose proof (Rfloor_spec (- ((b - a) / d))) as [A B].
      assert (G : (- Rfloor (- ((b - a) / d)) <= 0)%Z); [|lia].
      assert (Z0 : (-1 < Rfloor (- ((b - a) / d)))%Z); [|lia]. apply lt_IZR. assert ((b - a) / d <= 0) by (apply Rmult_le_reg_r with d; lra). cbn. lra.
  - destruct (Rceil_nat ((b - a) / d)) as (n & -> & N1 & N2). { apply Rmult_lt_reg_r with d; lra. }
    assert (LT : (k < n)%nat <-> INR k < (b - a) / d).
    { split; intros H.
      - apply Nat.le_succ_l in H. apply le_INR in H. rewrite S_INR in H. lra.
      - apply INR_lt. lra. }
    rewrite LT. split; intros H.
    + assert (INR k * d < (b - a) / d * d) by (apply Rmult_lt_compat_r; lra). lra.
    + apply Rmult_lt_reg_r with d; lra.
Qed.

(** ---------- inputs *)

Theorem two_columns : forall c d fp, is_int c = is_int d -> col_len c <> 1%nat ->
  inputs (Some [c; d]) fp None = POk (c, reals d).
Proof.
  intros c d fp H L. unfold inputs, genfromtxt. cbn [forallb]. rewrite H, !eqb_reflx. cbn [andb]. apply Nat.eqb_neq in L. rewrite L. reflexivity.
Qed.

Theorem one_column : forall c fp, col_len c <> 1%nat -> inputs (Some [c]) fp None = POk (c, repeat 1 (col_len c)).
Proof. intros c fp L. unfold inputs, genfromtxt. apply Nat.eqb_neq in L. rewrite L. reflexivity. Qed.

Theorem weight_file : forall ff fp w f v, col_len w <> 1%nat -> inputs ff fp None = POk (f, v) ->
  inputs ff fp (Some [w]) = if Nat.eqb (col_len w) (col_len f) then POk (f, reals w) else PErr.
Proof.
  intros ff fp w f v L H. unfold inputs in *. destruct (match ff with Some _ => _ | None => _ end) as [[f' v']|]; [|discriminate].
  cbn [pybind] in H |- *. injection H as -> ->. cbn [genfromtxt]. apply Nat.eqb_neq in L. rewrite L. reflexivity.
Qed.

Theorem generated : forall a b d w, 0 < d -> exists n, (forall k, (k < n)%nat <-> a + INR k * d < b) /\
  inputs None (Some (a, b, d)) None = POk (CFloat (map (fun k => a + INR k * d) (seq 0 n)), repeat 1 n) /\ inputs None None w = PErr.
Proof.
  intros a b d w Hd. destruct (arange_values a b d Hd) as (n & E & N). exists n. split; [exact N|]. split; [|reflexivity].
  unfold inputs. rewrite E. cbn [pybind]. unfold ones_like. cbn [col_len]. now rewrite map_length, seq_length.
Qed.

(** Integer frequencies beside weights that are not all integers. *)
Theorem mixed_columns_refuted : forall f w fp wf, inputs (Some [CInt f; CFloat w]) fp wf = PErr.
Proof. intros. reflexivity. Qed.

(** A single channel with its weight is taken for two channels. *)
Theorem one_row_refuted : forall f w fp, inputs (Some [CFloat [f]; CFloat [w]]) fp None = POk (CFloat [f; w], [1; 1]).
Proof. intros. reflexivity. Qed.

(** ---------- the sidelobe *)

Lemma peaks_are : forall y i, In i (peaks_at (map Some y)) <-> sharp_max y i.
Proof.
  intros y i. unfold peaks_at, sharp_max. rewrite map_length, filter_In, in_seq. split.
  - intros [A B]. rewrite !(nth_map_lt Some y _ None 0) in B by lia. apply andb_true_iff in B. destruct B as [B1 B2].
    apply Rltb_true in B1, B2. repeat split; try lia; assumption.
  - intros (A1 & A2 & A3 & A4). split; [lia|]. rewrite !(nth_map_lt Some y _ None 0) by lia. apply andb_true_iff. now rewrite !Rltb_true.
Qed.

Lemma filter_sorted_lt : forall f l a b, (forall i j, (i < j < length l)%nat -> (nth i l 0 < nth j l 0)%nat) ->
  (a < length (filter f l))%nat -> (b < length (filter f l))%nat -> (nth a (filter f l) 0 < nth b (filter f l) 0)%nat -> (a < b)%nat.
Proof.
  intros f l. induction l as [|x l IH]; intros a b S A B H; [cbn in A; lia|].
  assert (S' : forall i j, (i < j < length l)%nat -> (nth i l 0 < nth j l 0)%nat) by (intros i j L; apply (S (Datatypes.S i) (Datatypes.S j)); cbn; lia).
  assert (M : forall q, (q < length (filter f l))%nat -> (x < nth q (filter f l) 0)%nat).
  { intros q Q. pose proof (nth_In (filter f l) 0%nat Q) as I. apply filter_In in I. destruct I as [I _]. destruct (In_nth _ _ 0%nat I) as (j & Hj & Ej).
    rewrite <- Ej. apply (S 0%nat (Datatypes.S j)). cbn. lia. }
  cbn [filter] in *. destruct (f x); [|now apply IH]. cbn [length] in A, B. destruct a as [|a], b as [|b]; cbn [nth] in H; try lia.
  - exfalso. specialize (M a ltac:(lia)). lia.
  - assert (a < b)%nat; [|lia]. apply IH; auto; lia.
Qed.

Theorem sidelobe_found : forall phi2 cube rm, cube = map Some rm -> length phi2 = length rm ->
  let y := map Cmod (skipn (length rm / 2) rm) in
  match sidelobe phi2 cube with
  | Some (x, a) => exists i, highest_max y i /\ x = nth (length rm / 2 + i) phi2 0 /\ a = 100 * nth i y 0
  | None => forall i, ~ sharp_max y i
  end.
Proof.
  intros phi2 cube rm -> L y. unfold sidelobe. cbv zeta. rewrite map_length.
  assert (HE : map (option_map Cmod) (skipn (length rm / 2) (map Some rm)) = map Some y).
  { unfold y. rewrite skipn_map, !map_map. reflexivity. }
  rewrite HE. set (pk := peaks_at (map Some y)).
  assert (PE : map (fun i => match nth i (map Some y) None with Some v => v | None => 0 end) pk = map (fun i => nth i y 0) pk).
  { apply map_ext_in. intros i Hi. apply peaks_are in Hi. destruct Hi as (A1 & A2 & _). now rewrite (nth_map_lt Some y i None 0) by lia. }
  rewrite PE. destruct (argmax Rltb (map (fun i => nth i y 0) pk)) as [q|] eqn:E.
  - apply argmax_is_peak in E. destruct E as (Q1 & Q2 & Q3). rewrite map_length in Q1, Q2.
    assert (V : forall j, (j < length pk)%nat -> nth j (map (fun i => nth i y 0) pk) 0 = nth (nth j pk 0%nat) y 0) by (intros j Hj; now apply (nth_map_lt (fun i => nth i y 0) pk j 0 0%nat)).
    set (i := nth q pk 0%nat). assert (I : In i pk) by now apply nth_In. assert (SM := I). apply peaks_are in SM.
    assert (LY : length y = (length rm - length rm / 2)%nat) by (unfold y; now rewrite map_length, skipn_length).
    pose proof (Nat.div_le_upper_bound (length rm) 2 (length rm) ltac:(lia) ltac:(lia)) as DL.
    assert (Hi : (i < length y)%nat) by (destruct SM as (_ & ? & _); lia).
    rewrite (nth_error_nth' (skipn (length phi2 / 2) phi2) 0) by (rewrite skipn_length, L; fold i; lia).
    exists i. split; [|split].
    + split; [exact SM|]. rewrite <- peaks_are in SM. split.
      * intros j Hj. apply peaks_are in Hj. destruct (In_nth _ _ 0%nat Hj) as (b & Hb & <-). fold pk in Hb |- *. specialize (Q2 b Hb). rewrite !V in Q2 by assumption. exact Q2.
      * intros j Hj Lj. apply peaks_are in Hj. destruct (In_nth _ _ 0%nat Hj) as (b & Hb & Eb). fold pk in Hb, Eb. rewrite <- Eb.
        assert (B : (b < q)%nat).
        { unfold pk, peaks_at in Hb, Eb. eapply filter_sorted_lt; [|exact Hb|exact Q1|].
          - intros u v Huv. rewrite seq_length in Huv. rewrite !seq_nth by lia. lia.
          - rewrite Eb. exact Lj. }
        specialize (Q3 b B). rewrite !V in Q3 by lia. exact Q3.
    + rewrite nth_skip, L. reflexivity.
    + rewrite V by exact Q1. fold i. ring.
  - assert (pk = []) as P0. { destruct pk; [reflexivity|discriminate]. }
    intros i SM. apply peaks_are in SM. fold pk in SM. rewrite P0 in SM. destruct SM.
Qed.

(** ---------- the grid *)

Definition grid_of (a d : R) (n : nat) : list R := map (fun k => a + INR k * d) (seq 0 n).

Lemma uniform_double : forall a d n, (2 <= n)%nat -> let e := Nat.div2 (n + 1) in
  phi2_grid true (grid_of a d n) = Some (map (fun k => a + (INR k - INR e) * d) (seq 0 (2 * e + n))).
Proof.
  intros a d n Hn e. assert (L : length (grid_of a d n) = n) by (unfold grid_of; now rewrite map_length, seq_length).
  rewrite phi2_double by lia. rewrite L. fold e. f_equal. apply map_ext. intros k.
  assert (N : forall j, (j < n)%nat -> nth j (grid_of a d n) 0 = a + INR j * d) by (intros j Hj; unfold grid_of; now rewrite nth_map_seq).
  assert (IR : IZR (Z.of_nat k - Z.of_nat e) = INR k - INR e) by (rewrite minus_IZR, <- !INR_IZR_INZ; reflexivity).
  unfold ext_index. rewrite L. destruct (Z.ltb_spec (Z.of_nat k - Z.of_nat e) 0).
  - rewrite !N by lia. rewrite IR. cbn [INR]. ring.
  - destruct (Z.ltb_spec (Z.of_nat k - Z.of_nat e) (Z.of_nat n)).
    + rewrite N by lia. rewrite INR_IZR_INZ, Z2Nat.id by lia. rewrite IR. ring.
    + rewrite !N by lia. rewrite IR. replace (INR (n - 2)) with (INR (n - 1) - 1); [ring|].
      replace (n - 1)%nat with (S (n - 2)) by lia. rewrite S_INR. ring.
Qed.

(** The default grid: 101 samples around zero, 203 for the spread function. *)
Lemma default_grid : forall p, 1 / 1000000 <= p / 100 ->
  exists phi, arange (-1 * p / 2) (p / 2 + 1 / 1000000) (p / 100) = POk phi /\ centred_grid phi 50 (p / 100).
Proof.
  intros p Hp. destruct (arange_values (-1 * p / 2) (p / 2 + 1 / 1000000) (p / 100) ltac:(lra)) as (n & -> & N).
  assert (n = 101)%nat as ->.
  { assert (A : (100 < n)%nat). { apply N. replace (INR 100) with 100 by (rewrite INR_IZR_INZ; reflexivity). lra. }
    assert (B : ~ (101 < n)%nat). { intros B. apply N in B. replace (INR 101) with 101 in B by (rewrite INR_IZR_INZ; reflexivity). lra. }
    lia. }
  eexists. split; [reflexivity|]. split; [lia|]. split; [now rewrite map_length, seq_length|].
  intros k Hk. rewrite map_length, seq_length in Hk. rewrite nth_map_seq by exact Hk. cbn [Nat.add].
  replace (INR 50) with 50 by (rewrite INR_IZR_INZ; reflexivity). field.
Qed.
