(** Lemmas about the fit to the main lobe. *)
From Coq Require Import Reals List Arith ZArith Bool Lra Lia Psatz Sorting.Sorted.
Set Warnings "-ambiguous-paths".
From Coquelicot Require Import Coquelicot.
From Verif Require Import CBase PyRes PyList PyList_Proofs NdArray Synth_Model Synth_Proofs Rmsf_Proofs Setup_Proofs Clean_Grid Cube_Model Peak_Proofs Measure_Laws Mp_Model Mp_Spec Mp_Sums Mp_Fit Lobe_Spec Lobe_Model.
Import ListNotations.
Local Open Scope R_scope.

(** ---------- the peak *)

Lemma argmax_is_peak : forall y k, argmax Rltb y = Some k -> first_peak y k.
Proof.
  intros y k H.
  assert (T : forall a b, Rltb a b = true -> a <= b) by (intros a b E; apply Rltb_true in E; lra).
  assert (F : forall a b, Rltb a b = false -> b <= a) by (intros a b E; apply Rltb_false in E; lra).
  destruct (argmax_spec Rltb Rle Rle_refl Rle_trans T F y k 0 H) as [S1 S2].
  split; [exact S1|]. split; [exact S2|]. intros i Hi. apply Rltb_true.
  apply (argmax_before Rltb Rle Rle_refl Rle_trans T F); auto.
  intros a b c A B. apply Rltb_true in B. apply Rltb_true. lra.
Qed.

Lemma first_peak_unique : forall y k k', first_peak y k -> first_peak y k' -> k = k'.
Proof.
  intros y k k' (A1 & A2 & A3) (B1 & B2 & B3). destruct (lt_eq_lt_dec k k') as [[L|E]|L]; [|exact E|].
  - specialize (B3 k L). specialize (A2 k' B1). lra.
  - specialize (A3 k' L). specialize (B2 k A1). lra.
Qed.

Lemma peak_argmax : forall y k, first_peak y k -> argmax Rltb y = Some k.
Proof.
  intros y k H. destruct (argmax_some Rltb y) as [r E].
  - intros ->. destruct H as [H _]. cbn in H. lia.
  - rewrite E. f_equal. eapply first_peak_unique; [apply argmax_is_peak, E|exact H].
Qed.

Lemma first_none_map : forall (y : list R) i, first_none i (map Some y) = None.
Proof. induction y; intros; cbn; auto. Qed.
Lemma all_some_some : forall {A} (y : list A), all_some (map Some y) = Some y.
Proof. induction y as [|a y IH]; cbn; [reflexivity|]. now rewrite IH. Qed.
Lemma np_argmax_some : forall y, np_argmax (map Some y) = match argmax Rltb y with Some i => POk i | None => PErr end.
Proof. intros. unfold np_argmax. now rewrite first_none_map, all_some_some. Qed.

Lemma first_true_spec : forall {A} (c : A -> bool) l s d, (s < length l)%nat -> c (nth s l d) = true ->
  (forall j, (j < s)%nat -> c (nth j l d) = false) -> first_true c l = Some s.
Proof.
  induction l as [|a l IH]; intros s d Hs Hc Hb; [cbn in Hs; lia|]. cbn [first_true]. destruct s as [|s].
  - cbn in Hc. now rewrite Hc.
  - rewrite (Hb 0%nat ltac:(lia) : c a = false). rewrite (IH s d); [reflexivity|cbn in Hs; lia|exact Hc|].
    intros j Hj. apply (Hb (S j)). lia.
Qed.
Lemma first_true_none : forall {A} (c : A -> bool) l, (forall x, In x l -> c x = false) -> first_true c l = None.
Proof. induction l as [|a l IH]; intros H; cbn; [reflexivity|]. rewrite H by (left; auto). rewrite IH; [reflexivity|]. intros; apply H; now right. Qed.
Lemma first_true_some : forall {A} (c : A -> bool) l s d, first_true c l = Some s ->
  (s < length l)%nat /\ c (nth s l d) = true /\ forall j, (j < s)%nat -> c (nth j l d) = false.
Proof.
  induction l as [|a l IH]; intros s d H; [discriminate|]. cbn in H. destruct (c a) eqn:E.
  - injection H as <-. cbn. split; [lia|]. split; [exact E|]. intros; lia.
  - destruct (first_true c l) as [r|] eqn:F; [|discriminate]. injection H as <-. destruct (IH r d eq_refl) as (H1 & H2 & H3).
    cbn [length nth]. split; [lia|]. split; [exact H2|]. intros [|j] Hj; [exact E|]. apply H3. lia.
Qed.

Lemma nth_skip : forall {A} (l : list A) k i d, nth i (skipn k l) d = nth (k + i) l d.
Proof.
  induction l as [|a l IH]; intros k i d; destruct k as [|k]; cbn [skipn Nat.add]; try reflexivity.
  - destruct i; reflexivity.
  - apply IH.
Qed.

Lemma below_some : forall t (y : list R) i, (i < length y)%nat -> below t (nth i (map Some y) None) = Rltb (nth i y 0) t.
Proof. intros. now rewrite (nth_map_lt Some y i None 0). Qed.

Lemma detect_eq : forall t y k s, first_peak y k -> falls_after t y k s ->
  detect_peak (map Some y) t =
  POk (map (in_slice (length y) (Z.of_nat k - Z.of_nat s + 1) (Z.of_nat k + Z.of_nat s)) (seq 0 (length y))).
Proof.
  intros t y k s P (F1 & F2 & F3). unfold detect_peak. rewrite np_argmax_some, (peak_argmax y k P).
  rewrite (first_true_spec _ _ s None).
  - now rewrite map_length.
  - rewrite skipn_length, map_length. lia.
  - rewrite nth_skip, below_some by lia. now apply Rltb_true.
  - intros j Hj. rewrite nth_skip, below_some by lia. apply Rltb_false. now apply F3.
Qed.

Lemma bound_in : forall n x, (0 <= x <= n)%Z -> py_bound n x = x.
Proof.
  intros n x H. unfold py_bound. destruct (Z.ltb_spec x 0); [lia|]. destruct (Z.ltb_spec x 0); [lia|]. destruct (Z.ltb_spec n x); [lia|reflexivity].
Qed.
Lemma bound_neg : forall n x, (x < 0)%Z -> (0 <= x + n)%Z -> py_bound n x = (x + n)%Z.
Proof.
  intros n x H H'. unfold py_bound. destruct (Z.ltb_spec x 0); [|lia]. destruct (Z.ltb_spec (x + n) 0); [lia|]. destruct (Z.ltb_spec n (x + n)); [lia|reflexivity].
Qed.

(** The mask is one at the samples less than [s] away from the peak. *)
Lemma mask_at : forall n k s i, (s <= k + 1)%nat -> (k + s < n)%nat -> (i < n)%nat ->
  in_slice n (Z.of_nat k - Z.of_nat s + 1) (Z.of_nat k + Z.of_nat s) i = ((k <? i + s)%nat && (i <? k + s)%nat)%bool.
Proof.
  intros n k s i H1 H2 H3. unfold in_slice. rewrite !bound_in by lia.
  destruct (Z.leb_spec (Z.of_nat k - Z.of_nat s + 1) (Z.of_nat i)), (Z.ltb_spec (Z.of_nat i) (Z.of_nat k + Z.of_nat s));
  destruct (Nat.ltb_spec k (i + s)), (Nat.ltb_spec i (k + s)); cbn; try reflexivity; lia.
Qed.

Theorem detect_mask : forall t y k s, first_peak y k -> falls_after t y k s -> (s <= k + 1)%nat ->
  exists msk, detect_peak (map Some y) t = POk msk /\ length msk = length y /\
    forall i, (i < length y)%nat -> (nth i msk false = true <-> (k < i + s /\ i < k + s)%nat).
Proof.
  intros t y k s P F L. rewrite (detect_eq t y k s P F). eexists. split; [reflexivity|]. split; [now rewrite map_length, seq_length|].
  intros i Hi. rewrite nth_map_seq by exact Hi. cbn [Nat.add]. destruct F as (F1 & _). rewrite mask_at by lia.
  rewrite andb_true_iff, !Nat.ltb_lt. tauto.
Qed.

Lemma nth_in_tail : forall {A} (x : A) l k, In x (skipn k l) -> exists i, (k <= i < length l)%nat /\ forall d, nth i l d = x.
Proof.
  intros A x l k H. destruct (In_nth _ _ x H) as (i & Hi & E). rewrite skipn_length in Hi. exists (k + i)%nat. split; [lia|].
  intros d. rewrite <- nth_skip, <- E. apply nth_indep. rewrite skipn_length. lia.
Qed.

(** It is the main lobe above the threshold, when that is symmetric. *)
Theorem detect_lobe : forall t y k s, first_peak y k -> falls_after t y k s -> mirrored y k s ->
  exists msk, detect_peak (map Some y) t = POk msk /\ length msk = length y /\
    forall i, (i < length y)%nat -> (nth i msk false = true <-> joined t y k i).
Proof.
  intros t y k s P F (M1 & M2). destruct (detect_mask t y k s P F ltac:(lia)) as (msk & E & L & H). exists msk. split; [exact E|]. split; [exact L|].
  intros i Hi. rewrite H by exact Hi. clear H E L msk. destruct F as (F1 & F2 & F3). split.
  - intros [A B] j Hj. destruct (le_lt_dec k j).
    + replace j with (k + (j - k))%nat by lia. apply F3. lia.
    + replace j with (k - (k - j))%nat by lia. rewrite M2 by lia. apply F3. lia.
  - intros J. split.
    + apply Nat.nle_gt. intros A. specialize (J (k - s)%nat ltac:(lia)). rewrite M2 in J by lia. lra.
    + apply Nat.nle_gt. intros A. specialize (J (k + s)%nat ltac:(lia)). lra.
Qed.

(** No mask: no samples, or none from the peak on below the threshold. *)
Theorem detect_raises : forall t y,
  detect_peak (map Some y) t = PErr <-> forall k, first_peak y k -> forall i, (k <= i < length y)%nat -> t <= nth i y 0.
Proof.
  intros t y. unfold detect_peak. rewrite np_argmax_some. destruct (argmax Rltb y) as [k|] eqn:E.
  - pose proof (argmax_is_peak y k E) as P. destruct (first_true _ _) as [s|] eqn:F.
    + split; [discriminate|]. intros H. exfalso. apply (first_true_some _ _ s None) in F. destruct F as (F1 & F2 & _).
      rewrite skipn_length, map_length in F1. rewrite nth_skip, below_some in F2 by lia. apply Rltb_true in F2.
      specialize (H k P (k + s)%nat ltac:(lia)). lra.
    + split; [|reflexivity]. intros _ k' P' i Hi. rewrite (first_peak_unique _ _ _ P' P) in Hi. apply Rnot_lt_le. intros L.
      assert (X : exists s, first_true (below t) (skipn k (map Some y)) = Some s); [|destruct X; congruence].
      assert (G : forall l, (exists x, In x l /\ below t x = true) -> exists s, first_true (below t) l = Some s).
      { induction l as [|a l IH]; intros (x & I & B); [destruct I|]. cbn. destruct (below t a) eqn:EB; [eauto|].
        destruct I as [->|I]; [congruence|]. destruct IH as [s Es]; [eauto|]. rewrite Es. cbn. eauto. }
      apply G. exists (nth (i - k) (skipn k (map Some y)) None). split.
      * apply nth_In. rewrite skipn_length, map_length. lia.
      * rewrite nth_skip, below_some by lia. apply Rltb_true. now replace (k + (i - k))%nat with i by lia.
  - split; [|reflexivity]. intros _ k' (P1 & _). destruct y; [cbn in P1; lia|discriminate].
Qed.

(** A peak closer to the first sample than to the fall is not in its own mask. *)
Theorem detect_near_start : forall t y k s, first_peak y k -> falls_after t y k s -> (k + 1 < s)%nat ->
  exists msk, detect_peak (map Some y) t = POk msk /\ nth k msk false = false /\
    forall i, (i < length y)%nat -> (nth i msk false = true <-> (length y + k + 1 <= i + s /\ i < k + s)%nat).
Proof.
  intros t y k s P F L. rewrite (detect_eq t y k s P F). eexists. split; [reflexivity|]. destruct F as (F1 & _).
  assert (H : forall i, (i < length y)%nat -> in_slice (length y) (Z.of_nat k - Z.of_nat s + 1) (Z.of_nat k + Z.of_nat s) i = true <->
     (length y + k + 1 <= i + s /\ i < k + s)%nat).
  { intros i Hi. unfold in_slice. rewrite bound_neg by lia. rewrite bound_in by lia.
    rewrite andb_true_iff, Z.leb_le, Z.ltb_lt. lia. }
  split.
  - rewrite nth_map_seq by lia. cbn [Nat.add]. destruct (in_slice _ _ _ k) eqn:E; [|reflexivity]. apply H in E; lia.
  - intros i Hi. rewrite nth_map_seq by exact Hi. now apply H.
Qed.

(** ---------- which samples are used *)

Lemma filter_around : forall n k s, (s <= k + 1)%nat -> (k + s < n)%nat ->
  filter (fun i => (k <? i + s)%nat && (i <? k + s)%nat) (seq 0 n) = around k s.
Proof.
  intros n k s H1 H2. unfold around.
  replace n with ((k + 1 - s) + ((2 * s - 1) + (n - (k + 1 - s) - (2 * s - 1))))%nat by lia.
  rewrite !seq_app, !filter_app.
  assert (Z : forall a b, (forall i, (a <= i < a + b)%nat -> ((k <? i + s)%nat && (i <? k + s)%nat) = false) ->
    filter (fun i => (k <? i + s)%nat && (i <? k + s)%nat) (seq a b) = []).
  { intros a b. revert a. induction b as [|b IH]; intros a H; cbn [seq filter]; [reflexivity|]. rewrite H by lia. apply IH. intros; apply H; lia. }
  assert (O : forall a b, (forall i, (a <= i < a + b)%nat -> ((k <? i + s)%nat && (i <? k + s)%nat) = true) ->
    filter (fun i => (k <? i + s)%nat && (i <? k + s)%nat) (seq a b) = seq a b).
  { intros a b. revert a. induction b as [|b IH]; intros a H; cbn [seq filter]; [reflexivity|]. rewrite H by lia. f_equal. apply IH. intros; apply H; lia. }
  rewrite Z, O, Z, app_nil_r; [reflexivity| | |];
    intros i Hi; destruct (Nat.ltb_spec k (i + s)), (Nat.ltb_spec i (k + s)); cbn; auto; lia.
Qed.

Lemma filter_and : forall {A} (f g : A -> bool) l, filter (fun x => g x && f x) l = filter f (filter g l).
Proof. induction l as [|a l IH]; cbn; [reflexivity|]. destruct (g a); cbn; [destruct (f a)|]; now rewrite IH. Qed.

Lemma count_map : forall {A} (g : A -> bool) l, length (filter (fun b => b) (map g l)) = length (filter g l).
Proof. induction l as [|a l IH]; cbn; [reflexivity|]. destruct (g a); cbn; now rewrite IH. Qed.

Lemma nth_error_take : forall (x : list R) idx, (forall i, In i idx -> (i < length x)%nat) ->
  all_some (map (nth_error x) idx) = Some (take idx x).
Proof.
  induction idx as [|i idx IH]; intros H; cbn; [reflexivity|].
  rewrite (nth_error_nth' x 0) by (apply H; now left). rewrite IH by (intros; apply H; now right). reflexivity.
Qed.

Lemma take_some : forall (y : list R) idx, (forall i, In i idx -> (i < length y)%nat) ->
  map (fun i => nth i (map Some y) None) idx = map Some (take idx y).
Proof.
  intros y idx H. unfold take. rewrite map_map. apply map_ext_in. intros i Hi. apply (nth_map_lt Some y i None 0). auto.
Qed.

Lemma sorted_filter : forall (f : nat -> bool) a n, StronglySorted lt (filter f (seq a n)).
Proof.
  intros f a n. revert a. induction n as [|n IH]; intros a; cbn [seq filter]; [constructor|].
  destruct (f a); [|apply IH]. constructor; [apply IH|]. apply Forall_forall. intros x Hx. apply filter_In in Hx. destruct Hx as [Hx _]. apply in_seq in Hx. lia.
Qed.
Lemma sorted_nth : forall l i j, StronglySorted lt l -> (i < j < length l)%nat -> (nth i l 0 < nth j l 0)%nat.
Proof.
  induction l as [|a l IH]; intros i j S H; [cbn in H; lia|]. apply StronglySorted_inv in S. destruct S as [S F].
  destruct j as [|j]; [lia|]. cbn in H. destruct i as [|i].
  - cbn. rewrite Forall_forall in F. apply F, nth_In. lia.
  - cbn. apply IH; auto. lia.
Qed.

Lemma used_sorted : forall t y k s, StronglySorted lt (used t y k s).
Proof.
  intros. unfold used, around. destruct (Nat.leb _ _); [apply sorted_filter|].
  replace (seq (k + 1 - s) (2 * s - 1)) with (filter (fun _ => true) (seq (k + 1 - s) (2 * s - 1))); [apply sorted_filter|].
  generalize (k + 1 - s)%nat as a. generalize (2 * s - 1)%nat as b. induction b as [|b IH]; intros a; cbn; [reflexivity|]. now rewrite IH.
Qed.

Lemma used_in : forall t y k s i, In i (used t y k s) -> In i (around k s).
Proof. intros t y k s i. unfold used. destruct (Nat.leb _ _); [|auto]. intros H. now apply filter_In in H. Qed.

Lemma in_around : forall k s i, (s <= k + 1)%nat -> (1 <= s)%nat -> (In i (around k s) <-> (k < i + s /\ i < k + s)%nat).
Proof. intros. unfold around. rewrite in_seq. lia. Qed.

Lemma used_peak : forall t y k s, (1 <= s <= k + 1)%nat -> t <= nth k y 0 -> In k (used t y k s).
Proof.
  intros t y k s Hs H. unfold used. destruct (Nat.leb _ _).
  - apply filter_In. split; [apply in_around; lia|]. destruct (Rle_dec _ _); [reflexivity|contradiction].
  - apply in_around; lia.
Qed.

Lemma used_mirrored : forall t y k s, falls_after t y k s -> mirrored y k s -> (1 <= s)%nat -> used t y k s = around k s.
Proof.
  intros t y k s (F1 & F2 & F3) (M1 & M2) Hs. unfold used. destruct (Nat.leb _ _); [|reflexivity].
  assert (G : forall l, (forall i, In i l -> t <= nth i y 0) -> filter (fun i => if Rle_dec t (nth i y 0) then true else false) l = l).
  { induction l as [|a l IH]; intros H; cbn; [reflexivity|]. destruct (Rle_dec t (nth a y 0)) as [_|N]; [|exfalso; apply N, H; now left].
    f_equal. apply IH. intros; apply H; now right. }
  apply G. intros i Hi. apply in_around in Hi; [|lia|lia].
  destruct (le_lt_dec k i).
  - replace i with (k + (i - k))%nat by lia. apply F3. lia.
  - replace i with (k - (k - i))%nat by lia. rewrite M2 by lia. apply F3. lia.
Qed.

(** The largest of the samples used is that of the peak. *)
Lemma peak_of_used : forall y idx k, first_peak y k -> StronglySorted lt idx -> In k idx -> (forall i, In i idx -> (i < length y)%nat) ->
  exists q, np_argmax (map Some (take idx y)) = POk q /\ (q < length idx)%nat /\ nth q idx 0%nat = k.
Proof.
  intros y idx k (P1 & P2 & P3) S I B. rewrite np_argmax_some. destruct (In_nth idx k 0%nat I) as (q & Hq & Eq).
  assert (V : forall j, (j < length idx)%nat -> nth j (take idx y) 0 = nth (nth j idx 0%nat) y 0).
  { intros j Hj. unfold take. now rewrite (nth_map_lt (fun i => nth i y 0) idx j 0 0%nat). }
  exists q. split; [|auto]. rewrite (peak_argmax _ q); [reflexivity|].
  assert (LT : length (take idx y) = length idx) by (unfold take; now rewrite map_length).
  split; [lia|]. rewrite V by lia. rewrite Eq. split.
  - intros j Hj. rewrite V by lia. apply P2, B, nth_In. lia.
  - intros j Hj. rewrite V by lia. apply P3. rewrite <- Eq. apply sorted_nth; [auto|lia].
Qed.

Lemma extent_of : forall xs, xs <> [] -> exists hi lo, rmax_list xs = Some hi /\ rmin_list xs = Some lo /\ extent xs (hi - lo).
Proof.
  intros xs H. destruct (rmax_list xs) as [a|] eqn:Ea; [|destruct xs; [congruence|discriminate]].
  destruct (rmin_list xs) as [b|] eqn:Eb; [|destruct xs; [congruence|discriminate]].
  exists a, b. split; [reflexivity|]. split; [reflexivity|].
  apply rmax_list_spec in Ea. apply rmin_list_spec in Eb. destruct Ea as [A1 A2], Eb as [B1 B2].
  exists a, b. split; [exact A1|]. split; [exact B1|]. split; [intros l Hl; split; auto|reflexivity].
Qed.

(** The call of the fitter. *)
Lemma fit_eq : forall fuel rest x y t u k s, first_peak y k -> falls_after t y k s -> (1 <= s <= k + 1)%nat -> u <= nth k y 0 ->
  (length y <= length x)%nat ->
  let idx := used u y k s in
  let xs := take idx x in let ys := take idx y in
  exists e, extent xs e /\
  fit_rmsf fuel rest x (map Some y) t u =
  match mpfit fuel (lobe_err xs ys) 3 (length xs) [0; 1; 2]%nat (lobe_start (nth k x 0) e) with
  | None => rest xs (map Some ys)
  | Some PErr => None
  | Some (POk o) => Some o
  end.
Proof.
  intros fuel rest x y t u k s P F Hs Hu Lx idx xs ys. unfold fit_rmsf. rewrite (detect_eq t y k s P F).
  set (n := length y) in *. set (f := in_slice n _ _).
  assert (FE : forall l, (forall i, In i l -> (i < n)%nat) -> filter f l = filter (fun i => (k <? i + s)%nat && (i <? k + s)%nat) l).
  { intros l Hl. apply filter_ext_in. intros i Hi. unfold f. destruct F as (F1 & _). apply mask_at; auto; lia. }
  assert (E2 : map (fun ym : option R * bool => if below u (fst ym) then false else snd ym) (combine (map Some y) (map f (seq 0 n))) =
               map (fun i => f i && (if Rle_dec u (nth i y 0) then true else false)) (seq 0 n)).
  { rewrite (list_as_seq y 0) at 1. fold n. rewrite map_map, combine_map_same, map_map. apply map_ext_in. intros i Hi. cbn [fst snd below].
    unfold Rltb. destruct (Rlt_dec _ _), (Rle_dec _ _); try lra; destruct (f i); reflexivity. }
  rewrite E2. rewrite count_map, filter_and.
  assert (EI : filter (fun i => nth i (if Nat.ltb (length (filter (fun x0 => if Rle_dec u (nth x0 y 0) then true else false) (filter f (seq 0 n)))) 4
                 then map f (seq 0 n) else map (fun i => f i && (if Rle_dec u (nth i y 0) then true else false)) (seq 0 n)) false) (seq 0 (length (map Some y))) = idx).
  { rewrite map_length. fold n. unfold idx, used.
    assert (FA : filter f (seq 0 n) = around k s).
    { rewrite FE by (intros i Hi; apply in_seq in Hi; lia). apply filter_around; [lia|]. destruct F as (F1 & _). exact F1. }
    rewrite FA. set (ab := filter _ (around k s)). destruct (Nat.ltb_spec (length ab) 4), (Nat.leb_spec 4 (length ab)); try lia.
    - rewrite <- FA. apply filter_ext_in. intros i Hi. apply in_seq in Hi. now rewrite nth_map_seq by lia.
    - unfold ab. rewrite <- FA, <- filter_and. apply filter_ext_in. intros i Hi. apply in_seq in Hi. now rewrite nth_map_seq by lia. }
  rewrite EI. clear EI E2 FE. clearbody f.
  assert (IB : forall i, In i idx -> (i < n)%nat).
  { intros i Hi. apply used_in in Hi. apply in_around in Hi; [|lia|lia]. destruct F as (F1 & _). fold n in F1. lia. }
  rewrite nth_error_take by (intros i Hi; specialize (IB i Hi); lia). fold xs.
  rewrite take_some by exact IB. fold ys.
  assert (IK : In k idx) by (apply used_peak; auto).
  destruct (peak_of_used y idx k P (used_sorted u y k s) IK IB) as (q & Eq & Hq & Ek). fold ys in Eq. rewrite Eq.
  assert (NX : xs <> []). { unfold xs, take. destruct idx; [destruct IK|discriminate]. }
  destruct (extent_of xs NX) as (hi & lo & Eh & El & EX). rewrite Eh, El. exists (hi - lo). split; [exact EX|].
  rewrite all_some_some. replace (nth q xs 0) with (nth k x 0); [reflexivity|].
  unfold xs, take. rewrite (nth_map_lt (fun i => nth i x 0) idx q 0 0%nat) by exact Hq. now rewrite Ek.
Qed.

(** ---------- the Gaussian *)

Lemma gauss_eq : forall p x, lobe_gauss p x = gaussian (p 0%nat) (p 1%nat) (p 2%nat) x.
Proof.
  intros p x. unfold lobe_gauss, gaussian, gfactor. cbv zeta. f_equal. f_equal.
  assert (L : 0 < ln 2) by (rewrite <- ln_1; apply ln_increasing; lra).
  assert (G : (2 * sqrt (2 * ln 2)) ^ 2 = 8 * ln 2).
  { rewrite Rpow_mult_distr. rewrite pow2_sqrt by lra. ring. }
  assert (GN : 2 * sqrt (2 * ln 2) <> 0) by (intros E; rewrite E in G; lra).
  set (g := 2 * sqrt (2 * ln 2)) in *. set (w := p 2%nat). set (d := x - p 1%nat).
  destruct (Req_dec w 0) as [->|Hw].
  - unfold Rdiv. rewrite Rmult_0_l. replace (2 * 0 ^ 2) with 0 by ring. rewrite Rinv_0. ring.
  - replace (- d ^ 2 / (2 * (w / g) ^ 2)) with (- (d ^ 2 * g ^ 2 / (2 * w ^ 2))) by (field; auto).
    rewrite G. field. auto.
Qed.

Lemma chi2_distance : forall xs ys p, length xs = length ys ->
  chi2 (length xs) (lobe_err xs ys) p = distance xs ys (p 0%nat) (p 1%nat) (p 2%nat).
Proof.
  intros xs ys p L. unfold chi2, sqlen, dot, total, distance.
  assert (E : combine xs ys = map (fun i => (nth i xs 0, nth i ys 0)) (seq 0 (length xs))).
  { rewrite <- (combine_map_same (fun i => nth i xs 0) (fun i => nth i ys 0)). rewrite L at 2. now rewrite <- !list_as_seq. }
  rewrite E, map_map. f_equal. apply map_ext. intros i. cbn [fst snd]. unfold lobe_err. rewrite gauss_eq. ring.
Qed.
