(** Quantiles, and a model that is NaN inside its prior. *)
From Coq Require Import Reals List Arith ZArith Bool String Lra Lia Permutation Sorted.
Set Warnings "-ambiguous-paths".
From Coquelicot Require Import Coquelicot.
From Verif Require Import CBase PyRes PyList PyList_Proofs PyStr PyStr_Proofs Synth_Spec Measure_Model Measure_Spec Median_Proofs Measure_Proofs QU_Model QU_Spec QU_Proofs QU_Laws QU_Bounds QU_Like.
Import ListNotations.
Local Open Scope R_scope.
Local Notation length := List.length.

Lemma sorted_nth_le : forall v, StronglySorted Rle v -> forall i j, (i <= j)%nat -> (j < length v)%nat -> nth i v 0 <= nth j v 0.
Proof.
  intros v H. induction H as [|x v H IH F]; intros i j Hij Hj; cbn in Hj; [lia|].
  destruct i as [|i], j as [|j]; cbn [nth]; try lra; try lia.
  - rewrite Forall_forall in F. apply F, nth_In. lia.
  - apply IH; lia.
Qed.

(** the value between two neighbours of the sorted sample *)
Lemma quantile_at : forall v q, v <> [] -> 0 <= q <= 1 ->
  let w := rsort v in let h := q * INR (length v - 1) in
  exists k, (k <= length v - 1)%nat /\ INR k <= h < INR k + 1 /\
    quantile q v = nth k w 0 + (h - INR k) * (nth (Nat.min (S k) (length v - 1)) w 0 - nth k w 0).
Proof.
  intros v q Hv Hq w h. pose proof (rsort_perm v) as P. pose proof (Permutation_length P) as L. fold w in P, L.
  assert (N : (0 < length v)%nat) by (destruct v; [contradiction|cbn; lia]).
  assert (Hh : 0 <= h <= INR (length v - 1)). { unfold h. pose proof (pos_INR (length v - 1)). split; [apply Rmult_le_pos; lra|]. nra. }
  pose proof (Rfloor_spec h) as F. assert (Z0 : (0 <= Rfloor h)%Z). { apply Z.lt_succ_r. apply lt_IZR. rewrite succ_IZR. lra. }
  exists (Z.to_nat (Rfloor h)). set (k := Z.to_nat (Rfloor h)). assert (K : INR k = IZR (Rfloor h)) by (unfold k; rewrite INR_IZR_INZ, Z2Nat.id by auto; reflexivity).
  assert (Kn : (k <= length v - 1)%nat) by (apply INR_le; lra). split; [exact Kn|]. split; [lra|].
  unfold quantile. cbv zeta. rewrite <- ?L. fold w. fold h. fold k.
  destruct (Nat.eq_dec k (length v - 1)) as [E|E].
  - replace (h - INR k) with 0 by (rewrite E in *; lra). rewrite ?E. ring.
  - rewrite Nat.min_l by lia. ring.
Qed.

(** C36: quantiles increase, so the error bars are never negative *)
Theorem quantile_mono : forall v p q, v <> [] -> 0 <= p <= q -> q <= 1 -> quantile p v <= quantile q v.
Proof.
  intros v p q Hv Hpq Hq. destruct (quantile_at v p Hv) as (k & Kn & Kh & E1); [lra|]. destruct (quantile_at v q Hv) as (m & Mn & Mh & E2); [lra|].
  rewrite E1, E2. set (w := rsort v) in *. pose proof (Permutation_length (rsort_perm v)) as L. fold w in L. pose proof (rsort_sorted v) as SS. fold w in SS.
  assert (N : (0 < length v)%nat) by (destruct v; [contradiction|cbn; lia]).
  assert (LE : p * INR (length v - 1) <= q * INR (length v - 1)) by (apply Rmult_le_compat_r; [apply pos_INR|lra]).
  set (hp := p * INR (length v - 1)) in *. set (hq := q * INR (length v - 1)) in *.
  assert (KM : (k <= m)%nat). { apply Nat.lt_succ_r. apply INR_lt. rewrite S_INR. lra. }
  pose proof (sorted_nth_le w SS k (Nat.min (S k) (length v - 1)) ltac:(lia) ltac:(lia)) as D1.
  pose proof (sorted_nth_le w SS m (Nat.min (S m) (length v - 1)) ltac:(lia) ltac:(lia)) as D2.
  destruct (Nat.eq_dec k m) as [->|NE].
  - apply Rplus_le_compat_l, Rmult_le_compat_r; lra.
  - pose proof (sorted_nth_le w SS (Nat.min (S k) (length v - 1)) m ltac:(lia) ltac:(lia)) as D3. nra.
Qed.

Theorem error_bars_nonneg : forall l a v plus minus, pa_col a <> [] -> summary l a = (v, plus, minus) -> 0 <= plus /\ 0 <= minus.
Proof.
  intros l a v plus minus Hc H. unfold summary in H. cbv zeta in H. injection H as _ <- <-.
  assert (Hp : posterior l a <> []). { unfold posterior. destruct (to_rotate a); [intros E; apply map_eq_nil in E; contradiction|auto]. }
  pose proof (quantile_mono (posterior l a) (/ 2) (84 / 100) Hp ltac:(lra) ltac:(lra)). pose proof (quantile_mono (posterior l a) (16 / 100) (/ 2) Hp ltac:(lra) ltac:(lra)). lra.
Qed.

(** at least the fraction q of the intervals between samples lies on either side *)
Definition splits_at (q : R) (v : list R) (x : R) : Prop :=
  q * INR (length v - 1) <= INR (count (fun y => Rleb y x) v) /\ (1 - q) * INR (length v - 1) <= INR (count (fun y => Rleb x y) v).

Lemma quantile_splits : forall v q, v <> [] -> 0 <= q <= 1 -> splits_at q v (quantile q v).
Proof.
  intros v q Hv Hq. destruct (quantile_at v q Hv Hq) as (k & Kn & Kh & E). set (w := rsort v) in *. set (h := q * INR (length v - 1)) in *.
  pose proof (rsort_perm v) as P. fold w in P. pose proof (Permutation_length P) as L. pose proof (rsort_sorted v) as SS. fold w in SS.
  assert (N : (0 < length v)%nat) by (destruct v; [contradiction|cbn; lia]).
  assert (B : forall a b, a <= b -> Rleb a b = true) by (intros a b Hab; unfold Rleb; destruct (Rle_dec a b); auto; contradiction).
  assert (D : nth k w 0 <= nth (Nat.min (S k) (length v - 1)) w 0) by (apply sorted_nth; auto; lia).
  assert (T : 0 <= (h - INR k) * (nth (Nat.min (S k) (length v - 1)) w 0 - nth k w 0) <= nth (Nat.min (S k) (length v - 1)) w 0 - nth k w 0).
  { split; [apply Rmult_le_pos; lra|]. set (dd := nth _ w 0 - nth k w 0) in *. assert (0 <= dd) by (unfold dd; lra). nra. }
  unfold splits_at. rewrite !(count_perm _ _ _ P). fold h. split.
  - apply Rle_trans with (INR (S k)); [rewrite S_INR; lra|]. apply le_INR, count_ge; [lia|]. intros i Hi. apply B. rewrite E.
    assert (nth i w 0 <= nth k w 0) by (apply sorted_nth; auto; lia). lra.
  - rewrite (count_perm _ _ _ (Permutation_rev w)). apply Rle_trans with (INR (length v - 1 - k)).
    + rewrite (minus_INR (length v - 1) k) by lia. unfold h in *. lra.
    + apply le_INR, count_ge; [rewrite rev_length; lia|]. intros i Hi. rewrite rev_nth by lia. apply B. rewrite E.
      assert (nth (Nat.min (S k) (length v - 1)) w 0 <= nth (length w - S i) w 0) by (apply sorted_nth; auto; lia). lra.
Qed.

(** C36: the error bars reach from the median to the 16 and 84 percent points of the samples, counted from the same cut as the value *)
Theorem error_bars_spec : forall l a v plus minus, pa_col a <> [] -> (forall x, In x (pa_col a) -> 0 <= x < 180) -> summary l a = (v, plus, minus) ->
  exists o post lo mid hi, Forall2 (fun x y => o = 0 /\ y = x \/ o = 90 /\ same_angle y (x - 90)) (pa_col a) post /\
    splits_at (16 / 100) post lo /\ splits_at (/ 2) post mid /\ splits_at (84 / 100) post hi /\ lo <= mid <= hi /\ plus = hi - mid /\ minus = mid - lo.
Proof.
  intros l a v plus minus Hc Hr H. unfold summary in H. cbv zeta in H. injection H as _ <- <-.
  assert (Hp : posterior l a <> []). { unfold posterior. destruct (to_rotate a); [intros E; apply map_eq_nil in E; contradiction|auto]. }
  exists (if to_rotate a then 90 else 0), (posterior l a). eexists _, _, _. split; [|split; [apply quantile_splits; [exact Hp|]|split; [apply quantile_splits; [exact Hp|]|split; [apply quantile_splits; [exact Hp|]|split; [|split; reflexivity]]]]]; try lra.
  - unfold posterior. clear -Hr. destruct (to_rotate a).
    + induction (pa_col a) as [|x t IH]; [constructor|]. cbn [map]. constructor; [right; split; [reflexivity|apply rotate90_spec, Hr; left; auto]|]. apply IH. intros y Hy. apply Hr. right. auto.
    + induction (pa_col a) as [|x t IH]; [constructor|]. constructor; [left; auto|]. apply IH. intros y Hy. apply Hr. right. auto.
  - split; apply quantile_mono; auto; lra.
Qed.

(** C36: for parameters that are not angles the reported value is the median of the samples *)
Theorem plain_reported : forall l a m, NoDup (map pa_name l) -> In a l -> to_rotate a = false -> median (pa_col a) = Some m ->
  fst (fst (summary l a)) = m.
Proof.
  intros l a m ND Ha T Hm. unfold summary, posterior. rewrite (in_rotated l a ND Ha), !T. cbv zeta. cbn [fst].
  assert (Hc : pa_col a <> []) by (intros E; rewrite E in Hm; discriminate). rewrite (quantile_half _ Hc) in Hm. injection Hm as ->. rewrite !Rmult_0_r. ring.
Qed.

(** C34/C35: model 5 with no depth extent is NaN everywhere, inside its prior, and then beats every other parameter set *)
Theorem m5_nan_refuted : forall l2 q dq u du, errors_ok dq -> errors_ok du ->
  exists d0, samples_of priors5 d0 /\ m5 d0 l2 = POk (repeat None (length l2)) /\
  forall d, samples_of priors5 d -> exists L L0, log_likelihood m5 d l2 q dq u du = POk (Some L) /\ log_likelihood m5 d0 l2 q dq u du = POk (Some L0) /\ L <= L0.
Proof.
  intros l2 q dq u du E1 E2. exists [(s "fracPol", / 2); (s "psi0_deg", 90); (s "RM_radm2", 0); (s "deltaRM_radm2", 0)].
  assert (B : m5 [(s "fracPol", / 2); (s "psi0_deg", 90); (s "RM_radm2", 0); (s "deltaRM_radm2", 0)] l2 = POk (repeat None (length l2))).
  { match goal with |- ?a = _ => assert (a = POk (map (fun l => cdivr (RtoC (/ 2) * e2j (radians 90 + (/ 2 * 0 + 0) * l) * RtoC (sin (0 * l)))%C (0 * l)) l2)) as -> by reflexivity end.
    f_equal. induction l2 as [|x t IH]; [reflexivity|]. cbn [map repeat length]. rewrite IH. f_equal. unfold cdivr. destruct (Req_EM_T (0 * x) 0) as [|N]; [reflexivity|exfalso; apply N; ring]. }
  split; [|split].
  - intros x Hx _. unfold priors5, priors1, uni, ang in Hx. cbn [app In] in Hx. repeat (destruct Hx as [<- |Hx]; [eexists; split; [reflexivity|cbn; lra]|]). destruct Hx.
  - exact B.
  - intros d Hd. destruct (single_models_ok m5 priors5 d l2) as [(sp & Hsp & _) _]; [cbn; auto|exact Hd|]. eapply blank_model_wins; eauto.
Qed.
