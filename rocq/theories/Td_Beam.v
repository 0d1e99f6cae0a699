(** The smoothing of the simulated cubes. *)
From Coq Require Import Reals List Arith ZArith Bool Lia Lra FinFun.
Set Warnings "-ambiguous-paths".
From Coquelicot Require Import Coquelicot.
From Verif Require Import CBase PyRes PyStr PyList PyList_Proofs NdArray NdIndex Measure_Model Td_Model Td_Spec.
Import ListNotations.
Local Notation length := List.length.
Local Open Scope R_scope.

Definition sg : R := 20 / (235 / 100).
Lemma sg_pos : 0 < sg. Proof. unfold sg. lra. Qed.

Lemma radius_sg : radius sg = 34%nat.
Proof.
  unfold radius, py_int. destruct (Rle_dec 0 (4 * sg + / 2)) as [H|H]; [|exfalso; apply H; unfold sg; lra].
  rewrite (Rfloor_unique _ 34); [reflexivity|]. unfold sg. split; lra.
Qed.

Lemma bell_pos : forall s k, 0 < bell s k. Proof. intros. apply exp_pos. Qed.
Lemma bell_even : forall s k, bell s (- k) = bell s k.
Proof. intros. unfold bell. rewrite opp_IZR. f_equal. ring. Qed.

Definition total : R := rsum (map (bell sg) (offsets 34)).

Lemma in_offsets : forall r k, In k (offsets r) <-> (- Z.of_nat r <= k <= Z.of_nat r)%Z.
Proof.
  intros. unfold offsets. rewrite in_map_iff. split.
  - intros (i & <- & H). apply in_seq in H. lia.
  - intros H. exists (Z.to_nat (k + Z.of_nat r)). split; [lia|]. apply in_seq. lia.
Qed.

Lemma nodup_offsets : forall r, NoDup (offsets r).
Proof.
  intros. unfold offsets. apply Injective_map_NoDup; [|apply seq_NoDup].
  intros a b H. lia.
Qed.

Lemma rsum_pos_in : forall {A} (f : A -> R) l x, (forall y, In y l -> 0 <= f y) -> In x l -> 0 < f x -> 0 < rsum (map f l).
Proof.
  induction l as [|a l IH]; intros x H I P; [destruct I|].
  change (rsum (map f (a :: l))) with (f a + rsum (map f l)).
  destruct I as [->|I].
  - assert (0 <= rsum (map f l)). { apply rsum_nonneg. intros y Hy. apply in_map_iff in Hy. destruct Hy as (z & <- & Hz). apply H. now right. }
    lra.
  - assert (0 <= f a) by (apply H; now left). assert (0 < rsum (map f l)) by (apply (IH x); auto; intros; apply H; now right). lra.
Qed.

Lemma total_pos : 0 < total.
Proof.
  apply (rsum_pos_in _ _ 0%Z); [intros; left; apply bell_pos| |apply bell_pos]. apply in_offsets. lia.
Qed.

Lemma weight_sg : forall k, weight sg k = bell sg k / total.
Proof. intros. unfold weight. rewrite radius_sg. reflexivity. Qed.

(** the periodic kernel *)
Definition ker (n x i : nat) : R := rsum (map (fun k => if (wrap n x k =? i)%nat then weight sg k else 0) (offsets 34)).

Lemma osum_some : forall {A} (f : A -> R) l, osum (map (fun x => Some (f x)) l) = Some (rsum (map f l)).
Proof. induction l as [|a l IH]; [reflexivity|]. simpl. unfold osum in IH |- *. simpl. rewrite IH. reflexivity. Qed.

Lemma osum_list : forall l, osum (map Some l) = Some (rsum l).
Proof. intros. rewrite <- (map_id l) at 2. apply (osum_some (fun x => x)). Qed.

Lemma rsum_pick : forall n i (v : R), (i < n)%nat -> rsum (map (fun j => if (i =? j)%nat then v else 0) (seq 0 n)) = v.
Proof.
  intros n i v H. replace n with (i + (1 + (n - i - 1)))%nat by lia.
  rewrite !seq_app, !map_app, !rsum_app. simpl seq. simpl map at 2.
  rewrite Nat.eqb_refl.
  rewrite (rsum_zero _ (seq 0 i)), (rsum_zero _ (seq (i + 1) _)).
  - change (rsum [v]) with (v + 0). ring.
  - intros x Hx. apply in_seq in Hx. destruct (Nat.eqb_spec i x); [lia|reflexivity].
  - intros x Hx. apply in_seq in Hx. destruct (Nat.eqb_spec i x); [lia|reflexivity].
Qed.

Lemma rsum_swap : forall {A B} (f : A -> B -> R) l m,
  rsum (map (fun a => rsum (map (f a) m)) l) = rsum (map (fun b => rsum (map (fun a => f a b) l)) m).
Proof.
  induction l as [|a l IH]; intros m.
  - symmetry. apply rsum_zero. reflexivity.
  - change (rsum (map (fun a0 => rsum (map (f a0) m)) (a :: l))) with (rsum (map (f a) m) + rsum (map (fun a => rsum (map (f a) m)) l)).
    rewrite IH, <- rsum_map_plus. apply rsum_map_ext. intros. reflexivity.
Qed.

Lemma wrap_lt : forall n x k, (0 < n)%nat -> (wrap n x k < n)%nat.
Proof. intros. unfold wrap. assert (0 <= (Z.of_nat x + k) mod Z.of_nat n < Z.of_nat n)%Z by (apply Z.mod_pos_bound; lia). lia. Qed.

(** a row filtered with the kernel *)
Lemma filter_row : forall n x (g : nat -> R), (0 < n)%nat ->
  rsum (map (fun k => weight sg k * g (wrap n x k)) (offsets 34)) = rsum (map (fun i => ker n x i * g i) (seq 0 n)).
Proof.
  intros n x g Hn. unfold ker.
  rewrite (rsum_map_ext (fun i => rsum (map (fun k => if (wrap n x k =? i)%nat then weight sg k else 0) (offsets 34)) * g i)
            (fun i => rsum (map (fun k => (if (wrap n x k =? i)%nat then weight sg k else 0) * g i) (offsets 34)))).
  2:{ intros i _. rewrite Rmult_comm, <- rsum_map_scal. apply rsum_map_ext. intros. ring. }
  rewrite rsum_swap. apply rsum_map_ext. intros k _.
  rewrite <- (rsum_pick n (wrap n x k) (weight sg k * g (wrap n x k))) by (apply wrap_lt; auto).
  apply rsum_map_ext. intros i _. destruct (Nat.eqb_spec (wrap n x k) i) as [->|]; ring.
Qed.

Lemma tab_ext : forall {A} sh (f g : list nat -> A), (forall idx, valid sh idx -> f idx = g idx) -> tab_nd sh f = tab_nd sh g.
Proof. intros. unfold tab_nd. f_equal. apply map_ext_in. intros. apply H, in_indices. assumption. Qed.

Lemma valid3 : forall a b c idx, valid [a; b; c] idx -> exists x y z, idx = [x; y; z] /\ (x < a)%nat /\ (y < b)%nat /\ (z < c)%nat.
Proof.
  intros a b c idx H. inversion H as [|x ? l ? Hx H1]; subst. inversion H1 as [|y ? l1 ? Hy H2]; subst.
  inversion H2 as [|z ? l2 ? Hz H3]; subst. inversion H3; subst. exists x, y, z. auto.
Qed.
Lemma mk_valid3 : forall a b c x y z, (x < a)%nat -> (y < b)%nat -> (z < c)%nat -> valid [a; b; c] [x; y; z].
Proof. intros. repeat constructor; auto. Qed.

(** a cube given by a function *)
Definition cube (n nf : nat) (g : nat -> nat -> nat -> R) : nd (option R) :=
  tab_nd [n; n; nf] (fun idx => Some (g (nth 0 idx 0%nat) (nth 1 idx 0%nat) (nth 2 idx 0%nat))).
Definition conv (n : nat) (g : nat -> nat -> nat -> R) (x y c : nat) : R :=
  rsum (map (fun i => rsum (map (fun j => ker n x i * ker n y j * g i j c) (seq 0 n))) (seq 0 n)).

Lemma filter_x : forall n nf g, (0 < n)%nat ->
  filter1d 0 sg (cube n nf g) = cube n nf (fun x y c => rsum (map (fun i => ker n x i * g i y c) (seq 0 n))).
Proof.
  intros n nf g Hn. unfold filter1d. rewrite radius_sg. unfold cube at 1 3. apply tab_ext. intros idx V.
  destruct (valid3 _ _ _ _ V) as (x & y & c & -> & Hx & Hy & Hc). simpl nth.
  rewrite <- (filter_row n x (fun i => g i y c) Hn).
  rewrite <- (osum_some (fun k => weight sg k * g (wrap n x k) y c)). f_equal. apply map_ext. intros k.
  unfold put. simpl firstn. simpl skipn. simpl app.
  unfold cube. change (shape (tab_nd [n; n; nf] _)) with [n; n; nf]. simpl nth.
  rewrite at_tab_nd; [reflexivity|]. apply mk_valid3; auto. apply wrap_lt; auto.
Qed.

Lemma filter_y : forall n nf g, (0 < n)%nat ->
  filter1d 1 sg (cube n nf g) = cube n nf (fun x y c => rsum (map (fun j => ker n y j * g x j c) (seq 0 n))).
Proof.
  intros n nf g Hn. unfold filter1d. rewrite radius_sg. unfold cube at 1 3. apply tab_ext. intros idx V.
  destruct (valid3 _ _ _ _ V) as (x & y & c & -> & Hx & Hy & Hc). simpl nth.
  rewrite <- (filter_row n y (fun j => g x j c) Hn).
  rewrite <- (osum_some (fun k => weight sg k * g x (wrap n y k) c)). f_equal. apply map_ext. intros k.
  unfold put. simpl firstn. simpl skipn. simpl app.
  unfold cube. change (shape (tab_nd [n; n; nf] _)) with [n; n; nf]. simpl nth.
  rewrite at_tab_nd; [reflexivity|]. apply mk_valid3; auto. apply wrap_lt; auto.
Qed.

Lemma cube_ext : forall n nf g h, (forall x y c, (x < n)%nat -> (y < n)%nat -> (c < nf)%nat -> g x y c = h x y c) -> cube n nf g = cube n nf h.
Proof.
  intros. unfold cube. apply tab_ext. intros idx V.
  destruct (valid3 _ _ _ _ V) as (x & y & c & -> & Hx & Hy & Hc). simpl nth. rewrite H; auto.
Qed.

Lemma gaussian_cube : forall n nf g, (0 < n)%nat -> gaussian_filter (cube n nf g) [sg; sg; 0] = cube n nf (conv n g).
Proof.
  intros n nf g Hn. unfold gaussian_filter. simpl combine. simpl fold_left.
  assert (P : / 10 ^ 15 < sg). { apply Rlt_trans with (/ 1); [|unfold sg; lra]. apply Rinv_lt_contravar; lra. }
  destruct (Rlt_dec (/ (10 * (10 * (10 * (10 * (10 * (10 * (10 * (10 * (10 * (10 * (10 * (10 * (10 * (10 * (10 * 1)))))))))))))))) sg) as [_|N]; [|contradiction N; exact P].
  destruct (Rlt_dec _ 0) as [N|_].
  { exfalso. assert (0 < / 10 ^ 15) by (apply Rinv_0_lt_compat; lra). simpl pow in H. lra. }
  rewrite filter_x, filter_y by auto. apply cube_ext. intros x y c _ _ _. unfold conv.
  rewrite (rsum_map_ext (fun j => ker n y j * rsum (map (fun i => ker n x i * g i j c) (seq 0 n)))
     (fun j => rsum (map (fun i => ker n x i * ker n y j * g i j c) (seq 0 n)))).
  2:{ intros j _. rewrite <- rsum_map_scal. apply rsum_map_ext. intros. ring. }
  apply (rsum_swap (fun j i => ker n x i * ker n y j * g i j c)).
Qed.

(* ------------------------------------------------- the kernel on a big image *)

Lemma rsum_unique : forall (f : Z -> R) (P : Z -> bool) l k, NoDup l -> In k l -> P k = true ->
  (forall j, In j l -> P j = true -> j = k) -> rsum (map (fun j => if P j then f j else 0) l) = f k.
Proof.
  induction l as [|a l IH]; intros k N I Hk U; [destruct I|].
  change (rsum (map (fun j => if P j then f j else 0) (a :: l))) with ((if P a then f a else 0) + rsum (map (fun j => if P j then f j else 0) l)).
  inversion N as [|? ? Na Nl]; subst. destruct I as [->|I].
  - rewrite Hk, rsum_zero; [ring|]. intros j Hj. destruct (P j) eqn:E; auto. exfalso. apply Na.
    rewrite <- (U j); auto. now right.
  - destruct (P a) eqn:E.
    + exfalso. apply Na. rewrite (U a); auto. now left.
    + rewrite (IH k); auto; [ring|]. intros; apply U; auto; now right.
Qed.

Lemma wrap_eq : forall n x i k, (0 < n)%nat -> (i < n)%nat ->
  (wrap n x k =? i)%nat = true <-> exists q, (Z.of_nat x + k = Z.of_nat i + q * Z.of_nat n)%Z.
Proof.
  intros n x i k Hn Hi. rewrite Nat.eqb_eq. unfold wrap. split.
  - intros E. exists ((Z.of_nat x + k) / Z.of_nat n)%Z.
    assert (D := Z.div_mod (Z.of_nat x + k) (Z.of_nat n)). 
    assert (0 <= (Z.of_nat x + k) mod Z.of_nat n < Z.of_nat n)%Z by (apply Z.mod_pos_bound; lia). lia.
  - intros [q E]. rewrite E, Z.mod_add by lia. rewrite Z.mod_small by lia. lia.
Qed.

Lemma ker_beam : forall n x i, (69 <= n)%nat -> (x < n)%nat -> (i < n)%nat -> ker n x i = beam n x i / total.
Proof.
  intros n x i Hn Hx Hi. unfold ker, beam.
  destruct (Nat.leb_spec (ring n x i) 34) as [L|G].
  - assert (K0 : exists k, In k (offsets 34) /\ (wrap n x k =? i)%nat = true /\ (k = Z.of_nat (ring n x i) \/ k = - Z.of_nat (ring n x i))%Z).
    { unfold ring in *. destruct (Nat.le_gt_cases (x - i + (i - x)) (n - (x - i + (i - x)))) as [C|C].
      - rewrite Nat.min_l in * by lia. exists (Z.of_nat i - Z.of_nat x)%Z. rewrite in_offsets, wrap_eq by lia.
        split; [lia|]. split; [exists 0%Z; lia|lia].
      - rewrite Nat.min_r in * by lia. destruct (Nat.le_gt_cases x i).
        + exists (Z.of_nat i - Z.of_nat x - Z.of_nat n)%Z. rewrite in_offsets, wrap_eq by lia.
          split; [lia|]. split; [exists (-1)%Z; lia|lia].
        + exists (Z.of_nat i - Z.of_nat x + Z.of_nat n)%Z. rewrite in_offsets, wrap_eq by lia.
          split; [lia|]. split; [exists 1%Z; lia|lia]. }
    destruct K0 as (k & I & W & Ek).
    rewrite (rsum_unique (weight sg) (fun k => (wrap n x k =? i)%nat) _ k); auto using nodup_offsets.
    + rewrite weight_sg. f_equal.
      assert (B : bell sg k = bell sg (Z.of_nat (ring n x i))) by (destruct Ek as [-> | ->]; [reflexivity|apply bell_even]).
      rewrite B. unfold bell. rewrite <- INR_IZR_INZ. f_equal. unfold sg. field.
    + intros j Hj Ej. apply in_offsets in I. apply in_offsets in Hj. apply wrap_eq in W; try lia. apply wrap_eq in Ej; try lia.
      destruct W as [q W]. destruct Ej as [q' Ej]. assert (q = q') by nia. subst. lia.
  - rewrite rsum_zero; [unfold Rdiv; ring|]. intros k Hk. destruct (wrap n x k =? i)%nat eqn:E; auto. exfalso.
    apply in_offsets in Hk. apply wrap_eq in E; try lia. destruct E as [q E].
    unfold ring in G.
    assert (q = 0 \/ q = 1 \/ q = -1)%Z by nia. destruct H as [->|[->| ->]]; lia.
Qed.

Lemma conv_blur : forall n g x y c, (69 <= n)%nat -> (x < n)%nat -> (y < n)%nat ->
  conv n g x y c = blur n g x y c / total ^ 2.
Proof.
  intros n g x y c Hn Hx Hy. unfold conv, blur.
  assert (T0 := total_pos).
  unfold Rdiv. rewrite Rmult_comm, <- rsum_map_scal. apply rsum_map_ext. intros i Hi. rewrite <- rsum_map_scal.
  apply rsum_map_ext. intros j Hj. apply in_seq in Hi. apply in_seq in Hj. rewrite !ker_beam by lia. field. lra.
Qed.

Lemma ker_nonneg : forall n x i, 0 <= ker n x i.
Proof.
  intros. apply rsum_nonneg. intros v Hv. apply in_map_iff in Hv. destruct Hv as (k & <- & _).
  destruct (wrap n x k =? i)%nat; [|lra]. rewrite weight_sg. left. apply Rdiv_lt_0_compat; [apply bell_pos|apply total_pos].
Qed.
Lemma ker_self : forall n x, (x < n)%nat -> 0 < ker n x x.
Proof.
  intros n x H. apply (rsum_pos_in _ _ 0%Z).
  - intros k _. destruct (wrap n x k =? x)%nat; [|lra]. rewrite weight_sg. left. apply Rdiv_lt_0_compat; [apply bell_pos|apply total_pos].
  - apply in_offsets. lia.
  - destruct (wrap n x 0 =? x)%nat eqn:E.
    + rewrite weight_sg. apply Rdiv_lt_0_compat; [apply bell_pos|apply total_pos].
    + exfalso. assert (H1 : (wrap n x 0 =? x)%nat = true) by (apply wrap_eq; try lia; exists 0%Z; lia). congruence.
Qed.

Lemma conv_point : forall n sx sy (v : nat -> R) x y c, (sx < n)%nat -> (sy < n)%nat ->
  conv n (fun i j c => if (i =? sx)%nat && (j =? sy)%nat then v c else 0) x y c = ker n x sx * ker n y sy * v c.
Proof.
  intros n sx sy v x y c Hx Hy. unfold conv.
  rewrite (rsum_map_ext _ (fun i => if (sx =? i)%nat then ker n x sx * ker n y sy * v c else 0)).
  - apply rsum_pick. exact Hx.
  - intros i _. destruct (Nat.eqb_spec i sx) as [->|N]; simpl andb.
    + rewrite Nat.eqb_refl. rewrite <- (rsum_pick n sy (ker n x sx * ker n y sy * v c)) by exact Hy.
      apply rsum_map_ext. intros j _. destruct (Nat.eqb_spec j sy) as [->|M]; [rewrite Nat.eqb_refl; reflexivity|].
      destruct (Nat.eqb_spec sy j); [congruence|ring].
    + destruct (Nat.eqb_spec sx i); [congruence|]. apply rsum_zero. intros; ring.
Qed.

(* --------------------------------------------------------- facts on the beam *)
Lemma ring_0 : forall n i j, (i < n)%nat -> (j < n)%nat -> ring n i j = 0%nat <-> i = j.
Proof. intros. unfold ring. split; lia. Qed.
Lemma beam_centre : forall n i, beam n i i = 1.
Proof. intros. unfold beam, ring. rewrite !Nat.sub_diag. simpl. replace (- (0 * (0 * 1)) / (2 * _)) with 0 by (unfold Rdiv; ring). apply exp_0. Qed.
Lemma beam_range : forall n i j, 0 <= beam n i j <= 1.
Proof.
  intros. unfold beam. destruct (_ <=? _)%nat; [|lra]. split; [left; apply exp_pos|].
  rewrite <- exp_0. assert (H : - INR (ring n i j) ^ 2 / (2 * (20 / (235 / 100)) ^ 2) <= 0).
  { assert (0 <= INR (ring n i j) ^ 2) by apply pow2_ge_0. unfold Rdiv at 1.
    assert (0 < / (2 * (20 / (235 / 100)) ^ 2)) by (apply Rinv_0_lt_compat; nra). nra. }
  destruct H as [H|H]; [left; apply exp_increasing; exact H|rewrite H; lra].
Qed.
Lemma beam_less : forall n i j, (i < n)%nat -> (j < n)%nat -> i <> j -> beam n i j < 1.
Proof.
  intros n i j Hi Hj N. unfold beam. destruct (_ <=? _)%nat; [|lra].
  rewrite <- exp_0. apply exp_increasing.
  assert (0 < INR (ring n i j)). { apply lt_0_INR. assert (ring n i j <> 0%nat) by (rewrite ring_0; auto). lia. }
  assert (0 < INR (ring n i j) ^ 2) by (apply pow_lt; auto). unfold Rdiv at 1.
  assert (0 < / (2 * (20 / (235 / 100)) ^ 2)) by (apply Rinv_0_lt_compat; nra). nra.
Qed.
