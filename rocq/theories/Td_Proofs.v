(** The simulated cubes. *)
From Coq Require Import Reals List Arith ZArith Bool Lia Lra Ascii String.
Set Warnings "-ambiguous-paths".
From Coquelicot Require Import Coquelicot.
From Verif Require Import CBase PyRes PyStr PyList PyList_Proofs NdArray NdIndex Measure_Model Synth_Spec Td_Model Td_Spec Td_Beam.
Import ListNotations.
Local Notation length := List.length.
Local Open Scope R_scope.

(* ------------------------------------------------------------ thin sources *)

Lemma QU_thin : forall p rm a f, f <> 0 -> QU_of p rm a f = Some (thin p (deg a) rm (lam2 f)).
Proof.
  intros. unfold QU_of. destruct (Req_EM_T f 0); [contradiction|]. unfold thin, cis, lam2, light, deg, radians.
  f_equal. unfold Cmult, RtoC. simpl. f_equal; rewrite ?Rmult_0_l, ?Rminus_0_r, ?Rplus_0_r; do 2 f_equal; ring.
Qed.

(** one value, or one for each source *)
Definition one_or (m : nat) (l : list R) : Prop := length l = m \/ length l = 1%nat.
Definition pick (l : list R) (k : nat) : R := nth (if (length l =? 1)%nat then 0 else k) l 0.

Lemma bcast_spec : forall {A B} (a : list A) (b : list B) m da db,
  (length a = m \/ length a = 1%nat) -> (length b = m \/ length b = 1%nat) -> (length a = m \/ length b = m) ->
  exists r, bcast a b = POk r /\ length r = m /\
    forall k, (k < m)%nat -> nth k r (da, db) = (nth (if (length a =? 1)%nat then 0 else k) a da, nth (if (length b =? 1)%nat then 0 else k) b db).
Proof.
  intros A B a b m da db Ha Hb Hm. unfold bcast. destruct (Nat.eqb_spec (length a) (length b)) as [E|N].
  - exists (combine a b). split; [reflexivity|]. split; [rewrite combine_length; lia|].
    intros k Hk. rewrite combine_nth by exact E. rewrite <- E.
    destruct (Nat.eqb_spec (length a) 1); [|reflexivity]. replace k with 0%nat by lia. reflexivity.
  - destruct Ha as [Ha|Ha].
    + assert (Lb : length b = 1%nat) by lia. destruct b as [|y [|]]; try discriminate Lb.
      assert (R : match a with [x] => POk (map (fun y0 => (x, y0)) [y]) | _ => POk (map (fun x => (x, y)) a) end = POk (map (fun x => (x, y)) a)).
      { destruct a as [|x [|]]; reflexivity. }
      exists (map (fun x => (x, y)) a). split.
      * destruct a as [|x [|x' a]]; try reflexivity.
      * split; [rewrite map_length; lia|]. intros k Hk.
        set (g := fun x => (x, y)). rewrite (nth_indep _ _ (g da)) by (rewrite map_length; lia). rewrite map_nth. unfold g. simpl.
        destruct (Nat.eqb_spec (length a) 1); [exfalso; simpl in N; lia|reflexivity].
    + destruct a as [|x [|]]; try discriminate Ha. simpl in N.
      exists (map (fun y => (x, y)) b). split; [destruct b as [|y [|]]; reflexivity|]. split; [rewrite map_length; simpl in *; lia|].
      intros k Hk. set (g := fun y => (x, y)). rewrite (nth_indep _ _ (g db)) by (rewrite map_length; simpl in *; lia). rewrite map_nth. unfold g. simpl.
      destruct (Nat.eqb_spec (length b) 1); [exfalso; lia|reflexivity].
Qed.

Lemma nth_rows : forall {A B} (f : A -> list B) nf l k j (da : A) (db : B), (forall a, length (f a) = nf) -> (k < length l)%nat -> (j < nf)%nat ->
  nth (k * nf + j) (flat_map f l) db = nth j (f (nth k l da)) db.
Proof.
  intros A B f nf l. induction l as [|a l IH]; intros k j da db L Hk Hj; [simpl in Hk; lia|]. simpl flat_map. destruct k as [|k].
  - simpl. rewrite app_nth1; [reflexivity|rewrite L; lia].
  - rewrite app_nth2; rewrite L; [|simpl; lia]. replace (S k * nf + j - nf)%nat with (k * nf + j)%nat by (simpl; lia).
    simpl nth. apply IH; auto. simpl in Hk. lia.
Qed.

(** several sources at once *)
Lemma thin_many : forall freq RM pol angle m, one_or m RM -> one_or m pol -> one_or m angle -> (length RM = m \/ length angle = m \/ length pol = m) ->
  exists r, thin_polarization freq RM pol angle = POk r /\
    shape r = filter (fun d => negb (d =? 1)%nat) [m; length freq] /\ length (flat r) = (m * length freq)%nat /\
    forall k j, (k < m)%nat -> (j < length freq)%nat -> nth j freq 0 <> 0 ->
      nth (k * length freq + j) (flat r) None = Some (thin (pick pol k) (deg (pick angle k)) (pick RM k) (lam2 (nth j freq 0))).
Proof.
  intros freq RM pol angle m HR HP HA Hm. unfold thin_polarization.
  set (m1 := if (length RM =? 1)%nat then length angle else length RM).
  destruct (bcast_spec RM angle m1 0 0) as (c1 & E1 & L1 & N1).
  { unfold m1. destruct (Nat.eqb_spec (length RM) 1); auto. }
  { unfold m1, one_or in *. destruct (Nat.eqb_spec (length RM) 1); auto. lia. }
  { unfold m1. destruct (Nat.eqb_spec (length RM) 1); auto. }
  rewrite E1. simpl pybind.
  assert (M1 : m1 = m \/ m1 = 1%nat) by (unfold m1, one_or in *; destruct (Nat.eqb_spec (length RM) 1); lia).
  destruct (bcast_spec pol c1 m 0 (0, 0)) as (c2 & E2 & L2 & N2); rewrite ?L1; auto.
  { unfold m1, one_or in *. destruct (Nat.eqb_spec (length RM) 1); lia. }
  rewrite E2. simpl pybind. eexists. split; [reflexivity|]. split; [simpl shape; rewrite L2; reflexivity|]. split.
  - simpl flat. clear - L2. revert m L2. induction c2 as [|a l IH]; intros m <-; [reflexivity|].
    simpl. rewrite app_length, map_length, (IH (length l)) by reflexivity. reflexivity.
  - intros k j Hk Hj Hf. simpl flat.
    rewrite (nth_rows _ (length freq) _ _ _ (0, (0, 0))); [|intros; apply map_length|rewrite L2; exact Hk|exact Hj].
    rewrite N2 by exact Hk. cbn [fst snd].
    assert (P1 : forall k', (k' < m1)%nat -> nth k' c1 (0, 0) = (pick RM k', pick angle k')) by (intros; rewrite N1; auto).
    rewrite L1.
    assert (P2 : nth (if (m1 =? 1)%nat then 0 else k) c1 (0, 0) = (pick RM k, pick angle k)).
    { destruct (Nat.eqb_spec m1 1) as [E|E].
      - rewrite P1 by lia. unfold pick. unfold m1 in E. destruct (Nat.eqb_spec (length RM) 1) as [E'|]; [|lia].
        rewrite E. reflexivity.
      - rewrite P1 by lia. reflexivity. }
    rewrite P2. cbn [fst snd].
    set (g := QU_of _ _ _). rewrite (nth_indep _ None (g 0)) by (rewrite map_length; exact Hj). rewrite map_nth. unfold g.
    rewrite QU_thin by exact Hf. reflexivity.
Qed.

Lemma thin_one : forall freq rm p a, thin_polarization freq [rm] [p] [a] = POk (squeeze (mk_nd [1%nat; length freq] (map (QU_of p rm a) freq))).
Proof. intros. unfold thin_polarization. simpl. rewrite app_nil_r. reflexivity. Qed.

(** the length is the intensity *)
Lemma thin_mod : forall p psi RM l2, Cmod (thin p psi RM l2) = Rabs p.
Proof. intros. unfold thin. rewrite Cmod_mult, Cmod_cis, Cmod_R. ring. Qed.

Lemma thin_mismatch : forall freq RM pol angle, length RM <> length angle -> length RM <> 1%nat -> length angle <> 1%nat ->
  thin_polarization freq RM pol angle = PErr.
Proof.
  intros. unfold thin_polarization, bcast. destruct (Nat.eqb_spec (length RM) (length angle)); [contradiction|].
  destruct RM as [|x [|]], angle as [|y [|]]; simpl in *; try lia; reflexivity.
Qed.

(* --------------------------------------------------------------- the cubes *)

Definition vals (n nf : nat) (g : nat -> nat -> nat -> R) : list R :=
  map (fun idx => g (nth 0 idx 0%nat) (nth 1 idx 0%nat) (nth 2 idx 0%nat)) (indices [n; n; nf]).

Lemma vals_voxels : forall n nf g, vals n nf g = voxels n nf g.
Proof.
  intros. unfold vals, voxels. simpl indices. rewrite flat_map_concat_map, concat_map, map_map, <- flat_map_concat_map.
  apply flat_map_ext. intros x. rewrite map_map, flat_map_concat_map, concat_map, map_map, <- flat_map_concat_map.
  apply flat_map_ext. intros y. rewrite map_map. rewrite flat_map_concat_map, concat_map, map_map.
  induction (seq 0 nf) as [|z l IH]; [reflexivity|]. simpl. f_equal. exact IH.
Qed.

Lemma flat_cube : forall n nf g, flat (cube n nf g) = map Some (vals n nf g).
Proof. intros. unfold cube, vals, tab_nd. simpl flat. rewrite map_map. reflexivity. Qed.

Lemma in_vals : forall n nf g v, In v (vals n nf g) <-> exists x y c, (x < n)%nat /\ (y < n)%nat /\ (c < nf)%nat /\ v = g x y c.
Proof.
  intros. unfold vals. rewrite in_map_iff. split.
  - intros (idx & <- & V). apply in_indices in V. destruct (valid3 _ _ _ _ V) as (x & y & c & -> & Hx & Hy & Hc).
    exists x, y, c. auto.
  - intros (x & y & c & Hx & Hy & Hc & ->). exists [x; y; c]. split; [reflexivity|]. apply in_indices, mk_valid3; auto.
Qed.

Lemma length_vals : forall n nf g, length (vals n nf g) = (n * (n * nf))%nat.
Proof. intros. unfold vals. rewrite map_length, length_indices. unfold prodn. simpl. rewrite Nat.mul_1_r. reflexivity. Qed.

Lemma combine_map2 : forall {A B C} (f : A -> B) (g : A -> C) l, combine (map f l) (map g l) = map (fun x => (f x, g x)) l.
Proof. induction l; simpl; f_equal; auto. Qed.

Lemma zipf_cube : forall f F n nf g h, (forall a b, f (Some a) (Some b) = Some (F a b)) ->
  zipf f (cube n nf g) (cube n nf h) = cube n nf (fun x y c => F (g x y c) (h x y c)).
Proof.
  intros. unfold zipf, cube, tab_nd. simpl shape. simpl flat. f_equal. rewrite combine_map2, map_map. apply map_ext. intros. apply H.
Qed.

Lemma divall_cube : forall n nf g s, s <> 0 -> divall (cube n nf g) (Some s) = cube n nf (fun x y c => g x y c / s).
Proof.
  intros. unfold divall, cube, tab_nd. simpl shape. simpl flat. f_equal. rewrite map_map. apply map_ext. intros. simpl.
  destruct (Req_EM_T s 0); [contradiction|reflexivity].
Qed.

Lemma fold_max : forall l x, exists M, fold_left (o2 Rmax) (map Some l) (Some x) = Some M /\ In M (x :: l) /\ forall v, In v (x :: l) -> v <= M.
Proof.
  induction l as [|a l IH]; intros x.
  - exists x. split; [reflexivity|]. split; [now left|]. intros v [->|[]]. lra.
  - simpl. destruct (IH (Rmax x a)) as (M & E & I & U). exists M. split; [exact E|]. split.
    + destruct I as [I|I]; [|now right; right]. rewrite <- I. unfold Rmax. destruct (Rle_dec x a); [right; now left|now left].
    + intros v [->|[->|Hv]].
      * apply Rle_trans with (Rmax v a); [apply Rmax_l|apply U; now left].
      * apply Rle_trans with (Rmax x v); [apply Rmax_r|apply U; now left].
      * apply U. now right.
Qed.

Lemma omaxi_spec : forall l, l <> [] -> exists M, omaxi (map Some l) = POk (Some M) /\ In M l /\ forall v, In v l -> v <= M.
Proof.
  intros [|x l] N; [contradiction|]. destruct (fold_max l x) as (M & E & H). exists M. simpl. rewrite E. auto.
Qed.

Lemma avg_sq_nonneg : forall l m, 0 <= avg (map (fun x => (x - m) ^ 2) l).
Proof.
  intros. unfold avg. rewrite map_length. apply Rmult_le_pos.
  - apply rsum_nonneg. intros v Hv. apply in_map_iff in Hv. destruct Hv as (x & <- & _). apply pow2_ge_0.
  - destruct l as [|a l]; [simpl; rewrite Rinv_0; lra|]. left. apply Rinv_0_lt_compat, lt_0_INR. simpl. lia.
Qed.

Lemma ostd_spec : forall l, l <> [] -> ostd (map Some l) = Some (dev l).
Proof.
  intros l N. unfold ostd. rewrite map_length, osum_list.
  assert (P : INR (length l) <> 0) by (apply not_0_INR; destruct l; simpl; auto; congruence).
  simpl odiv. destruct (Req_EM_T (INR (length l)) 0); [contradiction|].
  rewrite map_map. simpl o2. rewrite (osum_some (fun x => (x - rsum l / INR (length l)) ^ 2)).
  simpl odiv. destruct (Req_EM_T (INR (length l)) 0); [contradiction|].
  assert (A := avg_sq_nonneg l (avg l)). unfold avg at 1 in A. rewrite map_length in A.
  change (rsum l / INR (length l)) with (avg l).
  unfold osqrt. destruct (Rle_dec 0 _) as [_|X]; [|contradiction]. unfold dev. f_equal. f_equal. set (m := avg l). unfold avg. rewrite map_length. reflexivity.
Qed.

(** zero only if all values agree *)
Lemma dev_pos : forall l a b, In a l -> In b l -> a <> b -> 0 < dev l.
Proof.
  intros l a b Ha Hb N. unfold dev. apply sqrt_lt_R0.
  assert (P : 0 < INR (length l)) by (apply lt_0_INR; destruct l; [destruct Ha|simpl; lia]).
  unfold avg at 1. rewrite map_length. apply Rdiv_lt_0_compat; [|exact P].
  destruct (Req_dec a (avg l)) as [E|E].
  - apply (rsum_pos_in _ _ b); auto; [intros; apply pow2_ge_0|]. apply pow2_gt_0. rewrite E in N. lra.
  - apply (rsum_pos_in _ _ a); auto; [intros; apply pow2_ge_0|]. apply pow2_gt_0. lra.
Qed.

Lemma dev_scale : forall l s, 0 < s -> dev (map (fun x => x / s) l) = dev l / s.
Proof.
  intros l s Hs. unfold dev.
  assert (A : avg (map (fun x => x / s) l) = avg l / s).
  { unfold avg. rewrite map_length. rewrite (rsum_map_ext _ (fun x => / s * x)) by (intros; unfold Rdiv; ring).
    rewrite rsum_map_scal, map_id. unfold Rdiv. ring. }
  rewrite A. assert (B := avg_sq_nonneg l (avg l)). set (m := avg l) in *. unfold avg in *. rewrite map_length in B. rewrite !map_length, map_map.
  rewrite (rsum_map_ext _ (fun x => / s ^ 2 * (x - m) ^ 2)) by (intros; field; lra).
  rewrite rsum_map_scal.
  replace (/ s ^ 2 * rsum (map (fun x => (x - m) ^ 2) l) / INR (length l))
    with (rsum (map (fun x => (x - m) ^ 2) l) / INR (length l) * (/ s) ^ 2) by (unfold Rdiv; rewrite pow_inv; ring).
  rewrite sqrt_mult_alt by exact B.
  rewrite sqrt_pow2 by (left; apply Rinv_0_lt_compat; exact Hs). reflexivity.
Qed.
