(** What the QU-fitting tool reports. *)
From Coq Require Import Reals List Arith ZArith Bool Lra Lia Psatz String Ascii.
Set Warnings "-ambiguous-paths".
From Coquelicot Require Import Coquelicot.
From Verif Require Import CBase PyRes PyList PyStr PyList_Proofs PyStr_Proofs Synth_Model StokesI_Model Measure_Model Measure_Spec Median_Proofs Setup_Spec Setup_Proofs
  Run1D_Model Run1D_Spec CleanTop_Model QU_Model QU_Spec QU_Proofs QU_Like QU_Extra Qrun_Model Qrun_Spec.
Import ListNotations.
Local Open Scope R_scope.
Local Notation length := List.length.

Lemma parameters_filter : forall ks, filter (fun k => negb (is_constraint k)) ks = parameters ks.
Proof. intros ks. apply filter_ext. intros k. unfold is_constraint. destruct (k_class k); reflexivity. Qed.
Lemma sampled_varied : forall ks, sampled ks = varied ks.
Proof. intros ks. apply filter_ext. intros k. unfold is_constraint, is_delta. destruct (k_class k); reflexivity. Qed.
Lemma varied_parameters : forall ks, varied ks = filter (fun k => match k_class k with KOther => true | _ => false end) (parameters ks).
Proof.
  induction ks as [|k ks IH]; [reflexivity|]. unfold varied, parameters in *. cbn [filter]. destruct (k_class k) eqn:E; cbn [filter]; rewrite ?E, IH; reflexivity.
Qed.
Lemma free_varied : forall ks, filter (fun k => negb (is_delta k)) (parameters ks) = varied ks.
Proof.
  induction ks as [|k ks IH]; [reflexivity|]. unfold varied, parameters, is_delta in *. cbn [filter]. destruct (k_class k) eqn:E; cbn [filter]; rewrite ?E; cbn [negb]; rewrite ?IH; reflexivity.
Qed.

Lemma nth_map_seq : forall (f : nat -> list R) n k, (k < n)%nat -> nth k (map f (seq 0 n)) [] = f k.
Proof. intros f n k H. rewrite (nth_indep _ [] (f 0%nat)) by (rewrite map_length, seq_length; auto). rewrite map_nth, seq_nth by auto. reflexivity. Qed.

Lemma fold_upd : forall (T : nat -> bool) (F : nat -> list R -> list R) n cols, (forall i, (i < n)%nat -> T i = true -> (i < length cols)%nat) ->
  fold_left (fun acc i => pybind acc (fun c => if T i then (if Nat.ltb i (length c) then POk (upd c i (F i)) else PErr) else POk c)) (seq 0 n) (POk cols) =
  POk (map (fun j => if (Nat.ltb j n && T j)%bool then F j (nth j cols []) else nth j cols []) (seq 0 (length cols))).
Proof.
  intros T F n cols. induction n as [|n IH]; intros H.
  - cbn [seq fold_left]. f_equal. apply nth_ext with (d := []) (d' := []); [rewrite map_length, seq_length; reflexivity|].
    intros k Hk. rewrite nth_map_seq by auto. reflexivity.
  - rewrite seq_S, fold_left_app, IH by (intros; apply H; auto). cbn [fold_left pybind Nat.add].
    rewrite map_length, seq_length.
    assert (K : forall j, Nat.ltb j (S n) = (Nat.ltb j n || Nat.eqb j n)%bool).
    { intros j. destruct (Nat.ltb_spec j (S n)), (Nat.ltb_spec j n), (Nat.eqb_spec j n); reflexivity || lia. }
    destruct (T n) eqn:E.
    + assert (n < length cols)%nat as L by (apply H; auto). rewrite (proj2 (Nat.ltb_lt _ _) L). f_equal.
      apply nth_ext with (d := []) (d' := []); [rewrite length_upd, !map_length, !seq_length; reflexivity|].
      rewrite length_upd, map_length, seq_length. intros k Hk. rewrite nth_upd by (rewrite map_length, seq_length; auto).
      rewrite !nth_map_seq by auto. rewrite K, Nat.ltb_irrefl. cbn [andb]. destruct (Nat.eqb_spec k n) as [->|Nk].
      * rewrite orb_true_r, E. reflexivity.
      * rewrite orb_false_r. reflexivity.
    + f_equal. apply map_ext. intros j. rewrite K. destruct (Nat.eqb_spec j n) as [->|Nk]; [|rewrite orb_false_r; reflexivity].
      rewrite E, !andb_false_r. reflexivity.
Qed.

(** positions of keys *)
Lemma index_of_spec : forall l i k, NoDup l -> nth_error l i = Some k -> index_of k l = Some i.
Proof.
  intros l i k ND Hi. unfold index_of.
  assert (Li : (i < length l)%nat) by (apply nth_error_Some; congruence).
  destruct (find _ _) as [j|] eqn:E.
  - apply find_some in E. destruct E as [Hj E]. apply in_seq in Hj. apply str_eqb_eq in E. f_equal.
    apply (proj1 (NoDup_nth_error l) ND); [lia|]. rewrite Hi, E. apply nth_error_nth'. lia.
  - exfalso. pose proof (find_none _ _ E i) as F. cbv beta in F. rewrite (nth_error_nth _ _ _ Hi), str_eqb_refl in F. discriminate F. apply in_seq. lia.
Qed.
Lemma index_of_none : forall l k, ~ In k l -> index_of k l = None.
Proof.
  intros l k H. unfold index_of. destruct (find _ _) as [j|] eqn:E; [|reflexivity]. exfalso. apply find_some in E. destruct E as [Hj E].
  apply in_seq in Hj. apply str_eqb_eq in E. apply H. rewrite E. apply nth_In. lia.
Qed.

Lemma NoDup_filter_map : forall {A B} (f : A -> B) (p : A -> bool) l, NoDup (map f l) -> NoDup (map f (filter p l)).
Proof.
  induction l as [|x l IH]; intros H; [constructor|]. cbn [map] in H. inversion H as [|? ? N1 N2]; subst. cbn [filter]. destruct (p x); [|auto].
  cbn [map]. constructor; [|auto]. intros Hx. apply N1. apply in_map_iff in Hx. destruct Hx as (y & <- & Hy). apply filter_In in Hy. apply in_map. tauto.
Qed.

Lemma key_inj : forall ks k k', NoDup (map k_key ks) -> In k ks -> In k' ks -> k_key k = k_key k' -> k = k'.
Proof.
  induction ks as [|x ks IH]; intros k k' ND H H' E; [destruct H|]. cbn in ND. inversion ND as [|? ? N1 N2]; subst.
  destruct H as [->|H], H' as [->|H']; auto.
  - exfalso. apply N1. rewrite E. apply in_map, H'.
  - exfalso. apply N1. rewrite <- E. apply in_map, H.
Qed.

Lemma post_varied : forall ks cols k i, proper_priors ks -> nth_error (varied ks) i = Some k -> post ks cols k = nth i cols [].
Proof.
  intros ks cols k i [ND _] H. unfold post. rewrite sampled_varied.
  rewrite (index_of_spec _ i); [reflexivity| |apply map_nth_error, H]. now apply NoDup_filter_map.
Qed.
Lemma post_fixed : forall ks cols k, proper_priors ks -> In k ks -> k_class k <> KOther -> post ks cols k = [k_min k].
Proof.
  intros ks cols k [ND _] Hk F. unfold post. rewrite sampled_varied, index_of_none; [reflexivity|].
  intros H. apply in_map_iff in H. destruct H as (k' & E & H). apply filter_In in H. destruct H as [H C].
  assert (k = k') by (apply (key_inj ks); auto). subst k'. destruct (k_class k); congruence.
Qed.

Lemma rotates_angle : forall k col, to_rotate (as_param k col) = true -> prior_angle k.
Proof.
  intros k col H. unfold to_rotate, as_param in H. cbn [pa_name pa_lo pa_hi pa_wrap pa_col] in H.
  repeat (apply andb_prop in H; destruct H as [H ?]). split.
  - exists (firstn (length (k_key k) - 3) (k_key k)). apply str_eqb_eq in H. rewrite <- H. symmetry. apply firstn_skipn.
  - destruct (Req_EM_T (k_min k) 0); [|discriminate]. destruct (Req_EM_T (k_max k) 180); [|discriminate]. split; [auto|]. split; [auto|].
    destruct (k_bound k) as [b|]; [|discriminate]. f_equal. now apply str_eqb_eq.
Qed.

Lemma filter_all_app : forall {A} (p : A -> bool) a k b, (forall x, In x a -> p x = true) -> p k = true -> filter p (a ++ k :: b) = a ++ k :: filter p b.
Proof.
  intros A p a k b Ha Hk. induction a as [|x a IH]; cbn [app filter]; [now rewrite Hk|]. rewrite (Ha x) by now left. f_equal. apply IH. intros; apply Ha; now right.
Qed.

(** an angle stands at the same place among the varied parameters *)
Lemma angle_place : forall ks i k, proper_priors ks -> angles_first ks -> nth_error (parameters ks) i = Some k -> prior_angle k ->
  k_class k = KOther /\ nth_error (varied ks) i = Some k.
Proof.
  intros ks i k [ND Fx] Af Hi An. destruct (nth_error_split _ _ Hi) as (a & b & E & La).
  assert (Ck : k_class k = KOther).
  { assert (In k (parameters ks)) as Ik by (eapply nth_error_In; eauto). unfold parameters in Ik. apply filter_In in Ik. destruct Ik as [Ik C].
    destruct (k_class k) eqn:Ek; [discriminate| |reflexivity]. specialize (Fx k Ik Ek). destruct An as (_ & A1 & A2 & _). exfalso. lra. }
  split; [exact Ck|]. rewrite varied_parameters, E, filter_all_app.
  - rewrite nth_error_app2 by lia. rewrite La, Nat.sub_diag. reflexivity.
  - intros x Hx. rewrite (Af a k b E An x Hx). reflexivity.
  - rewrite Ck. reflexivity.
Qed.

Lemma rotate_done : forall ks cols, proper_priors ks -> angles_first ks -> length cols = length (varied ks) ->
  rotate_columns ks (parameters ks) cols =
  POk (map (fun j => if (Nat.ltb j (length (parameters ks)) && to_rotate (as_param (nth j (parameters ks) no_prior) (post ks cols (nth j (parameters ks) no_prior))))%bool
                     then map rotate90 (nth j cols []) else nth j cols []) (seq 0 (length cols))).
Proof.
  intros ks cols Pp Af L. unfold rotate_columns.
  apply (fold_upd (fun i => to_rotate (as_param (nth i (parameters ks) no_prior) (post ks cols (nth i (parameters ks) no_prior)))) (fun _ => map rotate90)).
  intros i Hi T. apply rotates_angle in T.
  destruct (angle_place ks i _ Pp Af (nth_error_nth' _ no_prior Hi) T) as [_ H]. rewrite L. apply nth_error_Some. congruence.
Qed.

Lemma post_after : forall ks cols cols' k, proper_priors ks -> angles_first ks -> length cols = length (varied ks) ->
  rotate_columns ks (parameters ks) cols = POk cols' -> In k (parameters ks) ->
  post ks cols' k = if to_rotate (as_param k (post ks cols k)) then map rotate90 (post ks cols k) else post ks cols k.
Proof.
  intros ks cols cols' k Pp Af L E Hk. rewrite rotate_done in E by assumption. injection E as <-.
  destruct (k_class k) eqn:Ck.
  - unfold parameters in Hk. apply filter_In in Hk. rewrite Ck in Hk. destruct Hk; discriminate.
  - assert (In k ks) as Ik by (unfold parameters in Hk; apply filter_In in Hk; tauto).
    rewrite !post_fixed by (auto; congruence). destruct (to_rotate _) eqn:T; [|reflexivity]. exfalso. apply rotates_angle in T.
    destruct T as (_ & T1 & T2 & _). destruct Pp as [_ Fx]. specialize (Fx k Ik Ck). lra.
  - assert (In k (varied ks)) as Vk by (rewrite varied_parameters; apply filter_In; rewrite Ck; auto).
    destruct (In_nth_error _ _ Vk) as (j & Hj). assert (Lj : (j < length cols)%nat) by (rewrite L; apply nth_error_Some; congruence).
    rewrite (post_varied ks cols k j) by auto. rewrite (post_varied ks _ k j) by auto. rewrite nth_map_seq by auto.
    destruct (In_nth_error _ _ Hk) as (i & Hi).
    destruct (to_rotate (as_param k (nth j cols []))) eqn:T.
    + destruct (angle_place ks i k Pp Af Hi (rotates_angle _ _ T)) as [_ Hi']. destruct Pp as [ND Fx].
      assert (i = j).
      { assert (NoDup (varied ks)) as N2 by (apply (NoDup_map_inv k_key), NoDup_filter_map, ND). apply (proj1 (NoDup_nth_error _) N2); [apply nth_error_Some; congruence|congruence]. }
      subst i. assert (Lp : (j < length (parameters ks))%nat) by (apply nth_error_Some; congruence). rewrite (proj2 (Nat.ltb_lt _ _) Lp).
      rewrite (nth_error_nth _ _ no_prior Hi). cbn [andb]. rewrite (post_varied ks cols k j) by (auto; split; auto). rewrite T. reflexivity.
    + destruct (Nat.ltb_spec j (length (parameters ks))) as [Lp|]; [|reflexivity]. cbn [andb].
      destruct (to_rotate (as_param (nth j (parameters ks) no_prior) _)) eqn:T'; [|reflexivity]. exfalso.
      pose proof (nth_error_nth' _ no_prior Lp) as Hn. destruct (angle_place ks j _ Pp Af Hn (rotates_angle _ _ T')) as [_ H].
      assert (nth j (parameters ks) no_prior = k) as En by congruence. rewrite En, (post_varied ks cols k j) in T' by auto. congruence.
Qed.

Lemma in_rotated' : forall ks cols k, NoDup (map k_key ks) -> In k (parameters ks) ->
  in_names (k_key k) (rotated ks (parameters ks) cols) = to_rotate (as_param k (post ks cols k)).
Proof.
  intros ks cols k ND Hk. unfold in_names, rotated. destruct (to_rotate _) eqn:T.
  - apply existsb_exists. exists (k_key k). split; [|apply str_eqb_refl]. apply in_map, filter_In. auto.
  - apply not_true_is_false. intros H. apply existsb_exists in H. destruct H as (x & Hx & E). apply str_eqb_eq in E. subst x.
    apply in_map_iff in Hx. destruct Hx as (b & Eb & Hb). apply filter_In in Hb. destruct Hb as [Hb Tb].
    assert (b = k) by (apply (key_inj (parameters ks)); auto; now apply NoDup_filter_map). subst b. congruence.
Qed.

(** one parameter of the report *)
Lemma reported_summary : forall k col, let a := as_param k col in
  reported (to_rotate a) (if to_rotate a then map rotate90 col else col) = summary [a] a.
Proof.
  intros k col a. unfold summary, posterior. rewrite (in_rotated [a] a); [|constructor; [intros []|constructor]|now left]. reflexivity.
Qed.
