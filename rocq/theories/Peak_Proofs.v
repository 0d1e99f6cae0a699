(** Peak maps. *)
From Coq Require Import Reals List Arith ZArith Bool Ascii String Lia Lra.
Set Warnings "-ambiguous-paths".
From Coquelicot Require Import Coquelicot.
From Verif Require Import CBase PyRes PyList PyList_Proofs PyStr NdArray NdIndex
  Synth_Model Synth_Spec Synth_Proofs Clean_Total Setup_Spec Setup_Proofs Cube_Model Cube_Spec.
Import ListNotations.
Local Open Scope nat_scope.

Lemma Rltb_true : forall x y, Rltb x y = true <-> (x < y)%R.
Proof. intros. unfold Rltb. destruct (Rlt_dec x y); split; intro; auto; discriminate. Qed.
Lemma Rltb_false : forall x y, Rltb x y = false <-> (y <= x)%R.
Proof. intros. unfold Rltb. destruct (Rlt_dec x y); split; intro; auto; try discriminate; lra. Qed.

(** the first position of the maximum *)
Definition first_max (v : list R) (r : nat) : Prop :=
  r < List.length v /\ (forall j, j < List.length v -> (nth j v 0 <= nth r v 0)%R) /\
  forall j, j < r -> (nth j v 0 < nth r v 0)%R.

Lemma argmax_aux_first : forall l pre best,
  first_max pre best ->
  first_max (pre ++ l) (argmax_aux Rltb (List.length pre) best (nth best pre 0%R) l).
Proof.
  induction l as [|x t IH]; intros pre best (Hb & Hm & Hf); simpl.
  - rewrite app_nil_r. split; auto.
  - replace (pre ++ x :: t) with ((pre ++ [x]) ++ t) by (rewrite <- app_assoc; reflexivity).
    replace (S (List.length pre)) with (List.length (pre ++ [x])) by (rewrite app_length; simpl; lia).
    destruct (Rltb (nth best pre 0%R) x) eqn:E.
    + apply Rltb_true in E.
      replace x with (nth (List.length pre) (pre ++ [x]) 0%R) at 3 by (rewrite app_nth2, Nat.sub_diag; [reflexivity|lia]).
      apply IH. unfold first_max. rewrite app_length. simpl List.length.
      replace (nth (List.length pre) (pre ++ [x]) 0%R) with x by (rewrite app_nth2, Nat.sub_diag; [reflexivity|lia]).
      split; [lia|]. split.
      * intros j Hj. destruct (Nat.eq_dec j (List.length pre)) as [->|Hn].
        -- rewrite app_nth2, Nat.sub_diag by lia. simpl. lra.
        -- rewrite app_nth1 by lia. specialize (Hm j). lra || (assert (nth j pre 0 <= nth best pre 0)%R by (apply Hm; lia); lra).
      * intros j Hj. rewrite app_nth1 by lia. assert (nth j pre 0 <= nth best pre 0)%R by (apply Hm; lia). lra.
    + apply Rltb_false in E.
      replace (nth best pre 0%R) with (nth best (pre ++ [x]) 0%R) by (apply app_nth1; exact Hb).
      apply IH. unfold first_max. rewrite app_length. simpl List.length. rewrite (app_nth1 pre [x] 0%R Hb).
      split; [lia|]. split.
      * intros j Hj. destruct (Nat.eq_dec j (List.length pre)) as [->|Hn].
        -- rewrite app_nth2, Nat.sub_diag by lia. simpl. lra.
        -- rewrite app_nth1 by lia. apply Hm. lia.
      * intros j Hj. rewrite app_nth1 by lia. apply Hf. exact Hj.
Qed.

Lemma argmax_first : forall v r, argmax Rltb v = Some r -> first_max v r.
Proof.
  intros [|x t] r H; simpl in H; [discriminate|]. injection H as <-.
  apply (argmax_aux_first t [x] 0). unfold first_max. simpl. split; [lia|]. split.
  - intros [|j] Hj; simpl; [lra|lia].
  - intros; lia.
Qed.

Lemma first_none_some : forall (v : list R) i, first_none i (map Some v) = None.
Proof. induction v; intros; simpl; auto. Qed.

Lemma peak_pixel_finite : forall phi (v : list C), v <> [] -> List.length v = List.length phi ->
  exists i, i < List.length v /\
    peak_pixel phi (map Some v) = POk (Some (Cmod (nth i v (RtoC 0))), Some (nth i phi 0%R)) /\
    (forall j, j < List.length v -> (Cmod (nth j v (RtoC 0)) <= Cmod (nth i v (RtoC 0)))%R) /\
    (forall j, j < i -> (Cmod (nth j v (RtoC 0)) < Cmod (nth i v (RtoC 0)))%R).
Proof.
  intros phi v Hv Hl. unfold peak_pixel. cbv zeta. rewrite map_map. simpl.
  rewrite <- (map_map Cmod Some). set (w := map Cmod v).
  assert (Hw : w <> []) by (destruct v; [congruence|discriminate]).
  unfold np_max, np_argmax. rewrite all_some_map, first_none_some.
  destruct (argmax_some Rltb w Hw) as (i & Ei). rewrite Ei. apply argmax_first in Ei. destruct Ei as (Hi & Hm & Hf).
  assert (Lw : List.length w = List.length v) by (unfold w; apply map_length).
  assert (Nw : forall j, j < List.length v -> nth j w 0%R = Cmod (nth j v (RtoC 0))).
  { intros j Hj. unfold w. rewrite nth_indep with (d' := Cmod (RtoC 0)) by (rewrite map_length; exact Hj). apply map_nth. }
  assert (Em : rmax_list w = Some (nth i w 0%R)).
  { apply rmax_list_unique. split; [apply nth_In; exact Hi|]. intros y Hy.
    apply In_nth with (d := 0%R) in Hy. destruct Hy as (j & Hj & <-). apply Hm, Hj. }
  rewrite Em. cbn [pybind]. exists i. split; [lia|].
  rewrite (nth_error_nth' phi 0%R) by lia. cbn [pybind].
  replace (forallb is_none (map Some v)) with false by (destruct v; [congruence|reflexivity]).
  rewrite (Nw i) by lia. split; [reflexivity|]. split.
  - intros j Hj. rewrite <- !Nw by lia. apply Hm. lia.
  - intros j Hj. rewrite <- !Nw by lia. apply Hf. exact Hj.
Qed.

Lemma peak_pixel_blank : forall phi n, 0 < n -> List.length phi = n ->
  peak_pixel phi (repeat None n) = POk (None, None).
Proof.
  intros phi n Hn Hl. destruct n; [lia|]. unfold peak_pixel, np_max, np_argmax. simpl.
  destruct phi as [|f phi]; [simpl in Hl; lia|]. simpl.
  replace (forallb is_none (repeat None n)) with true; [reflexivity|].
  symmetry. apply forallb_forall. intros x Hx. apply repeat_spec in Hx. subst. reflexivity.
Qed.

Lemma pyall_map : forall {A B} (f : A -> pyres B) (g : A -> B) l, (forall x, In x l -> f x = POk (g x)) ->
  pyall (map f l) = POk (map g l).
Proof.
  intros A B f g l H. induction l as [|a l IH]; simpl; auto. rewrite (H a (or_introl eq_refl)). simpl.
  rewrite IH by (intros x Hx; apply H; right; exact Hx). reflexivity.
Qed.

Lemma length_along : forall {A} (d : A) a axis idx, List.length (along d a axis idx) = nth axis (shape a) 0.
Proof. intros. unfold along. rewrite map_length, seq_length. reflexivity. Qed.

Lemma column_cases : forall (l : list (option C)), (forall x, In x l -> x = None) \/ (forall x, In x l -> x <> None) ->
  l = repeat None (List.length l) \/ exists v, l = map Some v.
Proof.
  intros l [H|H].
  - left. induction l as [|a l IH]; simpl; auto. rewrite (H a (or_introl eq_refl)) at 1. f_equal. apply IH. intros x Hx. apply H. right. exact Hx.
  - right. induction l as [|a l IH]; [exists []; reflexivity|].
    destruct IH as (v & ->); [intros x Hx; apply H; right; exact Hx|].
    destruct a as [z|]; [exists (z :: v); reflexivity|]. exfalso. apply (H None); [left|]; reflexivity.
Qed.

(** C45 *)
Theorem peak_maps_spec : forall (cube : nd (option C)) phi axis,
  axis < List.length (shape cube) -> nth axis (shape cube) 0 = List.length phi -> phi <> [] ->
  let sh := delete_at axis (shape cube) in
  (forall idx, valid sh idx ->
     (forall k, k < List.length phi -> at_nd None cube (insert_at axis k idx) = None) \/
     (forall k, k < List.length phi -> at_nd None cube (insert_at axis k idx) <> None)) ->
  exists mx rm, create_peak_maps cube phi axis = POk (mx, rm) /\
    shape mx = sh /\ shape rm = sh /\ wf_nd mx /\ wf_nd rm /\
    forall idx, valid sh idx ->
      let cell k := at_nd None cube (insert_at axis k idx) in
      ((forall k, k < List.length phi -> cell k = None) -> at_nd None mx idx = None /\ at_nd None rm idx = None) /\
      ((forall k, k < List.length phi -> cell k <> None) ->
        exists i z, i < List.length phi /\ cell i = Some z /\ at_nd None mx idx = Some (Cmod z) /\
          at_nd None rm idx = Some (nth i phi 0%R) /\
          (forall j y, j < List.length phi -> cell j = Some y -> (Cmod y <= Cmod z)%R) /\
          (forall j y, j < i -> cell j = Some y -> (Cmod y < Cmod z)%R)).
Proof.
  intros cube phi axis Hax Hn Hphi sh Hcols.
  assert (Hpos : 0 < List.length phi) by (destruct phi; [congruence|simpl; lia]).
  set (g := fun idx => match peak_pixel phi (along None cube axis idx) with POk r => r | PErr => (None, None) end).
  assert (Hcell : forall idx k, k < List.length phi -> nth k (along None cube axis idx) None = at_nd None cube (insert_at axis k idx)).
  { intros idx k Hk. unfold along. rewrite nth_map_seq by lia. reflexivity. }
  assert (Hcase : forall idx, valid sh idx ->
    along None cube axis idx = repeat None (List.length phi) \/ exists v, along None cube axis idx = map Some v /\ List.length v = List.length phi).
  { intros idx V. destruct (column_cases (along None cube axis idx)) as [E|(v & E)].
    - destruct (Hcols idx V) as [H|H]; [left|right]; intros x Hx; apply In_nth with (d := None) in Hx; destruct Hx as (k & Hk & <-);
        rewrite length_along, Hn in Hk; rewrite Hcell by exact Hk; apply H; exact Hk.
    - left. rewrite length_along, Hn in E. exact E.
    - right. exists v. split; [exact E|]. rewrite <- Hn, <- (length_along None cube axis idx), E, map_length. reflexivity. }
  assert (Hg : forall idx, In idx (indices sh) -> peak_pixel phi (along None cube axis idx) = POk (g idx)).
  { intros idx V. apply in_indices in V. unfold g. destruct (Hcase idx V) as [E|(v & E & Lv)]; rewrite E.
    - rewrite peak_pixel_blank by auto. reflexivity.
    - destruct (peak_pixel_finite phi v) as (i & _ & -> & _); [destruct v; [simpl in Lv; lia|discriminate]|exact Lv|reflexivity]. }
  assert (Ec : create_peak_maps cube phi axis = POk (mk_nd sh (map fst (map g (indices sh))), mk_nd sh (map snd (map g (indices sh))))).
  { unfold create_peak_maps. cbv zeta. fold sh. rewrite (pyall_map _ g _ Hg). reflexivity. }
  do 2 eexists. split; [exact Ec|]. split; [reflexivity|]. split; [reflexivity|].
  split; [unfold wf_nd; cbn [flat shape]; rewrite !map_length; apply length_indices|].
  split; [unfold wf_nd; cbn [flat shape]; rewrite !map_length; apply length_indices|].
  intros idx V cell. rewrite !map_map.
  change (mk_nd sh (map (fun x => fst (g x)) (indices sh))) with (tab_nd sh (fun x => fst (g x))).
  change (mk_nd sh (map (fun x => snd (g x)) (indices sh))) with (tab_nd sh (fun x => snd (g x))).
  rewrite !at_tab_nd by exact V.
  assert (Ccell : forall k, k < List.length phi -> cell k = nth k (along None cube axis idx) None) by (intros; unfold cell; rewrite Hcell; auto).
  split; intro H; unfold g; destruct (Hcase idx V) as [E|(v & E & Lv)]; rewrite E in *.
  - rewrite peak_pixel_blank by auto. auto.
  - exfalso. specialize (H 0 Hpos). rewrite Ccell in H by exact Hpos. destruct v; [simpl in Lv; lia|discriminate].
  - exfalso. apply (H 0 Hpos). rewrite Ccell by exact Hpos. destruct (List.length phi); reflexivity.
  - assert (Nv : forall j, j < List.length phi -> cell j = Some (nth j v (RtoC 0))).
    { intros j Hj. rewrite Ccell by exact Hj. rewrite nth_indep with (d' := Some (RtoC 0)) by (rewrite map_length; lia). apply map_nth. }
    destruct (peak_pixel_finite phi v) as (i & Hi & -> & Hm & Hf); [destruct v; [simpl in Lv; lia|discriminate]|exact Lv|].
    exists i, (nth i v (RtoC 0)). split; [lia|]. split; [apply Nv; lia|]. split; [reflexivity|]. split; [reflexivity|].
    split; intros j y Hj Ey; rewrite Nv in Ey by lia; injection Ey as <-; [apply Hm; lia|apply Hf; exact Hj].
Qed.

(** The spectra computed by RM-synthesis are either blank or complete. *)
Theorem synth_columns : forall dataQ dataU l2 phi wA lam0in r,
  do_rmsynth_planes dataQ dataU l2 phi wA lam0in = Some r ->
  forall p, p < npix dataQ ->
    (forall k, k < List.length phi -> at2 (npix dataQ) None (flat (FDFcube r)) k p = None) \/
    (forall k, k < List.length phi -> at2 (npix dataQ) None (flat (FDFcube r)) k p <> None).
Proof.
  intros dataQ dataU l2 phi wA lam0in r E p Hp. unfold do_rmsynth_planes in E. cbv zeta in E.
  repeat match type of E with (if ?c then None else _) = _ => destruct c; [discriminate|] end.
  injection E as <-. cbn [FDFcube squeeze flat]. unfold npix in *.
  set (m := prodn (tl (shape dataQ))) in *.
  destruct (zero_pix (List.length l2) m (flat dataQ) (flat dataU) l2 phi (prep_weights (List.length l2) wA) lam0in p) eqn:Z; [left|right];
    intros k Hk; rewrite at2_tab2 by assumption; unfold out_cell; rewrite Z; [reflexivity|discriminate].
Qed.

(** Finding: a spectrum with some blank samples gets the depth of the first
    blank one. *)
Theorem peak_partial_blank_refuted : exists cube phi mx rm,
  create_peak_maps cube phi 0 = POk (mx, rm) /\
  flat cube = [Some (RtoC 1); None; Some (RtoC 5)] /\ phi = [-10; 0; 10]%R /\
  flat mx = [None] /\ flat rm = [Some 0%R].
Proof.
  exists (mk_nd [3] [Some (RtoC 1); None; Some (RtoC 5)]), [-10; 0; 10]%R. do 2 eexists.
  split; [reflexivity|]. auto.
Qed.
