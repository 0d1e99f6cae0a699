(** What [create_3D_data] writes. *)
From Coq Require Import Reals List Arith ZArith Bool Lia Lra Ascii String.
Set Warnings "-ambiguous-paths".
From Coquelicot Require Import Coquelicot.
From Verif Require Import CBase PyRes PyStr PyList PyList_Proofs NdArray NdIndex Measure_Model Synth_Spec Td_Model Td_Spec Td_Beam Td_Proofs.
Import ListNotations.
Local Notation length := List.length.
Local Open Scope R_scope.

Definition arr (normal : nat -> list nat -> R) (k x y c : nat) : R := normal k [x; y; c].

(** The file of a cube given by its values at (x, y, channel). *)
Lemma file_at : forall n nf g x y c, (x < n)%nat -> (y < n)%nat -> (c < nf)%nat ->
  at_nd None (transpose (cube n nf g)) [c; y; x] = Some (g x y c).
Proof.
  intros. unfold transpose, cube at 1. cbn [shape tab_nd rev app].
  change (tab_nd [nf; n; n]) with (@tab_nd (option R) [nf; n; n]).
  rewrite at_tab_nd by (apply mk_valid3; auto). cbn [rev app]. unfold cube. rewrite at_tab_nd by (apply mk_valid3; auto). reflexivity.
Qed.

Section Main.
  Variables (normal : nat -> list nat -> R) (freq : list R) (n : nat).
  Hypothesis Hn : (1 <= n)%nat.
  Hypothesis Hf : (2 <= length freq)%nat.
  Hypothesis Hnz : List.Forall (fun f => f <> 0) freq.
  Let nf := length freq.
  Let q := (n / 4)%nat.
  Let sp (p rm a : R) (c : nat) : C := thin p (deg a) rm (lam2 (nth c freq 0)).

  Lemma q_lt : (q < n)%nat.
  Proof. unfold q. apply Nat.div_lt; lia. Qed.

  Lemma spec_nth : forall (f : C -> R) p rm a c, (c < nf)%nat ->
    nth c (map (option_map f) (map (QU_of p rm a) freq)) None = Some (f (sp p rm a c)).
  Proof.
    intros f p rm a c Hc. rewrite map_map.
    set (h := fun x => option_map f (QU_of p rm a x)).
    rewrite (nth_indep _ None (h 0)) by (rewrite map_length; exact Hc). rewrite map_nth. unfold h.
    rewrite QU_thin; [reflexivity|]. rewrite List.Forall_forall in Hnz. apply Hnz, nth_In, Hc.
  Qed.

  Lemma point_is : forall f p rm a sx sy, point_cube n nf sx sy (map (option_map f) (map (QU_of p rm a) freq)) =
    cube n nf (fun i j c => if (i =? sx)%nat && (j =? sy)%nat then f (sp p rm a c) else 0).
  Proof.
    intros. unfold point_cube, cube. apply tab_ext. intros idx V.
    destruct (valid3 _ _ _ _ V) as (x & y & c & -> & Hx & Hy & Hc). cbn [nth].
    destruct ((x =? sx)%nat && (y =? sy)%nat); [|reflexivity]. apply spec_nth, Hc.
  Qed.

  Lemma tiled_is : forall f p rm a, tiled n nf (map (option_map f) (map (QU_of p rm a) freq)) = cube n nf (fun _ _ c => f (sp p rm a c)).
  Proof.
    intros. unfold tiled, cube. apply tab_ext. intros idx V.
    destruct (valid3 _ _ _ _ V) as (x & y & c & -> & Hx & Hy & Hc). cbn [nth]. apply spec_nth, Hc.
  Qed.

  Lemma draws_is : forall k, tab_nd [n; n; nf] (fun idx => Some (normal k idx)) = cube n nf (arr normal k).
  Proof.
    intros. unfold cube. apply tab_ext. intros idx V.
    destruct (valid3 _ _ _ _ V) as (x & y & c & -> & Hx & Hy & Hc). reflexivity.
  Qed.

  Let sm : R := dev (vals n nf (conv n (arr normal 0))) / / 10.
  Let src (M : R) (f : C -> R) (x y c : nat) : R := ker n x q * ker n y q * f (sp 2 200 50 c) / M.

  Lemma create_general : exists M, 0 < M /\
    (forall x y, (x < n)%nat -> (y < n)%nat -> ker n x q * ker n y q <= M) /\
    (exists x y, (x < n)%nat /\ (y < n)%nat /\ ker n x q * ker n y q = M) /\
    (sm <> 0 -> create_3D_data normal freq n = POk (mk_files
      (transpose (cube n nf (fun x y c => src M fst x y c + conv n (arr normal 0) x y c / sm + fst (sp 1 50 (- 10) c))))
      (transpose (cube n nf (fun x y c => src M snd x y c + conv n (arr normal 1) x y c / sm + snd (sp 1 50 (- 10) c))))
      (mk_header n nf (nth 0 freq 0) (nth 1 freq 0)) freq
      (mk_truth 200 50 2 (INR q) (INR q) 50 (- 10) 1 (/ 10) 20))) /\
    (sm = 0 -> exists r, create_3D_data normal freq n = POk r /\
      List.Forall (fun v => v = None) (flat (q_file r)) /\ List.Forall (fun v => v = None) (flat (u_file r))).
  Proof.
    assert (Hq := q_lt).
    set (P0 := fun (x y c : nat) => 2 * (ker n x q * ker n y q)).
    assert (Nv : vals n nf P0 <> []).
    { intro E. assert (L := length_vals n nf P0). rewrite E in L. simpl in L. unfold nf in L. nia. }
    destruct (omaxi_spec _ Nv) as (M2 & EM & IM & UM).
    apply in_vals in IM. destruct IM as (xm & ym & cm & Hxm & Hym & Hcm & EM2).
    assert (M2p : 0 < M2).
    { apply Rlt_le_trans with (P0 q q 0%nat); [|apply UM, in_vals; exists q, q, 0%nat; repeat split; auto; unfold nf; lia].
      unfold P0. generalize (ker_self n q Hq). intros. nra. }
    exists (M2 / 2). split; [lra|]. split.
    { intros x y Hx Hy. assert (P0 x y 0%nat <= M2) by (apply UM, in_vals; exists x, y, 0%nat; repeat split; auto; unfold nf; lia).
      unfold P0 in H. lra. }
    split; [exists xm, ym; repeat split; auto; unfold P0 in EM2; lra|].
    assert (PEAK : omaxi (flat (zipf hypo (cube n nf (conv n (fun i j c => if (i =? q)%nat && (j =? q)%nat then fst (sp 2 200 50 c) else 0)))
                       (cube n nf (conv n (fun i j c => if (i =? q)%nat && (j =? q)%nat then snd (sp 2 200 50 c) else 0))))) = POk (Some M2)).
    { rewrite (zipf_cube hypo (fun x y => sqrt (x ^ 2 + y ^ 2))) by reflexivity.
      rewrite (cube_ext n nf _ P0), flat_cube; [exact EM|].
      intros x y c Hx Hy Hc.
      rewrite (conv_point n q q (fun c => fst (sp 2 200 50 c))), (conv_point n q q (fun c => snd (sp 2 200 50 c))) by exact Hq.
      assert (C1 : fst (sp 2 200 50 c) ^ 2 + snd (sp 2 200 50 c) ^ 2 = 2 ^ 2).
      { generalize (thin_mod 2 (deg 50) 200 (lam2 (nth c freq 0))). fold (sp 2 200 50 c). unfold Cmod.
        rewrite (Rabs_pos_eq 2) by lra. intros E. apply (f_equal (fun v => v ^ 2)) in E. rewrite pow2_sqrt in E; [exact E|]. apply Rplus_le_le_0_compat; apply pow2_ge_0. }
      replace ((ker n x q * ker n y q * fst (sp 2 200 50 c)) ^ 2 + (ker n x q * ker n y q * snd (sp 2 200 50 c)) ^ 2)
        with ((ker n x q * ker n y q) ^ 2 * (fst (sp 2 200 50 c) ^ 2 + snd (sp 2 200 50 c) ^ 2)) by ring.
      rewrite C1, <- Rpow_mult_distr. unfold P0.
      rewrite sqrt_pow2; [ring|]. generalize (ker_nonneg n x q) (ker_nonneg n y q). nra. }
    assert (SRC : forall f : C -> R, divall (cube n nf (conv n (fun i j c => if (i =? q)%nat && (j =? q)%nat then f (sp 2 200 50 c) else 0))) (Some (M2 / 2)) =
       cube n nf (src (M2 / 2) f)).
    { intros f. rewrite divall_cube by lra. apply cube_ext. intros x y c Hx Hy Hc.
      rewrite (conv_point n q q (fun c => f (sp 2 200 50 c))) by exact Hq. reflexivity. }
    assert (CR : create_3D_data normal freq n =
      let noise k := divall (cube n nf (conv n (arr normal k))) (Some sm) in
      POk (mk_files
        (transpose (zipf oadd (zipf oadd (cube n nf (src (M2 / 2) fst)) (noise 0%nat)) (cube n nf (fun _ _ c => fst (sp 1 50 (- 10) c)))))
        (transpose (zipf oadd (zipf oadd (cube n nf (src (M2 / 2) snd)) (noise 1%nat)) (cube n nf (fun _ _ c => snd (sp 1 50 (- 10) c)))))
        (mk_header n nf (nth 0 freq 0) (nth 1 freq 0)) freq (mk_truth 200 50 2 (INR q) (INR q) 50 (- 10) 1 (/ 10) 20))).
    { unfold create_3D_data. rewrite !thin_one. cbn [pybind]. cbn [squeeze flat shape].
      destruct (Nat.eqb_spec n 0) as [E|_]; [lia|].
      change (20 / (235 / 100)) with sg. fold nf. fold q.
      change re_of with (option_map (@fst R R)). change im_of with (option_map (@snd R R)).
      rewrite !point_is, !gaussian_cube, PEAK by lia. cbn [pybind].
      replace (odiv (Some M2) (Some 2)) with (Some (M2 / 2)) by (unfold odiv; destruct (Req_EM_T 2 0) as [E|_]; [lra|reflexivity]).
      rewrite !SRC.
      assert (SH : filter (fun d => negb (d =? 1)%nat) [1%nat; nf] = [nf]).
      { simpl. destruct (Nat.eqb_spec nf 1); [unfold nf in *; lia|reflexivity]. }
      rewrite SH. cbn [length Nat.eqb].
      rewrite !tiled_is, !draws_is, !gaussian_cube by lia.
      rewrite flat_cube, ostd_spec.
      2:{ intro E. assert (L := length_vals n nf (conv n (arr normal 0))). rewrite E in L. simpl in L. unfold nf in L. nia. }
      replace (odiv (Some (dev (vals n nf (conv n (arr normal 0))))) (Some (/ 10))) with (Some sm)
        by (unfold odiv; destruct (Req_EM_T (/ 10) 0) as [E|_]; [lra|reflexivity]).
      clear - Hf. unfold nf. destruct freq as [|f0 [|f1 fr]]; simpl in Hf; try lia. reflexivity. }
    split.
    - intros Hs. rewrite CR. cbv beta zeta. rewrite !divall_cube by exact Hs.
      rewrite !(zipf_cube oadd Rplus) by reflexivity. reflexivity.
    - intros E. rewrite CR, E. cbv beta zeta.
      assert (ALL : forall g h1 h2, List.Forall (fun v => v = None) (flat (transpose (zipf oadd (zipf oadd (cube n nf g) (divall (cube n nf h1) (Some 0))) (cube n nf h2))))).
      { intros g h1 h2.
        assert (Z : zipf oadd (zipf oadd (cube n nf g) (divall (cube n nf h1) (Some 0))) (cube n nf h2) = tab_nd [n; n; nf] (fun _ => None)).
        { unfold zipf, divall, cube, tab_nd. cbn [shape flat]. f_equal. rewrite !map_map, !combine_map2, !map_map, combine_map2, map_map.
          apply map_ext. intros a. cbn [fst snd]. unfold odiv. destruct (Req_EM_T 0 0) as [_|X]; [reflexivity|contradiction X; reflexivity]. }
        rewrite Z. unfold transpose, tab_nd at 1. cbn [flat]. apply List.Forall_forall. intros v Hv. apply in_map_iff in Hv.
        destruct Hv as (idx & <- & V). apply in_indices in V. unfold at_nd. cbn [flat tab_nd].
        match goal with |- nth ?k ?l None = None => destruct (nth_in_or_default k l None) as [I|D]; [|exact D] end.
        apply in_map_iff in I. destruct I as (? & <- & _). reflexivity. }
      eexists. split; [reflexivity|]. cbn [q_file u_file]. split; apply ALL.
  Qed.
End Main.
