(** Rounding errors of RM-synthesis. *)
From Coq Require Import Reals List Arith ZArith Lra Lia Psatz Bool Permutation.
Set Warnings "-ambiguous-paths".
From Coquelicot Require Import Coquelicot.
From Verif Require Import CBase NdArray Synth_Model Synth_Spec Synth_Proofs Synth_Laws QU_Proofs Fl_Model Fl_Spec.
Import ListNotations.
Local Open Scope R_scope.

(* ------------------------------------------------------------ reals *)

Definition close (x y t : R) : Prop := Rabs (x - y) <= t * Rabs y.

Lemma close_size : forall x y t, close x y t -> Rabs x <= (1 + t) * Rabs y.
Proof. intros x y t H. unfold close in H. pose proof (Rabs_triang_inv x y). lra. Qed.

Lemma close_mult : forall x y t x' y' t', 0 <= t -> 0 <= t' -> close x y t -> close x' y' t' ->
  close (x * x') (y * y') ((1 + t) * (1 + t') - 1).
Proof.
  intros x y t x' y' t' Ht Ht' H H'. pose proof (close_size _ _ _ H). unfold close in *.
  replace (x * x' - y * y') with (x * (x' - y') + (x - y) * y') by ring.
  eapply Rle_trans; [apply Rabs_triang|]. rewrite !Rabs_mult.
  pose proof (Rabs_pos y). pose proof (Rabs_pos y'). pose proof (Rabs_pos x). pose proof (Rabs_pos (x' - y')). pose proof (Rabs_pos (x - y)).
  assert (Rabs x * Rabs (x' - y') <= (1 + t) * Rabs y * (t' * Rabs y')) by (apply Rmult_le_compat; lra).
  assert (Rabs (x - y) * Rabs y' <= t * Rabs y * Rabs y') by (apply Rmult_le_compat_r; lra). nra.
Qed.

Lemma close_trans : forall x y z t t', 0 <= t -> 0 <= t' -> close x y t -> close y z t' -> close x z ((1 + t) * (1 + t') - 1).
Proof.
  intros x y z t t' Ht Ht' H H'. pose proof (close_size _ _ _ H'). unfold close in *.
  replace (x - z) with ((x - y) + (y - z)) by ring. eapply Rle_trans; [apply Rabs_triang|].
  pose proof (Rabs_pos z). pose proof (Rabs_pos y). nra.
Qed.

(* ---------------------------------------------------------- complex *)

Lemma Cmod_scale : forall r u z x, rounds r u -> 0 <= u ->
  Cmod (scale_fl r z x - z * RtoC x)%C <= u * Cmod z * Rabs x.
Proof.
  intros r u [a b] x H Hu. unfold scale_fl. cbn [fst snd].
  replace ((r (a * x)%R, r (b * x)%R) - (a, b) * RtoC x)%C with (r (a * x) - a * x, r (b * x) - b * x)
    by (unfold Cminus, Cplus, Copp, Cmult, RtoC; cbn [fst snd]; f_equal; ring).
  replace (u * Cmod (a, b) * Rabs x) with (Rabs (u * x) * Cmod (a, b))
    by (rewrite Rabs_mult, (Rabs_pos_eq u) by lra; ring).
  unfold Cmod. cbn [fst snd]. rewrite <- sqrt_Rsqr_abs, <- sqrt_mult_alt by apply Rle_0_sqr.
  apply sqrt_le_1_alt. unfold Rsqr.
  assert (Q : forall y, (r (y * x) - y * x) ^ 2 <= u * x * (u * x) * y ^ 2).
  { intro y. pose proof (H (y * x)) as E. rewrite <- (Rabs_pos_eq u) in E by lra. rewrite <- Rabs_mult in E.
    apply Rsqr_le_abs_1 in E. unfold Rsqr in E. nra. }
  pose proof (Q a). pose proof (Q b). nra.
Qed.

Lemma cis_lip : forall x y, Cmod (cis x - cis y)%C <= Rabs (x - y).
Proof.
  intros x y.
  assert (E : (cis x - cis y)%C = (cis ((x + y) / 2)%R * (0, 2 * sin ((x - y) / 2))%R)%C).
  { unfold cis, Cminus, Cplus, Copp, Cmult. cbn [fst snd].
    set (a := (x + y) / 2). set (b := (x - y) / 2).
    replace x with (a + b) by (unfold a, b; field). replace y with (a - b) by (unfold a, b; field).
    rewrite cos_plus, cos_minus, sin_plus, sin_minus. f_equal; ring. }
  rewrite E, Cmod_mult, Cmod_cis, Rmult_1_l.
  replace (Cmod (0, 2 * sin ((x - y) / 2))) with (2 * Rabs (sin ((x - y) / 2))).
  - pose proof (sin_abs_le ((x - y) / 2)) as H. unfold Rdiv in H at 2. rewrite Rabs_mult, (Rabs_pos_eq (/ 2)) in H by lra. lra.
  - unfold Cmod. cbn [fst snd]. replace (0 ^ 2 + (2 * sin ((x - y) / 2)) ^ 2) with (Rsqr (2 * sin ((x - y) / 2))) by (unfold Rsqr; ring).
    rewrite sqrt_Rsqr_abs, Rabs_mult, (Rabs_pos_eq 2) by lra. reflexivity.
Qed.

Lemma Cmod_triangle3 : forall a b c, Cmod (a - c)%C <= Cmod (a - b)%C + Cmod (b - c)%C.
Proof. intros. replace (a - c)%C with ((a - b) + (b - c))%C by ring. apply Cmod_triangle. Qed.

Lemma Cmod_minus_sym : forall a b, Cmod (a - b)%C = Cmod (b - a)%C.
Proof. intros. replace (a - b)%C with (- (b - a))%C by ring. apply Cmod_opp. Qed.

Lemma Cmod_near : forall a b, Cmod a <= Cmod b + Cmod (a - b)%C.
Proof. intros. replace a with (b + (a - b))%C at 1 by ring. apply Cmod_triangle. Qed.

Lemma csum_diff : forall {A} (f g : A -> C) (h : A -> R) l, (forall x, In x l -> Cmod (f x - g x)%C <= h x) ->
  Cmod (csum (map f l) - csum (map g l))%C <= rsum (map h l).
Proof.
  intros A f g h l H. induction l as [|a l IH].
  - cbn [map]. rewrite csum_nil, rsum_nil. replace (RtoC 0 - RtoC 0)%C with (RtoC 0) by ring. rewrite Cmod_0. lra.
  - cbn [map]. rewrite !csum_cons, rsum_cons.
    replace (f a + csum (map f l) - (g a + csum (map g l)))%C with ((f a - g a) + (csum (map f l) - csum (map g l)))%C by ring.
    eapply Rle_trans; [apply Cmod_triangle|]. apply Rplus_le_compat; [apply H; now left|]. apply IH. intros; apply H; now right.
Qed.

Lemma rsum_diff : forall {A} (f g h : A -> R) l, (forall x, In x l -> Rabs (f x - g x) <= h x) ->
  Rabs (rsum (map f l) - rsum (map g l)) <= rsum (map h l).
Proof.
  intros A f g h l H. induction l as [|a l IH].
  - cbn [map]. rewrite !rsum_nil, Rminus_0_r, Rabs_R0. lra.
  - cbn [map]. rewrite !rsum_cons.
    replace (f a + rsum (map f l) - (g a + rsum (map g l))) with ((f a - g a) + (rsum (map f l) - rsum (map g l))) by ring.
    eapply Rle_trans; [apply Rabs_triang|]. apply Rplus_le_compat; [apply H; now left|]. apply IH. intros; apply H; now right.
Qed.

Lemma Cmod_csum : forall {A} (f : A -> C) l, Cmod (csum (map f l)) <= rsum (map (fun x => Cmod (f x)) l).
Proof.
  intros A f l. induction l as [|a l IH]; cbn [map].
  - rewrite csum_nil, rsum_nil, Cmod_0. lra.
  - rewrite csum_cons, rsum_cons. eapply Rle_trans; [apply Cmod_triangle|]. lra.
Qed.

(* -------------------------------------------------- summation trees *)

Lemma rsum_perm : forall l l', Permutation l l' -> rsum l = rsum l'.
Proof. intros l l' H. induction H; rewrite ?rsum_cons in *; lra. Qed.

Lemma pow1_le : forall u a b, 0 <= u -> (a <= b)%nat -> (1 + u) ^ a <= (1 + u) ^ b.
Proof. intros. apply Rle_pow; [lra|lia]. Qed.

Lemma fsum_error : forall r u t, rounds r u -> 0 <= u ->
  Rabs (fsum r t - rsum (leaves t)) <= ((1 + u) ^ depth t - 1) * rsum (map Rabs (leaves t)).
Proof.
  intros r u t H Hu. induction t as [x|a IHa b IHb].
  - cbn [fsum leaves depth map pow]. rewrite !rsum_cons, !rsum_nil. rewrite Rplus_0_r, Rminus_diag_eq, Rabs_R0 by reflexivity. lra.
  - cbn [fsum leaves depth]. rewrite map_app, !rsum_app.
    set (N := Nat.max (depth a) (depth b)).
    assert (forall l, 0 <= rsum (map Rabs l)) as NN.
    { intro l. apply rsum_nonneg. intros x Hx. apply in_map_iff in Hx. destruct Hx as (y & <- & _). apply Rabs_pos. }
    assert (forall t, (depth t <= N)%nat -> Rabs (fsum r t - rsum (leaves t)) <= ((1 + u) ^ depth t - 1) * rsum (map Rabs (leaves t)) ->
      Rabs (fsum r t - rsum (leaves t)) <= ((1 + u) ^ N - 1) * rsum (map Rabs (leaves t))) as UP.
    { intros t Ht E. eapply Rle_trans; [exact E|]. apply Rmult_le_compat_r; [apply NN|]. pose proof (pow1_le u _ _ Hu Ht). lra. }
    apply UP in IHa; [|unfold N; lia]. apply UP in IHb; [|unfold N; lia].
    set (A := rsum (leaves a)) in *. set (B := rsum (leaves b)) in *.
    set (A' := rsum (map Rabs (leaves a))) in *. set (B' := rsum (map Rabs (leaves b))) in *.
    assert (LA : Rabs A <= A').
    { unfold A, A'. rewrite <- (map_id (leaves a)) at 1. replace (rsum (map (fun x => x) (leaves a))) with (rsum (map (fun x => x) (leaves a)) - rsum (map (fun _ => 0) (leaves a))).
      - apply rsum_diff. intros x _. rewrite Rminus_0_r. lra.
      - rewrite (rsum_zero (fun _ : R => 0)) by reflexivity. ring. }
    assert (LB : Rabs B <= B').
    { unfold B, B'. rewrite <- (map_id (leaves b)) at 1. replace (rsum (map (fun x => x) (leaves b))) with (rsum (map (fun x => x) (leaves b)) - rsum (map (fun _ => 0) (leaves b))).
      - apply rsum_diff. intros x _. rewrite Rminus_0_r. lra.
      - rewrite (rsum_zero (fun _ : R => 0)) by reflexivity. ring. }
    pose proof (H (fsum r a + fsum r b)) as E.
    assert (S1 : Rabs (fsum r a + fsum r b - (A + B)) <= ((1 + u) ^ N - 1) * (A' + B')).
    { replace (fsum r a + fsum r b - (A + B)) with ((fsum r a - A) + (fsum r b - B)) by ring.
      eapply Rle_trans; [apply Rabs_triang|]. lra. }
    assert (S2 : Rabs (fsum r a + fsum r b) <= (1 + u) ^ N * (A' + B')).
    { pose proof (Rabs_triang_inv (fsum r a + fsum r b) (A + B)). pose proof (Rabs_triang A B). lra. }
    replace (r (fsum r a + fsum r b) - (A + B)) with ((r (fsum r a + fsum r b) - (fsum r a + fsum r b)) + (fsum r a + fsum r b - (A + B))) by ring.
    eapply Rle_trans; [apply Rabs_triang|]. cbn [pow]. 
    assert (u * Rabs (fsum r a + fsum r b) <= u * ((1 + u) ^ N * (A' + B'))) by (apply Rmult_le_compat_l; lra). lra.
Qed.

Theorem tree_sums : forall r u n d (order : list R -> stree), rounds r u -> 0 <= u ->
  (forall l, length l = n -> Permutation (leaves (order l)) l /\ (depth (order l) <= d)%nat) ->
  sums (fun l => fsum r (order l)) n ((1 + u) ^ d - 1).
Proof.
  intros r u n d order H Hu HO l Hl. destruct (HO l Hl) as [P D].
  pose proof (fsum_error r u (order l) H Hu) as E.
  rewrite (rsum_perm _ _ P), (rsum_perm _ _ (Permutation_map Rabs P)) in E.
  eapply Rle_trans; [exact E|]. apply Rmult_le_compat_r.
  - apply rsum_nonneg. intros x Hx. apply in_map_iff in Hx. destruct Hx as (y & <- & _). apply Rabs_pos.
  - pose proof (pow1_le u _ _ Hu D). lra.
Qed.
