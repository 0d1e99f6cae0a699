(** mpfit.qrsolv leaves the loop over the remaining rotations at the first zero
    (2029-2030), where the algorithm it was translated from skips that rotation
    only. With three unknowns the result is then not the one documented. *)
From Coq Require Import Reals List Arith ZArith Bool Lra Lia Psatz Permutation.
From Verif Require Import PyRes CBase PyList Mp_Model Mp_Spec Mp_Sums Mp_QR Mp_Solve Mp_Givens.
Import ListNotations.
Local Open Scope R_scope.

Definition r3 : mat := fun i j => if Nat.eqb i j then 1 else if Nat.eqb i 0 && Nat.eqb j 2 then 1 else 0.
Definition f3 : vec := fun i => if Nat.eqb i 0 then 1 else 0.

Lemma r3_factored : factored 3 3 r3 f3 (fun k => k) r3 f3.
Proof.
  split.
  - apply is_perm_id.
  - intros a b Ha Hb. unfold gram, dot, column. rewrite total_ssum. apply ssum_ext. intros i Hi.
    assert (up r3 i a = r3 i a /\ up r3 i b = r3 i b) as [-> ->]; [|reflexivity].
    unfold up, r3. split.
    + destruct (Nat.leb_spec i a), (Nat.eqb_spec i a), (Nat.eqb_spec i 0); try lia; reflexivity.
    + destruct (Nat.leb_spec i b), (Nat.eqb_spec i b), (Nat.eqb_spec i 0); try lia; reflexivity.
  - intros a Ha. unfold dot, column. rewrite total_ssum. apply ssum_ext. intros i Hi.
    assert (up r3 i a = r3 i a) as ->; [|reflexivity].
    unfold up, r3. destruct (Nat.leb_spec i a), (Nat.eqb_spec i a), (Nat.eqb_spec i 0); try lia; reflexivity.
Qed.

Lemma qrsolv_three : forall sd0, let '(r', x, sd') := qrsolv 3 r3 (fun k => k) (fun _ => 1) f3 sd0 in
  x 0%nat = 1 / 2 /\ x 1%nat = 0 /\ x 2%nat = 0.
Proof.
  intros sd0.
  assert (1 <> 0) as H1 by lra.
  pose proof (rotation_spec 1 1 H1) as Rt. destruct (rotation 1 1) as [c s] eqn:Ro. destruct Rt as (R1 & R2 & _).
  assert (s = c) as -> by lra. clear R2. assert (c <> 0) as Hc by nra.
  unfold qrsolv. cbn [seq qrsolv_loop Nat.sub].
  destruct (Req_EM_T 1 0); [lra|].
  cbn [givens].
  cbn [Nat.eqb Nat.ltb Nat.leb andb r3 f3].
  destruct (Req_EM_T 1 0); [lra|]. rewrite Ro.
  destruct (Req_EM_T (- c * 0 + c * 0) 0); [|exfalso; lra].
  cbn [Nat.eqb Nat.ltb Nat.leb andb r3 f3 upd upd2].
  destruct (Req_EM_T 1 0); [lra|]. rewrite Ro.
  destruct (Req_EM_T (- c * 0 + c * 0) 0); [|exfalso; lra].
  cbn [Nat.eqb Nat.ltb Nat.leb andb r3 f3 upd upd2].
  destruct (Req_EM_T 1 0); [lra|]. rewrite Ro.
  unfold scatter, back_subst, first_from, is_zero, upd, upd2.
  cbn [Nat.eqb Nat.ltb Nat.leb andb r3 f3 upd upd2].
  destruct (Req_EM_T (c * 1 + c * 1) 0); [exfalso; apply Hc; lra|].
  cbn [seq rev app fold_left Nat.eqb Nat.leb]. unfold ssum.
  cbn [seq rev app fold_left Nat.eqb Nat.leb Nat.add Nat.sub map Nat.ltb andb]. unfold rsum. cbn [fold_right r3 Nat.eqb Nat.leb andb].
  repeat split; field; lra.
Qed.

(** the damped system is not solved *)
Lemma qrsolv_wrong : forall sd0, let '(r', x, sd') := qrsolv 3 r3 (fun k => k) (fun _ => 1) f3 sd0 in
  ~ lm_equations 3 3 r3 f3 (fun _ => 1) 1 x.
Proof.
  intros sd0. pose proof (qrsolv_three sd0) as K.
  destruct (qrsolv 3 r3 (fun k => k) (fun _ => 1) f3 sd0) as [[r' x] sd']. destruct K as (X0 & X1 & X2).
  intros H. specialize (H 2%nat ltac:(lia)). rewrite X2 in H.
  unfold gram, dot, column, total, rsum, r3, f3 in H. cbn [seq map fold_right Nat.eqb andb] in H.
  rewrite X0, X1, X2 in H. lra.
Qed.

(** what it should be *)
Lemma three_solution : lm_equations 3 3 r3 f3 (fun _ => 1) 1 (fun i => match i with 0%nat => 2 / 5 | 2%nat => 1 / 5 | _ => 0 end).
Proof.
  intros l Hl. unfold gram, dot, column, total, rsum, r3, f3. cbn [seq map].
  destruct l as [|[|[|l]]]; [| | |lia]; cbn [fold_right Nat.eqb andb]; lra.
Qed.
