(** The derivatives of fits with limits: where the function is evaluated, and what
    comes out for a linear function. *)
From Coq Require Import Reals List Arith ZArith Bool Lra Lia Psatz.
From Verif Require Import PyRes CBase PyList Mp_Model Mp_Spec Mp_Sums Mpl_Model Mpl_Spec.
Import ListNotations.
Local Open Scope R_scope.

Lemma root_pos : 0 < sqrt machep.
Proof. apply sqrt_lt_R0. unfold machep. apply Rinv_0_lt_compat, pow_lt. lra. Qed.

Lemma size_ok : forall b k x, let h := if Req_EM_T (if Rlt_dec 0 (b_rel b k) then Rabs (b_rel b k * x) else if Rlt_dec 0 (b_step b k) then b_step b k else sqrt machep * Rabs x) 0
    then sqrt machep else if Rlt_dec 0 (b_rel b k) then Rabs (b_rel b k * x) else if Rlt_dec 0 (b_step b k) then b_step b k else sqrt machep * Rabs x in
  0 < h /\ step_size b k x h.
Proof.
  intros b k x h. subst h. pose proof root_pos as Rp. unfold step_size. set (e := sqrt machep) in *. clearbody e.
  generalize (b_rel b k) (b_step b k). intros r st. pose proof (Rabs_pos x) as X.
  assert (x <> 0 -> 0 < Rabs x) as X1 by (intros; now apply Rabs_pos_lt).
  assert (x = 0 -> Rabs x = 0) as X2 by (intros ->; apply Rabs_R0).
  assert (0 < r -> Rabs (r * x) = r * Rabs x) as X3 by (intros; rewrite Rabs_mult, (Rabs_pos_eq r) by lra; reflexivity).
  destruct (Rlt_dec 0 r) as [A|A]; [|destruct (Rlt_dec 0 st) as [B|B]].
  - rewrite X3 by exact A. destruct (Req_EM_T x 0) as [Z|Z].
    + rewrite (X2 Z), Rmult_0_r. destruct (Req_EM_T 0 0); [|contradiction]. repeat split; intros; try contradiction; lra.
    + specialize (X1 Z). assert (0 < r * Rabs x) by (now apply Rmult_lt_0_compat). destruct (Req_EM_T _ 0); [lra|]. repeat split; intros; try contradiction; lra.
  - destruct (Req_EM_T st 0); [lra|]. repeat split; intros; lra.
  - destruct (Req_EM_T x 0) as [Z|Z].
    + rewrite (X2 Z), Rmult_0_r. destruct (Req_EM_T 0 0); [|contradiction]. repeat split; intros; try contradiction; lra.
    + specialize (X1 Z). assert (0 < e * Rabs x) by (now apply Rmult_lt_0_compat). destruct (Req_EM_T _ 0); [lra|]. repeat split; intros; try contradiction; lra.
Qed.

(** the step taken is h or -h; -h if the left side is asked for, or if h leads
    beyond an upper limit *)
Lemma step_signed : forall b ifree x j, exists h, 0 < h /\ step_size b (ifree j) (x j) h /\
  (fd_step_b b ifree x j = h \/ fd_step_b b ifree x j = - h) /\
  (fd_step_b b ifree x j = - h <-> b_side b (ifree j) = (-1)%Z \/ (b_qu b j <> 0%Z /\ b_u b j < x j + h)).
Proof.
  intros b ifree x j. set (k := ifree j). destruct (size_ok b k (x j)) as [P3 Sz].
  set (h := if Req_EM_T _ 0 then _ else _) in *.
  exists h. split; [exact P3|]. split; [exact Sz|].
  change (fd_step_b b ifree x j) with (if Z.eqb (b_side b k) (-1) || (nz (b_qu b j) && Rltb (b_u b j - h) (x j)) then - h else h).
  clearbody h. destruct (Z.eqb_spec (b_side b k) (-1)) as [S|S]; cbn [orb]; [tauto|].
  unfold nz. destruct (Z.eqb_spec (b_qu b j) 0) as [U|U]; cbn [negb andb].
  { split; [now left|]. split; [intros E; lra|intros [A|[A _]]; contradiction]. }
  unfold Rltb. destruct (Rlt_dec _ _) as [L|L].
  - split; [now right|]. split; [intros _; right; split; [exact U|lra]|reflexivity].
  - split; [now left|]. split; [intros E; lra|intros [A|[_ A]]; [contradiction|lra]].
Qed.

(** one-sided derivatives never evaluate beyond an upper limit *)
Lemma below_upper : forall b ifree x j, b_qu b j <> 0%Z -> x j <= b_u b j -> x j + fd_step_b b ifree x j <= b_u b j.
Proof.
  intros b ifree x j U X. destruct (step_signed b ifree x j) as (h & Hp & _ & [E|E] & I); rewrite E; [|lra].
  apply Rnot_lt_le. intros L. assert (fd_step_b b ifree x j = - h) as E' by (apply I; right; split; [exact U|lra]).
  rewrite E in E'. lra.
Qed.

(** residuals linear in each parameter: the derivative is exact *)
Lemma linear_exact : forall fcn b ifree xall x fvec i j a,
  (forall t, fcn (upd xall (ifree j) (xall (ifree j) + t)) i = fvec i + a * t) ->
  fdjac2_b fcn b ifree xall x fvec i j = a.
Proof.
  intros fcn b ifree xall x fvec i j a L. unfold fdjac2_b.
  assert (fd_step_b b ifree x j <> 0) as N by (destruct (step_signed b ifree x j) as (h & Hp & _ & [E|E] & _); rewrite E; lra).
  set (h := fd_step_b b ifree x j) in *. clearbody h. rewrite L. destruct (Z.leb _ _); [field; exact N|].
  replace (xall (ifree j) - h) with (xall (ifree j) + - h) by ring. rewrite L. field. exact N.
Qed.

(** residuals quadratic in a parameter: two-sided derivatives are exact, one-sided
    ones are off by the curvature times the step *)
Lemma quadratic_sides : forall fcn b ifree xall x fvec i j a c,
  (forall t, fcn (upd xall (ifree j) (xall (ifree j) + t)) i = fvec i + a * t + c * (t * t)) ->
  ((2 <= Z.abs (b_side b (ifree j)))%Z -> fdjac2_b fcn b ifree xall x fvec i j = a) /\
  ((Z.abs (b_side b (ifree j)) <= 1)%Z -> fdjac2_b fcn b ifree xall x fvec i j = a + c * fd_step_b b ifree x j).
Proof.
  intros fcn b ifree xall x fvec i j a c L. unfold fdjac2_b.
  assert (fd_step_b b ifree x j <> 0) as N by (destruct (step_signed b ifree x j) as (h & Hp & _ & [E|E] & _); rewrite E; lra).
  set (h := fd_step_b b ifree x j) in *. clearbody h. rewrite L.
  destruct (Z.leb_spec (Z.abs (b_side b (ifree j))) 1) as [Z|Z]; split; intros H; try lia; [field; exact N|].
  replace (xall (ifree j) - h) with (xall (ifree j) + - h) by ring. rewrite L. field. exact N.
Qed.

(** a lower limit is not looked at: limits 0 and 1/2, value 1/4, step 1 *)
Definition narrow : bounds :=
  mk_bounds (fun _ => 1%Z) (fun _ => 1%Z) (fun _ => 0) (fun _ => 1 / 2) [] (fun _ => 1) (fun _ => 0) (fun _ => 0%Z).

Lemma beyond_lower : exists b ifree x j, b_ql b j = 1%Z /\ b_qu b j = 1%Z /\ b_l b j < x j < b_u b j /\
  x j + fd_step_b b ifree x j < b_l b j.
Proof.
  exists narrow, (fun j => j), (fun _ => 1 / 4), 0%nat. split; [reflexivity|]. split; [reflexivity|]. cbn [narrow b_l b_u].
  split; [lra|]. destruct (step_signed narrow (fun j => j) (fun _ => 1 / 4) 0%nat) as (h & Hp & (_ & _ & S & _) & _ & I).
  cbn [narrow b_rel b_step b_qu b_u b_side] in S, I. rewrite S in I by lra.
  assert (fd_step_b narrow (fun j => j) (fun _ => 1 / 4) 0%nat = - 1) as -> by (apply I; right; split; [discriminate|lra]). lra.
Qed.
