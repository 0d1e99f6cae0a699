(** The pieces of the fitter's linear algebra put together, and two statements
    about whole runs: an optimal start is kept, and the chi squared reported
    can be that of a rejected step. *)
From Coq Require Import Reals List Arith ZArith Bool Lra Lia Psatz Permutation.
From Verif Require Import PyRes CBase PyList Mp_Model Mp_Spec Mp_Sums Mp_QR Mp_Solve Mp_Givens Mp_Step Mp_Covar Mp_Refute Mp_Run Mp_Fit Mp_Linear Mp_Exact.
Import ListNotations.
Local Open Scope R_scope.

Lemma qr_factor : forall m n J f, (n <= m)%nat ->
  let q := qrfac m n J in let '(r, qtf) := r_qtf m n q f in factor_of m n J f (q_ipvt q) r qtf.
Proof.
  intros m n J f H q. pose proof (qr_correct m n J f H) as K. cbv zeta in K. fold q in K.
  destruct (r_qtf m n q f) as [r qtf]. destruct K as [P G Q]. split; [exact P|]. split.
  - intros a b Ha Hb. rewrite <- G by auto. unfold dot. now rewrite total_ssum.
  - intros a Ha. rewrite <- Q by auto. unfold dot. now rewrite total_ssum.
Qed.

Lemma lm_step : forall m n J f diag delta par, (n <= m)%nat -> independent machep m n J ->
  (forall c, (c < n)%nat -> 0 < diag c) -> 0 < delta -> 0 <= par ->
  let q := qrfac m n J in let '(r, qtf) := r_qtf m n q f in
  let '(r', par', x) := lmpar n r (q_ipvt q) diag qtf delta par in
  0 <= par' /\ factor_of m n J f (q_ipvt q) r' qtf /\
  ((n <= 2)%nat -> lm_equations m n J f diag par' x) /\
  ((forall x, lm_equations m n J f diag 0 x -> sqrt (sqlen n (fun i => diag i * x i)) <= 11 / 10 * delta) ->
     par' = 0 /\ least_squares m n J f (fun k => - x k)) /\
  (par' = 0 -> least_squares m n J f (fun k => - x k) /\ sqrt (sqlen n (fun i => diag i * x i)) <= 11 / 10 * delta).
Proof.
  intros m n J f diag delta par Hn I Hd Hde Hp q. pose proof (qr_correct m n J f Hn) as K. cbv zeta in K. fold q in K.
  destruct (r_qtf m n q f) as [r qtf].
  pose proof (lmpar_solves m n J f r (q_ipvt q) diag qtf delta par K I Hd Hde Hp) as S.
  pose proof (lmpar_frame n r (q_ipvt q) diag qtf delta par (f_perm _ _ _ _ _ _ _ K) Hd Hde Hp) as Fr.
  destruct (lmpar n r (q_ipvt q) diag qtf delta par) as [[r' par'] x]. destruct S as (S1 & S2 & S3). destruct Fr as (Up & Pp & Fl).
  assert (lm_equations m n J f diag 0 x -> least_squares m n J f (fun k => - x k)) as LS.
  { intros E. apply normal_least. intros l Hl. specialize (E l Hl). lra. }
  split; [auto|]. split; [|split; [auto|split]].
  - destruct (factored_upper m n J f (q_ipvt q) r r' qtf Up K) as [P G Q]. split; [exact P|]. split.
    + intros a b Ha Hb. rewrite <- G by auto. unfold dot. now rewrite total_ssum.
    + intros a Ha. rewrite <- Q by auto. unfold dot. now rewrite total_ssum.
  - intros W. destruct S2 as (E & Eq & _); [|split; auto]. intros y Hy. specialize (W y Hy). rewrite <- enorm_sqrt in W. exact W.
  - intros E. split; [auto|]. rewrite <- enorm_sqrt. auto.
Qed.

Lemma lm_covariance : forall m n J f, (n <= m)%nat -> independent (/ 10 ^ 14) m n J ->
  let q := qrfac m n J in let '(r, qtf) := r_qtf m n q f in inverse_of n (gram m J) (calc_covar n r (q_ipvt q)).
Proof.
  intros m n J f Hn I q. pose proof (qr_correct m n J f Hn) as K. cbv zeta in K. fold q in K.
  destruct (r_qtf m n q f) as [r qtf]. eapply covariance_inverse; eauto.
Qed.

(** three unknowns: the system is not solved although it has a solution *)
Lemma damped_wrong : exists r f, factor_of 3 3 r f (fun k => k) r f /\ (exists x, lm_equations 3 3 r f (fun _ => 1) 1 x) /\
  forall sd, let '(_, x, _) := qrsolv 3 r (fun k => k) (fun _ => 1) f sd in ~ lm_equations 3 3 r f (fun _ => 1) 1 x.
Proof.
  exists r3, f3. split; [|split].
  - destruct r3_factored as [P G Q]. split; [exact P|]. split.
    + intros a b Ha Hb. rewrite <- G by auto. unfold dot. now rewrite total_ssum.
    + intros a Ha. rewrite <- Q by auto. unfold dot. now rewrite total_ssum.
  - eexists. apply three_solution.
  - intros sd. pose proof (qrsolv_wrong sd) as K. destruct (qrsolv 3 r3 (fun k => k) (fun _ => 1) f3 sd) as [[? x] ?]. exact K.
Qed.

(** ---------- a start at which every slope is orthogonal to the residuals *)

Lemma stationary_start : forall fuel fcn npar m free xall, reads npar m fcn -> NoDup free -> free <> [] -> (length free <= m)%nat ->
  (forall k, In k free -> dot m (slope fcn xall k) (fcn xall) = 0) ->
  exists o, mpfit (S fuel) fcn npar m free xall = Some (POk o) /\ o_status o = 4%Z /\ (forall i, o_params o i = xall i) /\
    o_fnorm o = chi2 m fcn xall /\ o_niter o = 1%nat.
Proof.
  intros fuel fcn npar m free xall Rd Nd Ne Len St. rewrite mpfit_unfold by auto. rewrite outer_step. cbv zeta.
  set (ifree := fun j => nth j free 0%nat). set (n := length free) in *. set (st0 := lm_start fcn m free xall).
  pose proof (start_running fcn npar m free xall Rd Nd) as Rn. fold n in Rn. fold ifree in Rn. fold st0 in Rn.
  pose proof (r_point _ _ _ _ _ _ _ Rn) as Ap.
  set (J := jac fcn ifree xall n st0).
  pose proof (qr_correct m n J (s_fvec st0) Len) as K. cbv zeta in K.
  destruct (r_qtf m n (qrfac m n J) (s_fvec st0)) as [r qtf].
  assert (grad_norm n r qtf (q_ipvt (qrfac m n J)) (acnorm m J) (s_fnorm st0) = 0) as G.
  { unfold n. eapply (grad_zero m free Len J); [exact K|]. fold n. intros j Hj.
    rewrite <- (St (nth j free 0%nat) (nth_In _ _ Hj)). unfold dot, column. apply total_ext. intros i Hi.
    unfold J, ifree, n. rewrite (jac_slope fcn npar m free xall st0 i j Rd Nd Ap Hi Hj).
    change (s_fvec st0 i) with (fcn xall i). f_equal. unfold slope.
    assert (forall i, place (length free) (fun j => nth j free 0%nat) xall (s_x st0) i = xall i) as Pl by (now apply place_start).
    rewrite Pl. rewrite (Rd (place (length free) (fun j => nth j free 0%nat) xall (s_x st0)) xall) by auto.
    do 2 f_equal. apply Rd; auto. intros k _. destruct (Nat.eqb k _); auto. }
  rewrite G. destruct (Rle_dec 0 gtol) as [_|N]; [|exfalso; apply N; unfold gtol; left; apply Rinv_0_lt_compat, pow_lt; lra].
  eexists. split; [reflexivity|]. cbn [o_status o_params o_fnorm o_niter prepared s_x s_fnorm1 s_niter].
  split; [reflexivity|]. split; [|split; [|reflexivity]].
  - intros i. now apply (place_start free xall Nd i).
  - change (s_fnorm1 st0) with (-1). rewrite Rmax_left by (pose proof (enorm_nonneg 0 m (fcn (place n ifree xall (s_x st0)))); lra).
    rewrite enorm_chi2. unfold chi2. apply sqlen_ext. intros i Hi. apply Rd; auto. intros k _. now apply (place_start free xall Nd k).
Qed.

(** ---------- the chi squared reported *)

(** a residual with a steep slope at 1 that is 5 everywhere else *)
Definition jump (p : nat -> R) (i : nat) : R :=
  if Req_EM_T (p 0%nat) 1 then 1 else if Req_EM_T (p 0%nat) (1 + / 2 ^ 26) then 1 + 10 ^ 10 * / 2 ^ 26 else 5.

Lemma pow26 : 0 < / 2 ^ 26.
Proof. apply Rinv_0_lt_compat, pow_lt. lra. Qed.

Lemma jump_slope : slope jump (fun _ => 1) 0 0 = 10 ^ 10.
Proof.
  pose proof pow26 as P. unfold slope, increment. destruct (Req_EM_T 1 0) as [|_]; [lra|].
  replace (Rabs 1 / 2 ^ 26) with (/ 2 ^ 26) by (rewrite Rabs_R1; unfold Rdiv; ring).
  unfold jump. cbn [Nat.eqb].
  destruct (Req_EM_T (1 + / 2 ^ 26) 1) as [E|_]; [lra|]. destruct (Req_EM_T (1 + / 2 ^ 26) (1 + / 2 ^ 26)) as [_|N]; [|now destruct N].
  destruct (Req_EM_T 1 1) as [_|N]; [|now destruct N]. field.
Qed.

Lemma enorm_one : forall v, enorm 0 1 v = Rabs (v 0%nat).
Proof. intros v. unfold enorm, ssum. cbn [Nat.sub seq map]. rewrite rsum_cons, rsum_nil, Rplus_0_r. apply sqrt_Rsqr_abs. Qed.

Lemma reported_wrong : exists fcn o, reads 1 1 fcn /\ mpfit 2 fcn 1 1 [0%nat] (fun _ => 1) = Some (POk o) /\
  o_status o = 2%Z /\ chi2 1 fcn (o_params o) = 1 /\ o_fnorm o = 25.
Proof.
  exists jump. set (free := [0%nat]). set (xall := fun _ : nat => 1).
  assert (reads 1 1 jump) as Rd by (intros p q H i Hi; unfold jump; now rewrite H by lia).
  assert (NoDup free) as Nd by (unfold free; constructor; [now intros []|constructor]).
  assert (forall p q : nat -> R, p 0%nat = q 0%nat -> jump p = jump q) as Je by (intros p q E; unfold jump; now rewrite E).
  assert (jump xall 0%nat = 1) as J1 by (unfold jump, xall; destruct (Req_EM_T 1 1) as [_|N]; [auto|now destruct N]).
  assert (0 < 10 ^ 10) as T10 by (apply pow_lt; lra).
  rewrite mpfit_unfold by (try discriminate; cbn; lia).
  set (ifree := fun j => nth j free 0%nat). change (length free) with 1%nat.
  set (st0 := lm_start jump 1 free xall).
  pose proof (start_running jump 1 1 free xall Rd Nd) as Rn. fold ifree in Rn. fold st0 in Rn. change (length free) with 1%nat in Rn.
  pose proof (r_point _ _ _ _ _ _ _ Rn) as Ap.
  assert (forall x, place 1 ifree xall x 0%nat = x 0%nat) as Pl by (intros x; reflexivity).
  rewrite outer_step. cbv zeta. set (J := jac jump ifree xall 1 st0).
  assert (J 0%nat 0%nat = 10 ^ 10) as J0.
  { pose proof (jac_slope jump 1 1 free xall st0 0 0 Rd Nd Ap ltac:(lia) ltac:(cbn; lia)) as E.
    transitivity (jac jump (fun j => nth j free 0%nat) xall (length free) st0 0%nat 0%nat); [reflexivity|]. rewrite E.
    rewrite <- jump_slope. unfold slope. change (nth 0 free 0%nat) with 0%nat. change (place (length free) (fun j => nth j free 0%nat) xall (s_x st0) 0%nat) with 1.
    rewrite (Je (place _ _ _ _) (fun _ => 1)) by reflexivity. f_equal. }
  assert (gram 1 J 0 0 = 10 ^ 10 * 10 ^ 10) as Gr.
  { unfold gram, dot, column, total. cbn [seq map]. rewrite rsum_cons, rsum_nil, J0. ring. }
  pose proof (qr_correct 1 1 J (s_fvec st0) ltac:(lia)) as K. cbv zeta in K.
  set (q := qrfac 1 1 J) in *. destruct (r_qtf 1 1 q (s_fvec st0)) as [r qtf].
  assert (q_ipvt q 0%nat = 0%nat) as I0 by (pose proof (is_perm_lt 1 _ 0 (f_perm _ _ _ _ _ _ _ K) ltac:(lia)); lia).
  pose proof (f_gram _ _ _ _ _ _ _ K 0%nat 0%nat ltac:(lia) ltac:(lia)) as G1.
  pose proof (f_qtf _ _ _ _ _ _ _ K 0%nat ltac:(lia)) as G2.
  rewrite I0, Gr in G1. rewrite I0 in G2. unfold ssum in G1, G2. cbn [Nat.sub seq map] in G1, G2. rewrite rsum_cons, rsum_nil in G1, G2.
  unfold up in G1, G2. cbn [Nat.leb] in G1, G2.
  assert (s_fvec st0 0%nat = 1) as Fv by exact J1.
  assert (dot 1 (column J 0) (s_fvec st0) = 10 ^ 10) as Dt.
  { unfold dot, column, total. cbn [seq map]. rewrite rsum_cons, rsum_nil, J0, Fv. ring. }
  rewrite Dt in G2.
  assert (s_fnorm st0 = 1) as Fn.
  { change (s_fnorm st0) with (enorm 0 1 (jump xall)). rewrite enorm_one, J1. apply Rabs_R1. }
  assert (acnorm 1 J 0%nat = 10 ^ 10) as Ac.
  { unfold acnorm. rewrite enorm_one, J0. apply Rabs_pos_eq. lra. }
  (* the gradient test *)
  set (gn := grad_norm 1 r qtf (q_ipvt q) (acnorm 1 J) (s_fnorm st0)).
  assert (gn = 1) as Gn.
  { unfold gn, grad_norm. rewrite Fn. destruct (Req_EM_T 1 0) as [|_]; [lra|]. cbn [seq fold_left]. rewrite I0, Ac.
    destruct (Req_EM_T (10 ^ 10) 0) as [|_]; [lra|]. unfold ssum. cbn [Nat.add Nat.sub seq map]. rewrite rsum_cons, rsum_nil.
    replace (r 0%nat 0%nat * qtf 0%nat + 0) with (10 ^ 10) by lra. 
    replace (10 ^ 10 / 1 / 10 ^ 10) with 1 by (field; lra). rewrite Rabs_R1. apply Rmax_right. lra. }
  rewrite Gn. destruct (Rle_dec 1 gtol) as [L|_].
  { exfalso. unfold gtol in L. assert (/ 10 ^ 10 < 1); [|lra]. rewrite <- Rinv_1. apply Rinv_lt_contravar; [lra|]. apply Rlt_pow_R1; [lra|lia]. }
  set (d := diag_in st0 (acnorm 1 J) (fun _ => 0)).
  assert (d 0%nat = 10 ^ 10) as D0.
  { unfold d, diag_in. change (Nat.eqb (s_niter st0) 1) with true. cbv iota. unfold start_diag. rewrite Ac. destruct (Req_EM_T (10 ^ 10) 0); [lra|auto]. }
  set (st1 := prepared 1 1 J d st0 r). set (d' := fun j => Rmax (acnorm 1 J j) (d j)).
  assert (d' 0%nat = 10 ^ 10) as D1 by (unfold d'; rewrite Ac, D0; apply Rmax_left; lra).
  assert (s_xnorm st1 = 10 ^ 10) as Xn.
  { unfold st1, prepared. cbn [s_xnorm]. change (Nat.eqb (s_niter st0) 1) with true. cbv iota. rewrite enorm_one, D0.
    change (s_x st0 0%nat) with 1. rewrite Rmult_1_r. apply Rabs_pos_eq. lra. }
  assert (s_delta st1 = 100 * 10 ^ 10) as De.
  { transitivity (if Req_EM_T (factor * s_xnorm st1) 0 then factor else factor * s_xnorm st1); [reflexivity|].
    rewrite Xn. unfold factor. destruct (Req_EM_T (100 * 10 ^ 10) 0); [lra|auto]. }
  (* the step *)
  assert (independent machep 1 1 J) as Ind.
  { assert (machep < 1) as M1.
    { unfold machep. rewrite <- Rinv_1. apply Rinv_lt_contravar; [rewrite Rmult_1_l; apply pow_lt; lra|]. apply Rlt_pow_R1; [lra|lia]. }
    pose proof machep_pos as Mp. intros z k l Hk Hl Hz. assert (k = 0%nat) by lia. assert (l = 0%nat) by lia. subst.
    assert (sqlen 1 (times 1 J z) = gram 1 J 0 0) as ->.
    { unfold sqlen, gram, dot, column, times, total. cbn [seq map]. rewrite !rsum_cons, !rsum_nil, Hz. ring. }
    rewrite Gr. assert (machep ^ 2 < 1) by nra. assert (0 < 10 ^ 10 * 10 ^ 10) by (apply Rmult_lt_0_compat; auto). nra. }
  assert (forall x, lm_equations 1 1 J (s_fvec st0) d' 0 x -> x 0%nat = / 10 ^ 10) as Eqx.
  { intros x H. specialize (H 0%nat ltac:(lia)). rewrite Dt in H. unfold total in H. cbn [seq map] in H. rewrite rsum_cons, rsum_nil, Gr in H.
    apply Rmult_eq_reg_l with (10 ^ 10 * 10 ^ 10); [|apply Rmult_integral_contrapositive; lra].
    replace (10 ^ 10 * 10 ^ 10 * / 10 ^ 10) with (10 ^ 10) by (field; lra). lra. }
  pose proof (lmpar_solves 1 1 J (s_fvec st0) r (q_ipvt q) d' qtf (s_delta st1) (s_par st1) K Ind) as Lp.
  specialize (Lp ltac:(intros c Hc; assert (c = 0%nat) by lia; subst; lra) ltac:(rewrite De; lra) ltac:(cbn; lra)).
  cbn [inner]. unfold lm_try. change (s_r st1) with r.
  destruct (lmpar 1 r (q_ipvt q) d' qtf (s_delta st1) (s_par st1)) as [[r' par'] x]. destruct Lp as (_ & Lp & _).
  destruct Lp as (-> & Lx & ->).
  { intros y Hy. rewrite enorm_one, (Eqx y Hy), D1, De. replace (10 ^ 10 * / 10 ^ 10) with 1 by (field; lra). rewrite Rabs_R1.
    assert (1 <= 10 ^ 10) by (apply pow_R1_Rle; lra). lra. }
  pose proof (Eqx x Lx) as X0. cbv zeta.
  set (wa2 := fun i => s_x st1 i + - x i).
  assert (wa2 0%nat = 1 - / 10 ^ 10) as W2 by (unfold wa2; change (s_x st1 0%nat) with 1; rewrite X0; ring).
  assert (jump (place 1 ifree xall wa2) 0%nat = 5) as J5.
  { unfold jump. rewrite Pl, W2. pose proof (Rinv_0_lt_compat _ T10). pose proof pow26.
    destruct (Req_EM_T _ 1); [lra|]. destruct (Req_EM_T _ (1 + / 2 ^ 26)); [lra|auto]. }
  set (pnorm := enorm 0 1 (fun i => d' i * - x i)).
  assert (pnorm = 1) as Pn.
  { unfold pnorm. rewrite enorm_one, D1, X0. replace (10 ^ 10 * - / 10 ^ 10) with (-1) by (field; lra). rewrite Rabs_left; lra. }
  set (fnorm1 := enorm 0 1 (jump (place 1 ifree xall wa2))).
  assert (fnorm1 = 5) as F1 by (unfold fnorm1; rewrite enorm_one, J5; apply Rabs_pos_eq; lra).
  change (s_fnorm st1) with (s_fnorm st0). rewrite Fn, F1, Pn.
  destruct (Rlt_dec (1 / 10 * 5) 1) as [_|N]; [|lra].
  set (wa3 := fold_left _ _ _).
  assert (enorm 0 1 wa3 = 1) as W3.
  { rewrite enorm_one. unfold wa3. cbn [seq fold_left Nat.leb]. unfold upd. cbn [Nat.eqb]. rewrite I0, X0.
    rewrite <- sqrt_Rsqr_abs. rewrite <- sqrt_1. f_equal. unfold Rsqr.
    transitivity (r 0%nat 0%nat * r 0%nat 0%nat * (/ 10 ^ 10 * / 10 ^ 10)); [ring|]. replace (r 0%nat 0%nat * r 0%nat 0%nat) with (10 ^ 10 * 10 ^ 10) by lra. field. }
  rewrite W3, sqrt_0.
  replace (- (5 / 1) ^ 2 + 1) with (-24) by field.
  replace (1 / 1 * (1 / 1) + 0 * 1 / 1 * (0 * 1 / 1) / (5 / 10)) with 1 by field.
  replace (- (1 / 1 * (1 / 1) + 0 * 1 / 1 * (0 * 1 / 1))) with (-1) by field.
  destruct (Req_EM_T 1 0) as [|_]; [lra|]. replace (-24 / 1) with (-24) by field.
  destruct (Rle_dec (-24) (25 / 100)) as [_|N]; [|lra]. destruct (Rle_dec 0 (-24)) as [L|_]; [lra|].
  assert (Rleb (1 / 10000) (-24) = false) as -> by (unfold Rleb; destruct (Rle_dec _ _); [lra|auto]).
  set (t := if _ || _ then 1 / 10 else _).
  assert (0 < t <= 1) as Tt.
  { unfold t. destruct (_ || _); [lra|]. replace (5 / 10 * -1 / (-1 + 5 / 10 * -24)) with (1 / 26) by field. lra. }
  change (Nat.eqb (s_niter st1) 1) with true. cbv iota. rewrite De.
  assert (Rmin (100 * 10 ^ 10) 1 = 1) as ->.
  { apply Rmin_right. assert (1 <= 10 ^ 10) by (apply pow_R1_Rle; lra). lra. }
  assert (Rmin 1 (1 / (1 / 10)) = 1) as -> by (apply Rmin_left; lra).
  cbn [s_xnorm]. rewrite Xn. unfold xtol. replace (/ 10 ^ 10 * 10 ^ 10) with 1 by (field; lra).
  destruct (Rle_dec (t * 1) 1) as [_|N]; [|lra].
  assert (Rleb (Rabs (-24)) ftol = false) as ->.
  { unfold Rleb, ftol. destruct (Rle_dec _ _) as [L|]; [|auto]. rewrite Rabs_left in L by lra.
    assert (/ 10 ^ 10 <= 1) by (rewrite <- Rinv_1; apply Rinv_le_contravar; [lra|apply pow_R1_Rle; lra]). lra. }
  cbn [andb Z.eqb Pos.eqb negb].
  eexists. split; [exact Rd|]. split; [reflexivity|]. cbn [o_status o_params o_fnorm s_x s_fnorm1].
  split; [reflexivity|].
  assert (enorm 0 1 (jump (place 1 ifree xall (s_x st1))) = 1) as En.
  { rewrite enorm_one. rewrite (Je _ xall) by reflexivity. rewrite J1. apply Rabs_R1. }
  split.
  - rewrite <- enorm_chi2. change (s_x st0) with (s_x st1). rewrite En. ring.
  - rewrite En, Rmax_right by lra. ring.
Qed.

(** ---------- linear residuals, statements without section variables *)

Lemma linear_best : forall fuel npar m fcn A y free xall, linear_in npar m free xall fcn A y -> NoDup free ->
  (forall k, In k free -> (k < npar)%nat) -> free <> [] -> (length free <= m)%nat ->
  let n := length free in let B := fun i j => A i (nth j free 0%nat) in
  independent machep m n B ->
  (forall p, least_squares m n B (fcn xall) p -> within_reach m n B (fun j => xall (nth j free 0%nat)) p) ->
  exists o, mpfit (S (S fuel)) fcn npar m free xall = Some (POk o) /\
    (forall k, ~ In k free -> o_params o k = xall k) /\ (1 <= o_status o <= 8)%Z /\
    o_fnorm o = chi2 m fcn (o_params o) /\
    (forall l, (l < n)%nat -> Rabs (dot m (column B l) (fcn (o_params o))) <=
                              / 10 ^ 10 * sqrt (chi2 m fcn (o_params o)) * sqrt (gram m B l l)) /\
    ((forall q, (forall i, ~ In i free -> q i = xall i) -> chi2 m fcn (o_params o) <= chi2 m fcn q) \/
     (o_status o = 4%Z /\ forall i, o_params o i = xall i)) /\
    exists cov err, o_covar o = Some cov /\ o_perror o = Some err /\
      (forall a b, ~ In a free \/ ~ In b free -> cov a b = 0) /\
      (forall a, 0 <= cov a a -> err a * err a = cov a a /\ 0 <= err a) /\
      (independent (/ 10 ^ 14) m n B -> inverse_of n (gram m B) (fun a b => cov (nth a free 0%nat) (nth b free 0%nat))).
Proof. intros. eapply linear_gradient; eauto. Qed.

Lemma exact_best : forall fuel npar m fcn A y free xall t pstar, linear_in npar m free xall fcn A y -> NoDup free ->
  (forall k, In k free -> (k < npar)%nat) -> free <> [] -> (length free <= m)%nat ->
  let n := length free in let B := fun i j => A i (nth j free 0%nat) in
  independent t m n B -> INR n * / 10 ^ 10 < t ->
  (forall k, ~ In k free -> pstar k = xall k) -> (forall i, (i < m)%nat -> fcn pstar i = 0) ->
  within_reach m n B (fun j => xall (nth j free 0%nat)) (fun j => pstar (nth j free 0%nat) - xall (nth j free 0%nat)) ->
  exists o, mpfit (S (S fuel)) fcn npar m free xall = Some (POk o) /\ (1 <= o_status o <= 8)%Z /\ o_fnorm o = 0 /\
    (forall k, o_params o k = pstar k) /\
    exists cov err, o_covar o = Some cov /\ o_perror o = Some err /\
      (forall a b, ~ In a free \/ ~ In b free -> cov a b = 0) /\
      (forall a, 0 <= cov a a -> err a * err a = cov a a /\ 0 <= err a) /\
      inverse_of n (gram m B) (fun a b => cov (nth a free 0%nat) (nth b free 0%nat)).
Proof.
  intros fuel npar m fcn A y free xall t pstar Lin Nd Rg Ne En n B Ind Tt Px P0 Wr. assert (0 < t) as Tp.
  { assert (0 < / 10 ^ 10) by (apply Rinv_0_lt_compat, pow_lt; lra). pose proof (pos_INR n). nra. }
  eapply exact_fit with (t := t); eauto. eapply exact_reachable with (t := t); eauto.
Qed.
