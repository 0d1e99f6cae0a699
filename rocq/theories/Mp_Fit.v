(** The fitter as its caller sees it. *)
From Coq Require Import Reals List Arith ZArith Bool Lra Lia Psatz Permutation.
From Verif Require Import PyRes CBase PyList Mp_Model Mp_Spec Mp_Sums Mp_QR Mp_Solve Mp_Givens Mp_Step Mp_Covar Mp_Run.
Import ListNotations.
Local Open Scope R_scope.

(** ---------- the parameters *)

Lemma place_in : forall free xall x j, NoDup free -> (j < length free)%nat ->
  place (length free) (fun j => nth j free 0%nat) xall x (nth j free 0%nat) = x j.
Proof.
  intros free xall x j Nd Hj. unfold place.
  assert (forall k s, (k <= length free)%nat -> (j < k)%nat ->
    fold_left (fun p j => upd p (nth j free 0%nat) (x j)) (seq 0 k) s (nth j free 0%nat) = x j) as K.
  { induction k as [|k IH]; intros s Hk Hjk; [lia|].
    rewrite seq_S, fold_left_app. cbn. unfold upd at 1.
    destruct (Nat.eqb_spec (nth j free 0%nat) (nth k free 0%nat)) as [E|E].
    - assert (j = k) as -> by (eapply NoDup_nth; eauto; lia). reflexivity.
    - apply IH; [lia|]. assert (j <> k) by congruence. lia. }
  apply K; auto.
Qed.

Lemma place_out : forall free xall x i, ~ In i free ->
  place (length free) (fun j => nth j free 0%nat) xall x i = xall i.
Proof.
  intros free xall x i Hi. unfold place.
  apply (fold_seq_inv0 (fun _ (p : nat -> R) => p i = xall i)); auto.
  intros j p Hj E. unfold upd. destruct (Nat.eqb_spec i (nth j free 0%nat)) as [->|]; auto.
  exfalso. apply Hi. now apply nth_In.
Qed.

Lemma place_assigned : forall free xall x, NoDup free ->
  assigned free xall x (place (length free) (fun j => nth j free 0%nat) xall x).
Proof. intros. split; intros; [now apply place_in|now apply place_out]. Qed.

Lemma place_start : forall free xall, NoDup free -> forall i,
  place (length free) (fun j => nth j free 0%nat) xall (fun j => xall (nth j free 0%nat)) i = xall i.
Proof.
  intros free xall Nd i. destruct (in_dec Nat.eq_dec i free) as [H|H].
  - destruct (In_nth free i 0%nat H) as [j [Hj <-]]. now rewrite place_in.
  - now apply place_out.
Qed.

Lemma enorm_chi2 : forall m fcn p, enorm 0 m (fcn p) ^ 2 = chi2 m fcn p.
Proof.
  intros. unfold chi2, sqlen, dot. rewrite total_ssum. cbn [pow]. rewrite Rmult_1_r. apply enorm_sq.
Qed.

Lemma enorm_sqlen : forall m v, enorm 0 m v * enorm 0 m v = sqlen m v.
Proof. intros. unfold sqlen, dot. rewrite total_ssum. apply enorm_sq. Qed.

Lemma sqrt_machep : sqrt machep = / 2 ^ 26.
Proof.
  unfold machep. replace (/ 2 ^ 52) with (/ 2 ^ 26 * / 2 ^ 26).
  - apply sqrt_square. left. apply Rinv_0_lt_compat, pow_lt. lra.
  - rewrite <- Rinv_mult. f_equal. rewrite <- pow_add. reflexivity.
Qed.

Lemma fd_step_increment : forall x, fd_step x = increment x.
Proof.
  intros x. assert (0 < / 2 ^ 26) by (apply Rinv_0_lt_compat, pow_lt; lra).
  unfold fd_step, increment. rewrite sqrt_machep. destruct (Req_EM_T x 0) as [->|N].
  - rewrite Rabs_R0, Rmult_0_r. destruct (Req_EM_T 0 0); [reflexivity|contradiction].
  - pose proof (Rabs_pos_lt x N). destruct (Req_EM_T _ _) as [E|_]; [nra|]. unfold Rdiv. ring.
Qed.

(** ---------- the start *)

Definition lm_start (fcn : vec -> vec) (m : nat) (free : list nat) (xall : vec) : lm :=
  mk_lm (fun j => xall (nth j free 0%nat)) (fcn xall) (enorm 0 m (fcn xall)) (-1) 0 0 0 1 (fun _ _ => 0).

Lemma start_running : forall fcn npar m free xall, reads npar m fcn -> NoDup free ->
  running fcn (fun j => nth j free 0%nat) xall m (length free) (fun _ => 0) (lm_start fcn m free xall).
Proof.
  intros fcn npar m free xall Hr Nd. split; cbn.
  - split; cbn; auto. intros i Hi. apply (Hr xall); auto. intros k _. symmetry. now apply place_start.
  - lra.
  - unfold maxiter. lia.
  - intros E. contradiction.
  - pose proof (enorm_nonneg 0 m (fcn xall)). lra.
Qed.

(** the numerical derivatives are the slopes *)
Lemma jac_slope : forall fcn npar m free xall st i j, reads npar m fcn -> NoDup free ->
  at_point fcn (fun j => nth j free 0%nat) xall m (length free) st -> (i < m)%nat -> (j < length free)%nat ->
  jac fcn (fun j => nth j free 0%nat) xall (length free) st i j =
  slope fcn (place (length free) (fun j => nth j free 0%nat) xall (s_x st)) (nth j free 0%nat) i.
Proof.
  intros fcn npar m free xall st i j Hr Nd Ap Hi Hj. unfold jac, fdjac2, slope.
  rewrite fd_step_increment. rewrite (place_in free xall (s_x st) j) by auto.
  destruct Ap as [Ap _]. rewrite Ap by auto. reflexivity.
Qed.

Lemma mpfit_unfold : forall fuel fcn npar m free xall, free <> [] -> (length free <= m)%nat ->
  mpfit fuel fcn npar m free xall =
  match outer fuel fcn (fun j => nth j free 0%nat) xall m (length free) (fun _ => 0) (lm_start fcn m free xall) with
  | None => None
  | Some (st, status, ipvt) =>
          let ifree := fun j => nth j free 0%nat in
          let n := length free in
          let params := place n ifree xall (s_x st) in
          let fnorm := enorm 0 m (fcn params) in
          let fnorm := Rmax fnorm (s_fnorm1 st) ^ 2 in
          let cv := calc_covar n (s_r st) ipvt in
          let inv := fun i => first_from (fun j => Nat.eqb (ifree j) i) 0 n in
          let covar := fun a b => if Nat.ltb (inv a) n && Nat.ltb (inv b) n then cv (inv a) (inv b) else 0 in
          let perror := fun a => if Rle_dec 0 (covar a a) then sqrt (covar a a) else 0 in
          Some (POk (mk_mpout params status fnorm (s_niter st) (Some covar) (Some perror)))
  end.
Proof.
  intros fuel fcn npar m free xall Hf Hm. unfold mpfit. destruct free as [|a l]; [contradiction|].
  destruct (Nat.ltb_spec m (length (a :: l))); [lia|]. reflexivity.
Qed.

Lemma at_point_norm : forall fcn ifree xall m n st, at_point fcn ifree xall m n st ->
  enorm 0 m (fcn (place n ifree xall (s_x st))) = s_fnorm st.
Proof. intros fcn ifree xall m n st [A B]. rewrite B. apply enorm_ext. intros i Hi. symmetry. apply A. lia. Qed.

(** ---------- never worse than the start *)

Lemma fit_result : forall fuel fcn npar m free xall o, reads npar m fcn -> NoDup free -> free <> [] -> (length free <= m)%nat ->
  mpfit fuel fcn npar m free xall = Some (POk o) ->
  chi2 m fcn (o_params o) <= chi2 m fcn xall /\
  (forall i, ~ In i free -> o_params o i = xall i) /\
  (1 <= o_status o <= 8)%Z /\ (1 <= o_niter o <= 200)%nat.
Proof.
  intros fuel fcn npar m free xall o Hr Nd Hf Hm H. rewrite mpfit_unfold in H by auto.
  destruct (outer fuel fcn (fun j => nth j free 0%nat) xall m (length free) (fun _ => 0) (lm_start fcn m free xall))
    as [[[st status] ipvt]|] eqn:O; [|discriminate].
  cbv zeta in H. injection H as <-. cbn.
  destruct (outer_spec fuel fcn _ xall m (length free) _ _ st status ipvt Hm (start_running fcn npar m free xall Hr Nd) O)
    as (Ap & Fn & Sr & Ni & _).
  split; [|split; [|split]]; auto.
  - rewrite <- !enorm_chi2. rewrite (at_point_norm _ _ _ _ _ _ Ap). cbn [lm_start s_fnorm] in Fn.
    apply pow_incr. split; auto. now apply (at_point_fnorm _ _ _ _ _ _ Ap).
  - intros i Hi. now apply place_out.
Qed.

(** chi squared as reported: of the result, or of a step that was tried *)
Lemma fit_reported : forall fuel fcn npar m free xall o, reads npar m fcn -> NoDup free -> free <> [] -> (length free <= m)%nat ->
  mpfit fuel fcn npar m free xall = Some (POk o) ->
  chi2 m fcn (o_params o) <= o_fnorm o /\
  (o_fnorm o = chi2 m fcn (o_params o) \/ exists p, (forall i, ~ In i free -> p i = xall i) /\ o_fnorm o = chi2 m fcn p) /\
  (o_status o = 4%Z -> o_fnorm o = chi2 m fcn (o_params o)).
Proof.
  intros fuel fcn npar m free xall o Hr Nd Hf Hm H. rewrite mpfit_unfold in H by auto.
  destruct (outer fuel fcn (fun j => nth j free 0%nat) xall m (length free) (fun _ => 0) (lm_start fcn m free xall))
    as [[[st status] ipvt]|] eqn:O; [|discriminate].
  cbv zeta in H. injection H as <-. cbn [o_params o_fnorm o_status].
  destruct (outer_spec fuel fcn _ xall m (length free) _ _ st status ipvt Hm (start_running fcn npar m free xall Hr Nd) O)
    as (Ap & Fn & Sr & Ni & La & _ & S4).
  rewrite <- enorm_chi2. set (ifree := fun j => nth j free 0%nat) in *.
  set (e := enorm 0 m (fcn (place (length free) ifree xall (s_x st)))).
  assert (e = s_fnorm st) as Ee by apply (at_point_norm _ _ _ _ _ _ Ap).
  assert (0 <= e) as E0 by apply enorm_nonneg.
  change (Rmax e (s_fnorm1 st) * (Rmax e (s_fnorm1 st) * 1)) with (Rmax e (s_fnorm1 st) ^ 2).
  split; [|split].
  - apply pow_incr. split; auto. apply Rmax_l.
  - destruct La as [La|[x Hx]].
    + left. rewrite Rmax_left by lra. reflexivity.
    + destruct (Rle_dec (s_fnorm1 st) e) as [L|L].
      * left. rewrite Rmax_left by lra. reflexivity.
      * right. exists (place (length free) ifree xall x). split.
        -- intros i Hi. now apply place_out.
        -- rewrite Rmax_right by lra. rewrite Hx. apply enorm_chi2.
  - intros Z4. destruct (S4 Z4) as [L _]. rewrite Rmax_left by lra. reflexivity.
Qed.

(** status 4: the residuals are orthogonal to the slopes *)
Lemma fit_gradient : forall fuel fcn npar m free xall o, reads npar m fcn -> NoDup free -> free <> [] -> (length free <= m)%nat ->
  mpfit fuel fcn npar m free xall = Some (POk o) -> o_status o = 4%Z ->
  forall k, In k free ->
    Rabs (dot m (slope fcn (o_params o) k) (fcn (o_params o))) <=
    / 10 ^ 10 * sqrt (sqlen m (fcn (o_params o))) * sqrt (sqlen m (slope fcn (o_params o) k)).
Proof.
  intros fuel fcn npar m free xall o Hr Nd Hf Hm H H4 k Hk. rewrite mpfit_unfold in H by auto.
  destruct (outer fuel fcn (fun j => nth j free 0%nat) xall m (length free) (fun _ => 0) (lm_start fcn m free xall))
    as [[[st status] ipvt]|] eqn:O; [|discriminate].
  cbv zeta in H. injection H as <-. cbn [o_params o_fnorm o_status] in *.
  destruct (outer_spec fuel fcn _ xall m (length free) _ _ st status ipvt Hm (start_running fcn npar m free xall Hr Nd) O)
    as (Ap & Fn & Sr & Ni & La & _ & S4).
  destruct (S4 H4) as [_ G]. destruct (In_nth free k 0%nat Hk) as [j [Hj <-]]. specialize (G j Hj).
  set (ifree := fun j => nth j free 0%nat) in *. set (J := jac fcn ifree xall (length free) st) in *.
  set (P := place (length free) ifree xall (s_x st)) in *.
  assert (forall i, (i < m)%nat -> J i j = slope fcn P (nth j free 0%nat) i) as Js.
  { intros i Hi. exact (jac_slope fcn npar m free xall st i j Hr Nd Ap Hi Hj). }
  assert (forall i, (i < m)%nat -> s_fvec st i = fcn P i) as Fs by (intros i Hi; apply Ap; auto).
  replace (sqrt (sqlen m (fcn P))) with (s_fnorm st).
  2:{ rewrite <- (at_point_norm _ _ _ _ _ _ Ap). unfold enorm, sqlen, dot. rewrite total_ssum. reflexivity. }
  replace (sqrt (sqlen m (slope fcn P (nth j free 0%nat)))) with (acnorm m J j).
  2:{ unfold acnorm, enorm, sqlen, dot. rewrite total_ssum. f_equal. apply ssum_ext. intros i Hi. rewrite !Js by lia. reflexivity. }
  replace (dot m (slope fcn P (nth j free 0%nat)) (fcn P)) with (dot m (column J j) (s_fvec st)); [exact G|].
  unfold dot, column. apply total_ext. intros i Hi. rewrite Js, Fs by auto. reflexivity.
Qed.

(** ---------- the covariance matrix *)

Lemma gram_ext : forall m J J' a b, (forall i, (i < m)%nat -> J i a = J' i a) -> (forall i, (i < m)%nat -> J i b = J' i b) ->
  gram m J a b = gram m J' a b.
Proof. intros m J J' a b Ha Hb. unfold gram, dot, column. apply total_ext. intros i Hi. now rewrite Ha, Hb. Qed.

Lemma times_ext : forall n J J' p i, (forall j, (j < n)%nat -> J i j = J' i j) -> times n J p i = times n J' p i.
Proof. intros n J J' p i H. unfold times. apply total_ext. intros j Hj. now rewrite H. Qed.

Lemma independent_ext : forall tol m n J J', (forall i j, (i < m)%nat -> (j < n)%nat -> J i j = J' i j) ->
  independent tol m n J -> independent tol m n J'.
Proof.
  intros tol m n J J' E I z k l Hk Hl Hz. specialize (I z k l Hk Hl Hz).
  rewrite (gram_ext m J' J) by (intros; symmetry; auto).
  rewrite (sqlen_ext m (times n J' z) (times n J z)); auto. intros i Hi. apply times_ext. intros j Hj. symmetry. auto.
Qed.

Lemma first_free : forall free j, NoDup free -> (j < length free)%nat ->
  first_from (fun i => Nat.eqb (nth i free 0%nat) (nth j free 0%nat)) 0 (length free) = j.
Proof.
  intros free j Nd Hj.
  assert (forall k i, (i + k = length free)%nat -> (i <= j)%nat ->
    first_from (fun i => Nat.eqb (nth i free 0%nat) (nth j free 0%nat)) i k = j) as K.
  { induction k as [|k IH]; intros i Hi Hij; cbn; [lia|].
    destruct (Nat.eqb_spec (nth i free 0%nat) (nth j free 0%nat)) as [E|E].
    - eapply NoDup_nth; eauto. lia.
    - apply IH; [lia|]. assert (i <> j) by congruence. lia. }
  apply K; lia.
Qed.

Lemma first_not_free : forall free a, ~ In a free -> first_from (fun i => Nat.eqb (nth i free 0%nat) a) 0 (length free) = length free.
Proof.
  intros free a Ha. apply (first_from_none _ (length free) 0). intros i Hi.
  destruct (Nat.eqb_spec (nth i free 0%nat) a) as [<-|]; auto. exfalso. apply Ha. apply nth_In. lia.
Qed.

(** the covariance matrix belongs to the slopes at a point visited on the way;
    it is zero for fixed parameters, and the errors are the roots of its diagonal *)
Lemma fit_covariance : forall fuel fcn npar m free xall o, reads npar m fcn -> NoDup free -> free <> [] -> (length free <= m)%nat ->
  mpfit fuel fcn npar m free xall = Some (POk o) ->
  exists cov err, o_covar o = Some cov /\ o_perror o = Some err /\
    (forall a b, ~ In a free \/ ~ In b free -> cov a b = 0) /\
    (forall a, 0 <= cov a a -> err a * err a = cov a a) /\
    exists p, (forall i, ~ In i free -> p i = xall i) /\ chi2 m fcn p <= chi2 m fcn xall /\
      (o_status o = 4%Z -> forall i, p i = o_params o i) /\
      let J := fun i j => slope fcn p (nth j free 0%nat) i in
      (independent (/ 10 ^ 14) m (length free) J ->
       inverse_of (length free) (gram m J) (fun a b => cov (nth a free 0%nat) (nth b free 0%nat))).
Proof.
  intros fuel fcn npar m free xall o Hr Nd Hf Hm H. rewrite mpfit_unfold in H by auto.
  destruct (outer fuel fcn (fun j => nth j free 0%nat) xall m (length free) (fun _ => 0) (lm_start fcn m free xall))
    as [[[st status] ipvt]|] eqn:O; [|discriminate].
  cbv zeta in H. injection H as <-. cbn [o_params o_fnorm o_status o_covar o_perror] in *.
  destruct (outer_spec fuel fcn _ xall m (length free) _ _ st status ipvt Hm (start_running fcn npar m free xall Hr Nd) O)
    as (Ap & Fn & Sr & Ni & La & (st0 & Ap0 & Fl & S4 & qtf & Fa) & _).
  set (ifree := fun j => nth j free 0%nat) in *. set (n := length free) in *.
  set (cv := calc_covar n (s_r st) ipvt) in *.
  set (inv := fun i => first_from (fun j => Nat.eqb (ifree j) i) 0 n) in *.
  set (covar := fun a b => if Nat.ltb (inv a) n && Nat.ltb (inv b) n then cv (inv a) (inv b) else 0).
  exists covar, (fun a => if Rle_dec 0 (covar a a) then sqrt (covar a a) else 0).
  split; [reflexivity|]. split; [reflexivity|]. split; [|split].
  - intros a b [Ha|Hb]; unfold covar.
    + assert (inv a = n) as -> by (unfold inv, ifree, n; now apply first_not_free). rewrite Nat.ltb_irrefl. reflexivity.
    + assert (inv b = n) as -> by (unfold inv, ifree, n; now apply first_not_free). rewrite Nat.ltb_irrefl, andb_false_r. reflexivity.
  - intros a Ha. destruct (Rle_dec 0 _) as [L|L]; [|contradiction]. apply sqrt_sqrt; auto.
  - exists (place n ifree xall (s_x st0)). split; [intros i Hi; now apply place_out|]. split.
    { rewrite <- !enorm_chi2, (at_point_norm _ _ _ _ _ _ Ap0). apply pow_incr. split; [now apply (at_point_fnorm _ _ _ _ _ _ Ap0)|]. tauto. }
    split. { intros Z4 i. rewrite (S4 Z4). reflexivity. }
    intro I.
    set (J := fun i j => slope fcn (place n ifree xall (s_x st0)) (nth j free 0%nat) i) in *.
    assert (forall i j, (i < m)%nat -> (j < n)%nat -> J i j = jac fcn ifree xall n st0 i j) as Ej.
    { intros i j Hi Hj. unfold J. symmetry. apply (jac_slope fcn npar m free xall st0 i j Hr Nd Ap0 Hi Hj). }
    pose proof (covariance_inverse m n _ _ ipvt (s_r st) qtf Fa (independent_ext _ m n J _ Ej I)) as Inv.
    intros a b Ha Hb. rewrite <- (Inv a b Ha Hb). apply total_ext. intros k Hk.
    rewrite (gram_ext m J (jac fcn ifree xall n st0)) by auto. f_equal. unfold covar.
    assert (inv (nth k free 0%nat) = k) as -> by (unfold inv, ifree, n; now apply first_free).
    assert (inv (nth b free 0%nat) = b) as -> by (unfold inv, ifree, n; now apply first_free).
    destruct (Nat.ltb_spec k n), (Nat.ltb_spec b n); try lia. reflexivity.
Qed.

(** ---------- the iteration ends *)

Lemma outer_mono : forall f k fcn ifree xall m n diag st res,
  outer f fcn ifree xall m n diag st = Some res -> outer (f + k) fcn ifree xall m n diag st = Some res.
Proof.
  induction f as [|f IH]; intros k fcn ifree xall m n diag st res H; [discriminate|].
  change (S f + k)%nat with (S (f + k)). rewrite outer_step in H |- *. cbv zeta in *.
  destruct (r_qtf m n (qrfac m n (jac fcn ifree xall n st)) (s_fvec st)) as [r qtf].
  destruct (Rle_dec _ gtol); auto.
  destruct (inner f _ _ _ _ _ _ _ _ _ _) as [[st2 s2]|] eqn:E; [|discriminate].
  rewrite (inner_mono _ k _ _ _ _ _ _ _ _ _ _ _ E). destruct (negb _); auto.
Qed.

Lemma xtol_pos : 0 < xtol.
Proof. unfold xtol. apply Rinv_0_lt_compat, pow_lt. lra. Qed.

Lemma enorm_pos : forall n d x j, (forall c, (c < n)%nat -> 0 < d c) -> (j < n)%nat -> x j <> 0 -> 0 < enorm 0 n (fun i => d i * x i).
Proof.
  intros n d x j Hd Hj Hx. destruct (Rle_lt_or_eq_dec 0 _ (enorm_nonneg 0 n (fun i => d i * x i))) as [L|E]; auto.
  symmetry in E. pose proof (enorm_zero 0 n _ E j ltac:(lia)) as Z. cbv beta in Z. specialize (Hd j Hj). exfalso. apply Hx. nra.
Qed.

(** the fitter never gets to the point where all free parameters are zero *)
Lemma outer_ends : forall todo fcn ifree xall m n diag st, (n <= m)%nat -> (todo = maxiter - s_niter st)%nat ->
  running fcn ifree xall m n diag st ->
  (forall x, (forall j, (j < n)%nat -> x j = 0) -> s_fnorm st <= enorm 0 m (fcn (place n ifree xall x))) ->
  (exists j, (j < n)%nat /\ s_x st j <> 0) ->
  exists N, outer N fcn ifree xall m n diag st <> None.
Proof.
  induction todo as [todo IH] using lt_wf_ind. intros fcn ifree xall m n diag st Hnm Ht Rn Hz Hx.
  set (J := jac fcn ifree xall n st).
  pose proof (qr_correct m n J (s_fvec st) Hnm) as Qc. cbv zeta in Qc.
  destruct (r_qtf m n (qrfac m n J) (s_fvec st)) as [r qtf] eqn:Eq.
  pose proof (running_prepared fcn ifree xall m n diag st r Rn) as Pre. cbv zeta in Pre. fold J in Pre.
  set (d := diag_in st (acnorm m J) diag) in *. set (st1 := prepared m n J d st r) in *.
  destruct Pre as (A & B & C & D & E & F & G & K & L & M).
  set (gn := grad_norm n r qtf (q_ipvt (qrfac m n J)) (acnorm m J) (s_fnorm st)).
  set (d' := fun j => Rmax (acnorm m J j) (d j)).
  assert (forall c, (c < n)%nat -> 0 < d' c) as Dp.
  { intros c Hc. unfold d'. pose proof (Rmax_r (acnorm m J c) (d c)). specialize (A c Hc). lra. }
  destruct (Rle_dec gn gtol) as [Lg|Lg].
  { exists 1%nat. rewrite outer_step. cbv zeta. fold J. rewrite Eq. fold gn. destruct (Rle_dec gn gtol); [discriminate|contradiction]. }
  assert (0 < s_xnorm st1) as Xp.
  { rewrite D, F. destruct Hx as [j [Hj Hx]]. now apply (enorm_pos n d (s_x st) j). }
  (* enough rounds for the inner loop *)
  assert (exists k, s_delta st1 <= 2 ^ k * (xtol * s_xnorm st1)) as [k Hk].
  { pose proof xtol_pos. assert (0 < xtol * s_xnorm st1) as Y by nra.
    destruct (Pow_x_infinity 2 ltac:(rewrite Rabs_right; lra) (s_delta st1 / (xtol * s_xnorm st1))) as [k Hk].
    exists k. specialize (Hk k (le_n k)). rewrite Rabs_right in Hk.
    - apply Rmult_ge_compat_r with (r := xtol * s_xnorm st1) in Hk; [|lra].
      unfold Rdiv in Hk. rewrite Rmult_assoc, Rinv_l in Hk by lra. lra.
    - left. apply pow_lt. lra. }
  pose proof (inner_ends k fcn ifree xall m n (q_ipvt (qrfac m n J)) d' qtf gn st1 (f_perm _ _ _ _ _ _ _ Qc) Dp B C Xp
    (at_point_fnorm _ _ _ _ _ _ E) Hk) as Ie.
  destruct (inner (S k) fcn ifree xall m n (q_ipvt (qrfac m n J)) d' qtf gn st1) as [[st2 s2]|] eqn:In; [|contradiction].
  destruct (Z.eqb_spec s2 0) as [->|Ns].
  - destruct (running_next (S k) fcn ifree xall m n diag st r qtf gn st2 Rn (f_perm _ _ _ _ _ _ _ Qc) In) as (R2 & Fl & N2).
    pose proof (r_niter _ _ _ _ _ _ _ R2) as Ni2. pose proof (r_niter _ _ _ _ _ _ _ Rn) as Ni.
    destruct (IH (maxiter - s_niter st2)%nat ltac:(lia) fcn ifree xall m n d' st2 Hnm eq_refl R2) as [N HN].
    + intros x H0. specialize (Hz x H0). lra.
    + (* not all zero *)
      assert (~ forall j, (j < n)%nat -> s_x st2 j = 0) as Nz.
      { intros H0. specialize (Hz (s_x st2) H0). rewrite (at_point_norm _ _ _ _ _ _ (r_point _ _ _ _ _ _ _ R2)) in Hz. lra. }
      clear - Nz.
      assert (forall k, (k <= n)%nat -> (exists j, (j < n)%nat /\ s_x st2 j <> 0) \/ forall j, (j < k)%nat -> s_x st2 j = 0) as S.
      { induction k as [|k IHk]; intros Hk; [right; intros; lia|].
        destruct (IHk ltac:(lia)) as [X|X]; [now left|].
        destruct (Req_EM_T (s_x st2 k) 0) as [Z|Z].
        - right. intros j Hj. destruct (Nat.eq_dec j k) as [->|]; auto. apply X. lia.
        - left. exists k. split; [lia|auto]. }
      destruct (S n (le_n n)) as [X|X]; [exact X|contradiction].
    + exists (S (S k + N)). rewrite outer_step. cbv zeta. fold J. rewrite Eq. fold gn.
      destruct (Rle_dec gn gtol); [contradiction|]. fold d. fold d'. fold st1.
      rewrite (inner_mono _ N _ _ _ _ _ _ _ _ _ _ _ In). cbn [Z.eqb negb].
      destruct (outer N fcn ifree xall m n d' st2) as [res|] eqn:O; [|contradiction].
      rewrite Nat.add_comm. rewrite (outer_mono _ (S k) _ _ _ _ _ _ _ _ O). discriminate.
  - exists (S (S k)). rewrite outer_step. cbv zeta. fold J. rewrite Eq. fold gn.
    destruct (Rle_dec gn gtol); [contradiction|]. fold d. fold d'. fold st1. rewrite In.
    destruct (Z.eqb_spec s2 0); [contradiction|]. discriminate.
Qed.

Lemma fit_ends : forall fcn npar m free xall, reads npar m fcn -> NoDup free ->
  (forall p, (forall i, In i free -> p i = 0) -> (forall i, ~ In i free -> p i = xall i) -> chi2 m fcn xall <= chi2 m fcn p) ->
  (exists i, In i free /\ xall i <> 0) ->
  exists N res, forall fuel, (N <= fuel)%nat -> mpfit fuel fcn npar m free xall = Some res.
Proof.
  intros fcn npar m free xall Hr Nd Hz [i [Hi Hx]].
  destruct free as [|a0 l0] eqn:Ef; [destruct Hi|]. rewrite <- Ef in *.
  assert (free <> []) as Hf by (rewrite Ef; discriminate).
  destruct (Nat.lt_ge_cases m (length free)) as [Lm|Lm].
  { exists 0%nat. eexists. intros fuel _. unfold mpfit. rewrite Ef at 1. destruct (Nat.ltb_spec m (length free)); [reflexivity|lia]. }
  destruct (outer_ends (maxiter - 1) fcn (fun j => nth j free 0%nat) xall m (length free) (fun _ => 0) (lm_start fcn m free xall) Lm eq_refl
             (start_running fcn npar m free xall Hr Nd)) as [N HN].
  - intros x H0. cbn [lm_start s_fnorm].
    apply Rsqr_incr_0; [|apply enorm_nonneg|apply enorm_nonneg]. unfold Rsqr.
    pose proof (Hz (place (length free) (fun j => nth j free 0%nat) xall x)) as K.
    rewrite <- !enorm_chi2 in K. cbn [pow] in K. rewrite !Rmult_1_r in K. apply K.
    + intros k Hk. destruct (In_nth free k 0%nat Hk) as [j [Hj <-]]. rewrite place_in by auto. auto.
    + intros k Hk. now apply place_out.
  - destruct (In_nth free i 0%nat Hi) as [j [Hj <-]]. exists j. split; auto.
  - destruct (outer N fcn (fun j => nth j free 0%nat) xall m (length free) (fun _ => 0) (lm_start fcn m free xall)) as [[[st s] ip]|] eqn:O; [|contradiction].
    exists N. eexists. intros fuel Hfu. rewrite mpfit_unfold by auto.
    replace fuel with (N + (fuel - N))%nat by lia. rewrite (outer_mono _ (fuel - N) _ _ _ _ _ _ _ _ O). reflexivity.
Qed.
