(** Consequences of [linear_fit]: residuals that can vanish do vanish at the
    result, and a fit of one parameter is a weighted mean. *)
From Coq Require Import Reals List Arith ZArith Bool Lra Lia Psatz Permutation.
From Verif Require Import PyRes CBase PyList Mp_Model Mp_Spec Mp_Sums Mp_QR Mp_Solve Mp_Step Mp_Covar Mp_Run Mp_Fit Mp_Linear.
Import ListNotations.
Local Open Scope R_scope.

Lemma sq_pos : forall x, x <> 0 -> 0 < x ^ 2.
Proof. intros x N. replace (x ^ 2) with (Rsqr x) by (unfold Rsqr; ring). now apply Rsqr_pos_lt. Qed.

Lemma gram_nonneg : forall m J l, 0 <= gram m J l l.
Proof. intros. unfold gram. apply sqlen_nonneg. Qed.

Lemma independent_mono : forall t t' m n J, 0 <= t <= t' -> independent t' m n J -> independent t m n J.
Proof.
  intros t t' m n J Ht I z k l Hk Hl Hz. apply Rle_lt_trans with (2 := I z k l Hk Hl Hz).
  apply Rmult_le_compat_r; [apply gram_nonneg|]. apply pow_incr. auto.
Qed.

Lemma times_scal : forall n J c z i, times n J (fun k => c * z k) i = c * times n J z i.
Proof.
  intros. unfold times. rewrite !total_ssum, <- ssum_scal. apply ssum_ext. intros. ring.
Qed.

Lemma sqlen_scal : forall m c v, sqlen m (fun i => c * v i) = c ^ 2 * sqlen m v.
Proof. intros. unfold sqlen, dot. rewrite !total_ssum, <- ssum_scal. apply ssum_ext. intros. ring. Qed.

(** the margin for coefficients of any size *)
Lemma independent_bound : forall t m n J z k l, independent t m n J -> (k < n)%nat -> (l < n)%nat ->
  t ^ 2 * gram m J l l * z k ^ 2 <= sqlen m (times n J z).
Proof.
  intros t m n J z k l I Hk Hl. destruct (Req_EM_T (z k) 0) as [E|E].
  - rewrite E. pose proof (sqlen_nonneg m (times n J z)). nra.
  - assert ((fun j => / z k * z j) k = 1) as E1 by (cbv beta; field; auto).
    pose proof (I (fun j => / z k * z j) k l Hk Hl E1) as B.
    rewrite (sqlen_ext m _ (fun i => / z k * times n J z i)) in B by (intros i Hi; apply times_scal).
    rewrite sqlen_scal in B.
    assert (0 < z k ^ 2) as P by (now apply sq_pos).
    apply Rmult_lt_compat_r with (r := z k ^ 2) in B; auto.
    replace ((/ z k) ^ 2 * sqlen m (times n J z) * z k ^ 2) with (sqlen m (times n J z)) in B by (field; auto). lra.
Qed.

(** at a least-squares point the gradient vanishes *)
Lemma least_gradient : forall m n J f, (forall z, sqlen m f <= sqlen m (fun i => f i + times n J z i)) ->
  forall l, (l < n)%nat -> dot m (column J l) f = 0.
Proof.
  intros m n J f H l Hl. set (g := dot m (column J l) f). set (c := gram m J l l).
  assert (forall e, 0 <= 2 * e * g + e ^ 2 * c) as K.
  { intros e. pose proof (H (fun k => if Nat.eqb k l then e else 0)) as He.
    assert (forall i, times n J (fun k => if Nat.eqb k l then e else 0) i = e * J i l) as T.
    { intros i. unfold times. rewrite total_ssum, (ssum_single 0 n l); [|lia|].
      - rewrite Nat.eqb_refl. ring.
      - intros k Hk N. destruct (Nat.eqb_spec k l); [contradiction|ring]. }
    rewrite (sqlen_ext m (fun i => f i + times n J (fun k => if Nat.eqb k l then e else 0) i) (fun i => f i + e * J i l)) in He by (intros i Hi; now rewrite T).
    rewrite sqlen_plus, sqlen_scal in He.
    assert (dot m f (fun i => e * J i l) = e * g) as D.
    { unfold g, dot, column. rewrite !total_ssum, <- ssum_scal. apply ssum_ext. intros. ring. }
    rewrite D in He. fold (column J l) in He. unfold c, gram. unfold sqlen at 3 in He. fold (column J l) in He.
    unfold column in *. lra. }
  pose proof (gram_nonneg m J l) as C. fold c in C.
  pose proof (K (- g / (c + 1))) as K1.
  replace (2 * (- g / (c + 1)) * g + (- g / (c + 1)) ^ 2 * c) with (- (g ^ 2 * (c + 2)) / (c + 1) ^ 2) in K1 by (field; lra).
  destruct (Req_EM_T g 0) as [|N]; auto. exfalso.
  assert (0 < g ^ 2) by (now apply sq_pos).
  assert (- (g ^ 2 * (c + 2)) / (c + 1) ^ 2 < 0); [|lra].
  unfold Rdiv. apply Ropp_lt_cancel. rewrite Ropp_0.
  replace (- (- (g ^ 2 * (c + 2)) * / (c + 1) ^ 2)) with (g ^ 2 * (c + 2) * / (c + 1) ^ 2) by ring.
  apply Rmult_lt_0_compat; [nra|]. apply Rinv_0_lt_compat. nra.
Qed.

Lemma ssum_const : forall k c, ssum 0 k (fun _ => c) = INR k * c.
Proof.
  induction k as [|k IH]; intros c.
  - rewrite ssum_empty by lia. cbn [INR]. ring.
  - rewrite ssum_last by lia. rewrite IH, S_INR. ring.
Qed.

Section Exact.
Variables (npar m : nat) (fcn : vec -> vec) (A : mat) (y : vec) (free : list nat) (xall : vec).
Let n := length free.
Let B : mat := fun i j => A i (nth j free 0%nat).

Hypothesis Lin : linear_in npar m free xall fcn A y.
Hypothesis Nd : NoDup free.
Hypothesis Range : forall k, In k free -> (k < npar)%nat.
Hypothesis Some_free : free <> [].
Hypothesis Enough : (n <= m)%nat.

Lemma n_pos : (0 < n)%nat.
Proof. unfold n. clear - Some_free. destruct free; [now destruct Some_free|cbn; lia]. Qed.

(** the first step is not shortened *)
Let reachable : Prop := forall p, least_squares m n B (fcn xall) p ->
  within_reach m n B (fun j => xall (nth j free 0%nat)) p.

Lemma lin_diff : forall p q, (forall k, ~ In k free -> p k = xall k) -> (forall k, ~ In k free -> q k = xall k) ->
  forall i, (i < m)%nat -> fcn q i = fcn p i + times n B (fun j => q (nth j free 0%nat) - p (nth j free 0%nat)) i.
Proof.
  intros p q Hp Hq i Hi.
  pose proof (lin_shift npar m fcn A y free xall Lin Nd Range Enough (fun j => p (nth j free 0%nat)) (fun j => q (nth j free 0%nat)) i Hi) as S.
  assert (forall p, (forall k, ~ In k free -> p k = xall k) -> fcn (place (length free) (fun j => nth j free 0%nat) xall (fun j => p (nth j free 0%nat))) i = fcn p i) as E.
  { intros p0 H0. apply (proj1 Lin); auto. intros k _. destruct (in_dec Nat.eq_dec k free) as [I|I].
    - destruct (In_nth free k 0%nat I) as [j [Hj <-]]. now rewrite place_in.
    - rewrite place_out by auto. symmetry. auto. }
  rewrite !E in S by auto. exact S.
Qed.

(** whichever way it ended, the gradient at the result is below the tolerance *)
Lemma linear_gradient : forall fuel, independent machep m n B -> reachable ->
  exists o, mpfit (S (S fuel)) fcn npar m free xall = Some (POk o) /\
    (forall k, ~ In k free -> o_params o k = xall k) /\ (1 <= o_status o <= 8)%Z /\
    o_fnorm o = chi2 m fcn (o_params o) /\
    (forall l, (l < n)%nat -> Rabs (dot m (column B l) (fcn (o_params o))) <=
                              / 10 ^ 10 * sqrt (chi2 m fcn (o_params o)) * sqrt (gram m B l l)) /\
    ((forall q, (forall i, ~ In i free -> q i = xall i) -> chi2 m fcn (o_params o) <= chi2 m fcn q) \/
     (o_status o = 4%Z /\ forall i, o_params o i = xall i)) /\
    exists cov err, o_covar o = Some cov /\ o_perror o = Some err /\
      (forall a b, ~ In a free \/ ~ In b free -> cov a b = 0) /\
      (forall a, 0 <= cov a a -> err a * err a = cov a a /\ 0 <= err a) /\
      (independent (/ 10 ^ 14) m n B -> inverse_of n (gram m B) (fun a b => cov (nth a free 0%nat) (nth b free 0%nat))).
Proof.
  intros fuel Ind Re.
  destruct (linear_fit npar m fcn A y free xall Lin Nd Range Some_free Enough Ind fuel Re) as (o & Ho & Alt & Fn & Cv).
  destruct (fit_result _ fcn npar m free xall o (proj1 Lin) Nd Some_free Enough Ho) as (_ & Fx & St & _).
  exists o. split; [auto|]. split; [auto|]. split; [auto|]. split; [auto|]. split; [|split; [auto|]].
  - intros l Hl. assert (0 <= / 10 ^ 10 * sqrt (chi2 m fcn (o_params o)) * sqrt (gram m B l l)) as Pos.
    { apply Rmult_le_pos; [|apply sqrt_pos]. apply Rmult_le_pos; [|apply sqrt_pos]. left. apply Rinv_0_lt_compat, pow_lt. lra. }
    destruct Alt as [Mi|[S4 Eq]].
    + rewrite (least_gradient m n B (fcn (o_params o))); auto.
      * rewrite Rabs_R0. auto.
      * intros z. set (q := fun k => if in_dec Nat.eq_dec k free then o_params o k + z (first_from (fun i => Nat.eqb (nth i free 0%nat) k) 0 n) else xall k).
        assert (forall k, ~ In k free -> q k = xall k) as Hq.
        { intros k Hk. unfold q. destruct (in_dec Nat.eq_dec k free); [contradiction|auto]. }
        specialize (Mi q Hq). unfold chi2 in Mi. eapply Rle_trans; [exact Mi|]. right. apply sqlen_ext. intros i Hi.
        rewrite (lin_diff (o_params o) q) by auto. f_equal. unfold times. apply total_ext. intros j Hj. f_equal.
        unfold q. destruct (in_dec Nat.eq_dec (nth j free 0%nat) free) as [_|N].
        -- unfold n. rewrite first_free by auto. ring.
        -- exfalso. apply N, nth_In. auto.
    + pose proof (fit_gradient _ fcn npar m free xall o (proj1 Lin) Nd Some_free Enough Ho S4 (nth l free 0%nat) (nth_In _ _ Hl)) as G.
      assert (forall i, (i < m)%nat -> slope fcn (o_params o) (nth l free 0%nat) i = column B l i) as Sl.
      { intros i Hi. apply (lin_slope npar m fcn A y free xall Lin Range Enough); auto. now apply nth_In. }
      unfold chi2. replace (gram m B l l) with (sqlen m (slope fcn (o_params o) (nth l free 0%nat))).
      * replace (dot m (column B l) (fcn (o_params o))) with (dot m (slope fcn (o_params o) (nth l free 0%nat)) (fcn (o_params o))); auto.
        unfold dot. apply total_ext. intros i Hi. now rewrite Sl.
      * unfold gram. apply sqlen_ext. auto.
  - destruct (fit_covariance _ fcn npar m free xall o (proj1 Lin) Nd Some_free Enough Ho) as (cov & err & Hc & He & Z & Er & _).
    exists cov, err. split; [auto|]. split; [auto|]. split; [auto|]. split.
    + intros a Ha. split; [auto|].
      rewrite mpfit_unfold in Ho by auto. destruct (outer _ _ _ _ _ _ _ _) as [[[st status] ipvt]|]; [|discriminate].
      injection Ho as <-. cbn [o_perror] in He. injection He as <-.
      destruct (Rle_dec 0 _); [apply sqrt_pos|lra].
    + intros I14. destruct (Cv I14) as (cov' & Hc' & Inv). rewrite Hc in Hc'. injection Hc' as <-. exact Inv.
Qed.

(** residuals that some values of the free parameters bring to zero are brought
    to zero, and by no other values *)
Lemma exact_fit : forall fuel t pstar, reachable -> independent t m n B -> INR n * / 10 ^ 10 < t ->
  (forall k, ~ In k free -> pstar k = xall k) -> (forall i, (i < m)%nat -> fcn pstar i = 0) ->
  exists o, mpfit (S (S fuel)) fcn npar m free xall = Some (POk o) /\ (1 <= o_status o <= 8)%Z /\ o_fnorm o = 0 /\
    (forall k, o_params o k = pstar k) /\
    exists cov err, o_covar o = Some cov /\ o_perror o = Some err /\
      (forall a b, ~ In a free \/ ~ In b free -> cov a b = 0) /\
      (forall a, 0 <= cov a a -> err a * err a = cov a a /\ 0 <= err a) /\
      inverse_of n (gram m B) (fun a b => cov (nth a free 0%nat) (nth b free 0%nat)).
Proof.
  intros fuel t pstar Re It Ht Off Zero.
  assert (0 < INR n) as Hn by (apply lt_0_INR, n_pos).
  assert (0 < / 10 ^ 10) as P10 by (apply Rinv_0_lt_compat, pow_lt; lra).
  assert (1 <= INR n) as Hn1 by (apply (le_INR 1), n_pos).
  assert (/ 10 ^ 10 < t) as Tt by nra.
  assert (machep <= / 10 ^ 10) as M10.
  { unfold machep. apply Rinv_le_contravar; [apply pow_lt; lra|]. 
    replace (10 ^ 10) with (IZR (10 ^ 10)) by (rewrite pow_IZR; reflexivity).
    replace (2 ^ 52) with (IZR (2 ^ 52)) by (rewrite pow_IZR; reflexivity). apply IZR_le. vm_compute. discriminate. }
  assert (/ 10 ^ 14 <= / 10 ^ 10) as M14.
  { apply Rinv_le_contravar; [apply pow_lt; lra|]. apply Rle_pow; [lra|lia]. }
  pose proof machep_pos as Mp. assert (0 < / 10 ^ 14) as P14 by (apply Rinv_0_lt_compat, pow_lt; lra).
  destruct (linear_gradient fuel (independent_mono machep t m n B ltac:(lra) It) Re)
    as (o & Ho & Fx & St & Fn & Gr & Alt & cov & err & Hc & He & Zc & Er & Cv).
  specialize (Cv (independent_mono (/ 10 ^ 14) t m n B ltac:(lra) It)).
  assert (chi2 m fcn (o_params o) = 0) as Chi.
  { set (z := fun j => pstar (nth j free 0%nat) - o_params o (nth j free 0%nat)).
    set (f := fcn (o_params o)).
    assert (forall i, (i < m)%nat -> times n B z i = - f i) as T.
    { intros i Hi. pose proof (lin_diff (o_params o) pstar Fx Off i Hi) as D. rewrite Zero in D by auto. fold z in D. fold f in D. lra. }
    assert (sqlen m (times n B z) = sqlen m f) as Sq.
    { rewrite (sqlen_ext m _ (fun i => -1 * f i)) by (intros i Hi; rewrite T by auto; ring). rewrite sqlen_scal. ring. }
    assert (sqlen m f = - total n (fun j => z j * dot m (column B j) f)) as Ex.
    { unfold sqlen at 1. transitivity (- dot m f (times n B z)).
      - unfold dot. rewrite !total_ssum. replace (- ssum 0 m (fun i => f i * times n B z i)) with (-1 * ssum 0 m (fun i => f i * times n B z i)) by ring.
        rewrite <- ssum_scal. apply ssum_ext. intros i Hi. rewrite T by lia. ring.
      - rewrite dot_times. f_equal. apply total_ext. intros j Hj. rewrite (dot_sym m (column B j) f). ring. }
    change (sqlen m f = 0). set (s := sqrt (sqlen m f)).
    pose proof (sqlen_nonneg m f) as Nn. assert (s * s = sqlen m f) as Ss by (apply sqrt_sqrt; auto). assert (0 <= s) as Sp by apply sqrt_pos.
    assert (forall j, (j < n)%nat -> Rabs (z j * dot m (column B j) f) <= / 10 ^ 10 * / t * (s * s)) as Bd.
    { intros j Hj. rewrite Rabs_mult. pose proof (Gr j Hj) as G. fold f in G. change (chi2 m fcn (o_params o)) with (sqlen m f) in G. fold s in G.
      pose proof (independent_bound t m n B z j j It Hj Hj) as Ib. rewrite Sq, <- Ss in Ib.
      set (c := sqrt (gram m B j j)) in *. assert (c * c = gram m B j j) as Cc by (apply sqrt_sqrt, gram_nonneg). assert (0 <= c) as Cp by apply sqrt_pos.
      rewrite <- Cc in Ib.
      assert (Rabs (z j) * c * t <= s) as Zb.
      { apply Rsqr_incr_0_var; auto. unfold Rsqr. replace (Rabs (z j) * c * t * (Rabs (z j) * c * t)) with (t ^ 2 * (c * c) * (Rabs (z j) ^ 2)) by ring.
        rewrite pow2_abs. lra. }
      pose proof (Rabs_pos (z j)).
      apply Rle_trans with (Rabs (z j) * (/ 10 ^ 10 * s * c)); [apply Rmult_le_compat_l; auto|].
      assert (Rabs (z j) * c <= s * / t) as Zb2.
      { apply Rmult_le_reg_r with t; [lra|]. replace (s * / t * t) with s by (field; lra). lra. }
      replace (Rabs (z j) * (/ 10 ^ 10 * s * c)) with (/ 10 ^ 10 * s * (Rabs (z j) * c)) by ring.
      replace (/ 10 ^ 10 * / t * (s * s)) with (/ 10 ^ 10 * s * (s * / t)) by ring.
      apply Rmult_le_compat_l; auto. apply Rmult_le_pos; lra. }
    assert (sqlen m f <= INR n * (/ 10 ^ 10 * / t * (s * s))) as Fin.
    { rewrite Ex. apply Rle_trans with (ssum 0 n (fun _ => / 10 ^ 10 * / t * (s * s))).
      - rewrite total_ssum. replace (- ssum 0 n (fun j => z j * dot m (column B j) f)) with (-1 * ssum 0 n (fun j => z j * dot m (column B j) f)) by ring.
        rewrite <- ssum_scal. apply ssum_le_ext. intros j Hj. specialize (Bd j ltac:(lia)).
        pose proof (Rabs_pos (z j * dot m (column B j) f)). unfold Rabs in *. destruct (Rcase_abs _); lra.
      - right. apply ssum_const. }
    rewrite Ss in Fin.
    assert (INR n * / 10 ^ 10 * / t < 1) as L1.
    { apply Rmult_lt_reg_r with t; [lra|]. replace (INR n * / 10 ^ 10 * / t * t) with (INR n * / 10 ^ 10) by (field; lra). lra. }
    replace (INR n * (/ 10 ^ 10 * / t * sqlen m f)) with (INR n * / 10 ^ 10 * / t * sqlen m f) in Fin by ring.
    nra. }
  assert (forall i, (i < m)%nat -> fcn (o_params o) i = 0) as Z0.
  { intros i Hi. unfold chi2, sqlen, dot in Chi. rewrite total_ssum in Chi. apply (ssum_sq_zero 0 m _ Chi i). lia. }
  exists o. split; [auto|]. split; [auto|]. split; [now rewrite Fn|]. split; [|exists cov, err; auto].
  intros k. destruct (in_dec Nat.eq_dec k free) as [I|I]; [|now rewrite Fx, Off].
  destruct (In_nth free k 0%nat I) as [j [Hj <-]].
  set (z := fun j => pstar (nth j free 0%nat) - o_params o (nth j free 0%nat)).
  assert (sqlen m (times n B z) = 0) as Sz.
  { unfold sqlen, dot. rewrite total_ssum. apply ssum_0. intros i Hi.
    pose proof (lin_diff (o_params o) pstar Fx Off i ltac:(lia)) as D. rewrite Zero, Z0 in D by lia. fold z in D.
    replace (times n B z i) with 0 by lra. ring. }
  pose proof (independent_bound t m n B z j j It Hj Hj) as Ib. rewrite Sz in Ib.
  pose proof (column_pos m A free Enough (independent_mono machep t m n B ltac:(lra) It) j Hj) as Cp. fold B in Cp.
  assert (z j ^ 2 <= 0) as Zj.
  { assert (0 < t ^ 2 * gram m B j j) by (apply Rmult_lt_0_compat; auto; apply pow_lt; lra). nra. }
  assert (z j = 0) by nra. unfold z in H. lra.
Qed.

(** the step to the zero of the residuals is the only least-squares step *)
Lemma exact_reachable : forall t pstar, 0 < t -> independent t m n B ->
  (forall k, ~ In k free -> pstar k = xall k) -> (forall i, (i < m)%nat -> fcn pstar i = 0) ->
  within_reach m n B (fun j => xall (nth j free 0%nat)) (fun j => pstar (nth j free 0%nat) - xall (nth j free 0%nat)) ->
  reachable.
Proof.
  intros t pstar Ht It Off Zero W p Ls.
  set (s := fun j => pstar (nth j free 0%nat) - xall (nth j free 0%nat)) in *.
  assert (forall i, (i < m)%nat -> fcn xall i + times n B s i = 0) as Zs.
  { intros i Hi. pose proof (lin_diff xall pstar (fun _ _ => eq_refl) Off i Hi) as D. rewrite Zero in D by auto. symmetry. exact D. }
  assert (sqlen m (times n B (fun j => p j - s j)) = 0) as Z.
  { rewrite (sqlen_ext m _ (fun i => fcn xall i + times n B p i)).
    - apply Rle_antisym; [|apply sqlen_nonneg]. eapply Rle_trans; [apply (Ls s)|]. right.
      unfold sqlen, dot. rewrite total_ssum. apply ssum_0. intros i Hi. rewrite Zs by lia. ring.
    - intros i Hi. rewrite times_minus. specialize (Zs i Hi). lra. }
  assert (forall j, (j < n)%nat -> p j = s j) as E.
  { intros j Hj. pose proof (independent_bound t m n B (fun j => p j - s j) j j It Hj Hj) as Ib. cbv beta in Ib. rewrite Z in Ib.
    assert (0 < gram m B j j) as Cp.
    { pose proof (It (fun k => if Nat.eqb k j then 1 else 0) j j Hj Hj) as I. cbv beta in I. rewrite Nat.eqb_refl in I. specialize (I eq_refl).
      assert (sqlen m (times n B (fun k => if Nat.eqb k j then 1 else 0)) = gram m B j j) as Eq.
      { unfold sqlen, gram, dot, column. apply total_ext. intros i Hi.
        assert (times n B (fun k => if Nat.eqb k j then 1 else 0) i = B i j) as ->; auto.
        unfold times. rewrite total_ssum, (ssum_single 0 n j).
        - rewrite Nat.eqb_refl. ring.
        - lia.
        - intros k Hk Hkj. destruct (Nat.eqb_spec k j); [contradiction|ring]. }
      rewrite Eq in I. pose proof (gram_nonneg m B j) as G. destruct (Rle_lt_or_eq_dec 0 _ G) as [|Z0]; auto. rewrite <- Z0 in I. lra. }
    assert (0 < t ^ 2 * gram m B j j) by (apply Rmult_lt_0_compat; auto; apply pow_lt; auto).
    assert ((p j - s j) ^ 2 <= 0) by nra. nra. }
  unfold within_reach in *. cbv zeta in *. replace (scaled_length m n B p) with (scaled_length m n B s); auto.
  unfold scaled_length. f_equal. unfold sqlen, dot. apply total_ext. intros j Hj. now rewrite E.
Qed.

End Exact.
