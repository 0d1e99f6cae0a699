(** Residuals that are linear in the parameters: the fitter gives the least-squares solution. *)
From Coq Require Import Reals List Arith ZArith Bool Lra Lia Psatz Permutation.
From Verif Require Import PyRes CBase PyList Mp_Model Mp_Spec Mp_Sums Mp_QR Mp_Solve Mp_Givens Mp_Step Mp_Covar Mp_Run Mp_Fit.
Import ListNotations.
Local Open Scope R_scope.

(** ---------- sums over the free parameters *)

Lemma NoDup_app_intro : forall (l l' : list nat), NoDup l -> NoDup l' -> (forall x, In x l -> In x l' -> False) -> NoDup (l ++ l').
Proof.
  induction l as [|a l IH]; intros l' H H' D; cbn; auto. inversion H as [|? ? Na Hl]; subst. constructor.
  - rewrite in_app_iff. intros [I|I]; [contradiction|]. apply (D a); auto. now left.
  - apply IH; auto. intros x Hx Hx'. apply (D x); auto. now right.
Qed.

Lemma rsum_support : forall (g : nat -> R) l N, NoDup l -> (forall k, In k l -> (k < N)%nat) ->
  (forall k, (k < N)%nat -> ~ In k l -> g k = 0) -> rsum (map g (seq 0 N)) = rsum (map g l).
Proof.
  intros g l N Nd Hin Hz.
  set (rest := filter (fun k => negb (existsb (Nat.eqb k) l)) (seq 0 N)).
  assert (forall k, In k rest <-> (k < N)%nat /\ ~ In k l) as Hr.
  { intros k. unfold rest. rewrite filter_In, in_seq. split.
    - intros [A B]. split; [lia|]. intros C. apply negb_true_iff in B.
      assert (existsb (Nat.eqb k) l = true) as D by (apply existsb_exists; exists k; split; auto; apply Nat.eqb_refl). congruence.
    - intros [A B]. split; [lia|]. apply negb_true_iff. destruct (existsb (Nat.eqb k) l) eqn:E; auto.
      apply existsb_exists in E. destruct E as [x [Hx Ex]]. apply Nat.eqb_eq in Ex. subst. contradiction. }
  assert (Permutation (seq 0 N) (l ++ rest)) as P.
  { apply NoDup_Permutation.
    - apply seq_NoDup.
    - apply NoDup_app_intro; auto.
      + unfold rest. apply NoDup_filter, seq_NoDup.
      + intros k Hk Hk'. apply Hr in Hk'. tauto.
    - intros k. rewrite in_app_iff, Hr, in_seq. destruct (in_dec Nat.eq_dec k l) as [I|I].
      + split; [intros; now left|]. intros _. specialize (Hin k I). lia.
      + split; [intros Hk; right; split; [lia|auto]|]. intros [J|[J _]]; [contradiction|lia]. }
  rewrite (rsum_perm _ _ (Permutation_map g P)), map_app, rsum_app.
  rewrite (rsum_zero g rest); [ring|]. intros k Hk. apply Hr in Hk. apply Hz; tauto.
Qed.

Lemma map_nth_seq : forall (g : nat -> R) (l : list nat), map g l = map (fun j => g (nth j l 0%nat)) (seq 0 (length l)).
Proof.
  intros g l. apply nth_ext with (d := 0) (d' := 0); rewrite !map_length, ?seq_length; auto.
  intros n Hn. rewrite (nth_indep _ 0 (g 0%nat)) by (rewrite map_length; auto). rewrite map_nth.
  rewrite (nth_indep (map (fun j => g (nth j l 0%nat)) _) 0 (g (nth 0 l 0%nat))) by (rewrite map_length, seq_length; auto).
  rewrite (map_nth (fun j => g (nth j l 0%nat))). rewrite seq_nth by auto. reflexivity.
Qed.

Section Linear.
Variables (npar m : nat) (fcn : vec -> vec) (A : mat) (y : vec) (free : list nat) (xall : vec).
Let n := length free.
Let ifree := fun j => nth j free 0%nat.
Let B : mat := fun i j => A i (nth j free 0%nat).

Hypothesis Lin : linear_in npar m free xall fcn A y.
Hypothesis Nd : NoDup free.
Hypothesis Range : forall k, In k free -> (k < npar)%nat.
Hypothesis Some_free : free <> [].
Hypothesis Enough : (n <= m)%nat.
Hypothesis Indep : independent machep m n B.

Lemma lin_reads : reads npar m fcn.
Proof. exact (proj1 Lin). Qed.

Lemma lin_at : forall x i, (i < m)%nat -> fcn (place n ifree xall x) i = y i + total npar (fun k => A i k * place n ifree xall x k).
Proof. intros x i Hi. apply (proj2 Lin); auto. intros k Hk. unfold n, ifree. now rewrite place_out. Qed.

Lemma lin_shift : forall x x' i, (i < m)%nat ->
  fcn (place n ifree xall x') i = fcn (place n ifree xall x) i + times n B (fun j => x' j - x j) i.
Proof.
  intros x x' i Hi. rewrite !lin_at by auto.
  assert (total npar (fun k => A i k * place n ifree xall x' k) - total npar (fun k => A i k * place n ifree xall x k) =
          times n B (fun j => x' j - x j) i) as K.
  { rewrite !total_ssum, <- ssum_minus, <- total_ssum.
    unfold total. rewrite (rsum_support _ free npar Nd Range).
    - rewrite map_nth_seq. unfold times, total. f_equal. apply map_ext_in. intros j Hj. apply in_seq in Hj.
      unfold n, ifree in *. rewrite !place_in by (auto; lia). unfold B. ring.
    - intros k _ Hk. unfold n, ifree. rewrite !place_out by auto. ring. }
  lra.
Qed.

Lemma increment_nz : forall x, increment x <> 0.
Proof.
  intros x. assert (0 < / 2 ^ 26) by (apply Rinv_0_lt_compat, pow_lt; lra). unfold increment.
  destruct (Req_EM_T x 0) as [|N]; [lra|]. pose proof (Rabs_pos_lt x N). unfold Rdiv. nra.
Qed.

Lemma lin_slope : forall p k i, (forall j, ~ In j free -> p j = xall j) -> In k free -> (i < m)%nat -> slope fcn p k i = A i k.
Proof.
  intros p k i Hp Hf Hi. pose proof (Range k Hf) as Hk. unfold slope. rewrite !(proj2 Lin); auto.
  2:{ intros j Hj. destruct (Nat.eqb_spec j k) as [->|]; [contradiction|auto]. }
  set (h := increment (p k)). assert (h <> 0) as Hh by apply increment_nz.
  assert (total npar (fun l => A i l * (if Nat.eqb l k then p k + h else p l)) - total npar (fun l => A i l * p l) = A i k * h) as E.
  { rewrite !total_ssum, <- ssum_minus. rewrite (ssum_single 0 npar k).
    - rewrite Nat.eqb_refl. ring.
    - lia.
    - intros l Hl Hlk. destruct (Nat.eqb_spec l k); [contradiction|ring]. }
  replace (y i + total npar (fun l => A i l * (if Nat.eqb l k then p k + h else p l)) - (y i + total npar (fun l => A i l * p l)))
    with (A i k * h) by lra.
  field. auto.
Qed.

Lemma lin_jac : forall st i j, at_point fcn ifree xall m n st -> (i < m)%nat -> (j < n)%nat -> jac fcn ifree xall n st i j = B i j.
Proof.
  intros st i j Ap Hi Hj. unfold ifree, n in *. rewrite (jac_slope fcn npar m free xall st i j lin_reads Nd Ap Hi Hj).
  apply lin_slope; auto.
  - intros k Hk. now rewrite place_out.
  - now apply nth_In.
Qed.

Lemma factored_ext : forall J J' f f' ipvt r qtf, (forall i j, (i < m)%nat -> (j < n)%nat -> J i j = J' i j) ->
  (forall i, (i < m)%nat -> f i = f' i) -> factored m n J f ipvt r qtf -> factored m n J' f' ipvt r qtf.
Proof.
  intros J J' f f' ipvt r qtf E Ef [P G Q]. split; auto.
  - intros a b Ha Hb. rewrite G by auto. apply gram_ext; intros; apply E; auto; now apply is_perm_lt.
  - intros a Ha. rewrite Q by auto. unfold dot, column. apply total_ext. intros i Hi. rewrite E, Ef; auto. now apply is_perm_lt.
Qed.

Lemma lin_factored : forall st, at_point fcn ifree xall m n st ->
  let q := qrfac m n (jac fcn ifree xall n st) in let '(r, qtf) := r_qtf m n q (s_fvec st) in
  factored m n B (fcn (place n ifree xall (s_x st))) (q_ipvt q) r qtf.
Proof.
  intros st Ap q. pose proof (qr_correct m n (jac fcn ifree xall n st) (s_fvec st) Enough) as K. cbv zeta in K. fold q in K.
  destruct (r_qtf m n q (s_fvec st)) as [r qtf].
  eapply factored_ext; [| |exact K].
  - intros i j Hi Hj. now apply lin_jac.
  - apply Ap.
Qed.

(** no column vanishes *)
Lemma column_pos : forall j, (j < n)%nat -> 0 < gram m B j j.
Proof.
  intros j Hj. pose proof (Indep (fun k => if Nat.eqb k j then 1 else 0) j j Hj Hj) as I. cbv beta in I.
  rewrite Nat.eqb_refl in I. specialize (I eq_refl).
  assert (sqlen m (times n B (fun k => if Nat.eqb k j then 1 else 0)) = gram m B j j) as E.
  { unfold sqlen, gram, dot, column. apply total_ext. intros i Hi.
    assert (times n B (fun k => if Nat.eqb k j then 1 else 0) i = B i j) as ->; auto.
    unfold times. rewrite total_ssum, (ssum_single 0 n j).
    - rewrite Nat.eqb_refl. ring.
    - lia.
    - intros k Hk Hkj. destruct (Nat.eqb_spec k j); [contradiction|ring]. }
  rewrite E in I. pose proof machep_pos. assert (0 <= gram m B j j) by (unfold gram; apply sqlen_nonneg).
  destruct (Rle_lt_or_eq_dec 0 _ H0) as [|Z]; auto. rewrite <- Z in I. lra.
Qed.

Lemma lin_acnorm : forall st j, at_point fcn ifree xall m n st -> (j < n)%nat ->
  acnorm m (jac fcn ifree xall n st) j = sqrt (gram m B j j).
Proof.
  intros st j Ap Hj. unfold acnorm, enorm, gram, dot, column. rewrite total_ssum. f_equal. apply ssum_ext.
  intros i Hi. rewrite !lin_jac by (auto; lia). reflexivity.
Qed.

(** a vanishing gradient passes the test *)
Lemma grad_zero : forall J f ipvt r qtf acn fnorm, factored m n J f ipvt r qtf ->
  (forall j, (j < n)%nat -> dot m (column J j) f = 0) -> grad_norm n r qtf ipvt acn fnorm = 0.
Proof.
  intros J f ipvt r qtf acn fnorm F Z. unfold grad_norm. destruct (Req_EM_T fnorm 0); auto.
  set (step := fun g j => _).
  apply (fold_seq_inv0 (fun _ g => g = 0) step n 0); auto.
  intros a g Ha ->. unfold step. destruct (Req_EM_T _ 0); auto.
  assert (ssum 0 (a + 1) (fun i => r i a * qtf i) = 0) as ->.
  { rewrite <- (Z (ipvt a)) by (apply is_perm_lt; [apply (f_perm _ _ _ _ _ _ _ F)|auto]).
    rewrite <- (f_qtf _ _ _ _ _ _ _ F a Ha).
    rewrite (ssum_split 0 (a + 1) n) by lia.
    rewrite (ssum_0 (a + 1) n) by (intros i Hi; unfold up; destruct (Nat.leb_spec i a); [lia|ring]).
    rewrite Rplus_0_r. apply ssum_ext. intros i Hi. unfold up. destruct (Nat.leb_spec i a); [reflexivity|lia]. }
  unfold Rdiv. rewrite !Rmult_0_l, Rabs_R0. apply Rmax_left. lra.
Qed.

(** 1271-1281: the length of R p *)
Lemma wa3_spec : forall (r : mat) (ipvt : nat -> nat) (v w0 : vec), let w := fold_left (fun w j => let w := upd w j 0 in
     fun i => if Nat.leb i j then w i + r i j * v (ipvt j) else w i) (seq 0 n) w0 in
  forall i, (i < n)%nat -> w i = ssum i n (fun c => r i c * v (ipvt c)).
Proof.
  intros r ipvt v w0 w.
  set (step := fun (w : vec) j => let w := upd w j 0 in fun i => if Nat.leb i j then w i + r i j * v (ipvt j) else w i) in *.
  pose proof (fold_seq_inv0 (fun k (s : vec) => forall i, (i < k)%nat -> s i = ssum i k (fun c => r i c * v (ipvt c))) step n w0) as K.
  cbv beta in K. apply K; [intros; lia|].
  intros j s Hj Hs i Hi. unfold step, upd. destruct (Nat.leb_spec i j); [|lia].
  destruct (Nat.eqb_spec i j) as [->|].
  - rewrite ssum_one. ring.
  - rewrite ssum_last by lia. rewrite Hs by lia. reflexivity.
Qed.

Lemma wa3_len : forall f ipvt r qtf v w0, factored m n B f ipvt r qtf ->
  enorm 0 n (fold_left (fun w j => let w := upd w j 0 in
     fun i => if Nat.leb i j then w i + r i j * v (ipvt j) else w i) (seq 0 n) w0) ^ 2 = sqlen m (times n B v).
Proof.
  intros f ipvt r qtf v w0 F.
  match goal with |- enorm 0 n ?w ^ 2 = _ => set (W := w) end.
  assert (forall i, (i < n)%nat -> W i = ssum i n (fun c => r i c * v (ipvt c))) as HW by exact (wa3_spec r ipvt v w0).
  clearbody W. assert (forall e : R, e ^ 2 = e * e) as Sq by (intros; ring). rewrite Sq, enorm_sq, (factored_len m n B f ipvt r qtf v F).
  apply ssum_ext. intros i Hi. rewrite (HW i) by lia.
  assert (ssum i n (fun c => r i c * v (ipvt c)) = ssum 0 n (fun c => up r i c * v (ipvt c))) as ->; auto.
  rewrite (ssum_split 0 i n) by lia.
  rewrite (ssum_0 0 i) by (intros c Hc; unfold up; destruct (Nat.leb_spec i c); [lia|ring]).
  rewrite Rplus_0_l. apply ssum_ext. intros c Hc. unfold up. destruct (Nat.leb_spec i c); [reflexivity|lia].
Qed.

(** a full step in a linear problem is always taken *)
Lemma lin_try : forall ipvt diag qtf gnorm st p,
  at_point fcn ifree xall m n st -> s_fnorm st <> 0 ->
  factored m n B (fcn (place n ifree xall (s_x st))) ipvt (s_r st) qtf ->
  lmpar n (s_r st) ipvt diag qtf (s_delta st) (s_par st) = (s_r st, 0, p) ->
  lm_equations m n B (fcn (place n ifree xall (s_x st))) diag 0 p ->
  sqlen m (times n B p) <> 0 ->
  let '(st', status, good) := lm_try fcn ifree xall m n ipvt diag qtf gnorm st in
  good = true /\ (forall i, s_x st' i = s_x st i + - p i).
Proof.
  intros ipvt diag qtf gnorm st p Ap Nz F Lp Eq Pn. set (f := fcn (place n ifree xall (s_x st))) in *.
  unfold lm_try. rewrite Lp. cbv zeta.
  set (wa2 := fun i => s_x st i + - p i).
  set (pnorm := enorm 0 n (fun i => diag i * - p i)).
  set (fnorm1 := enorm 0 m (fcn (place n ifree xall wa2))).
  set (actred := if Rlt_dec (1 / 10 * fnorm1) (s_fnorm st) then _ else _).
  set (wa3 := fold_left _ _ _).
  set (temp1 := enorm 0 n wa3 / s_fnorm st).
  rewrite sqrt_0. set (temp2 := 0 * pnorm / s_fnorm st).
  set (prered := temp1 * temp1 + temp2 * temp2 / (5 / 10)).
  set (ratio := if Req_EM_T prered 0 then 0 else actred / prered).
  assert (0 < s_fnorm st) as Fp by (pose proof (at_point_fnorm _ _ _ _ _ _ Ap); lra).
  assert (s_fnorm st ^ 2 = sqlen m f) as Fs.
  { rewrite <- (at_point_norm _ _ _ _ _ _ Ap). cbn [pow]. rewrite Rmult_1_r. apply enorm_sqlen. }
  assert (fnorm1 ^ 2 = sqlen m (fun i => f i + times n B (fun k => - p k) i)) as F1.
  { unfold fnorm1. cbn [pow]. rewrite Rmult_1_r, enorm_sqlen. apply sqlen_ext. intros i Hi.
    rewrite (lin_shift (s_x st)) by auto. fold f. f_equal. unfold times. apply total_ext. intros j Hj. unfold wa2. ring. }
  pose proof (lm_reduction m n B f diag 0 p Eq) as Red.
  assert (s_fnorm st ^ 2 - fnorm1 ^ 2 = sqlen m (times n B p)) as Red' by (rewrite Fs, F1, Red; ring).
  pose proof (sqlen_nonneg m (times n B p)) as Pp.
  assert (0 <= fnorm1) as F0 by apply enorm_nonneg.
  assert (fnorm1 <= s_fnorm st) as Fle by nra.
  assert (prered = sqlen m (times n B p) / s_fnorm st ^ 2) as Pe.
  { unfold prered, temp2, temp1.
    assert (enorm 0 n wa3 ^ 2 = sqlen m (times n B p)) as W.
    { unfold wa3. rewrite (wa3_len f ipvt (s_r st) qtf (fun i => - p i) _ F).
      rewrite (sqlen_ext m _ (fun i => - times n B p i)) by (intros; apply times_opp).
      unfold sqlen, dot. apply total_ext. intros; ring. }
    rewrite <- W. field. lra. }
  assert (actred = prered) as Ae.
  { unfold actred. destruct (Rlt_dec _ _) as [_|L]; [|lra]. rewrite Pe, <- Red'. field. lra. }
  assert (ratio = 1) as Re.
  { unfold ratio. rewrite Ae. assert (prered <> 0).
    { rewrite Pe. intros E. apply Rmult_integral in E. destruct E as [E|E]; [contradiction|].
      assert (0 < s_fnorm st ^ 2) as S2 by (cbn [pow]; nra). pose proof (Rinv_0_lt_compat _ S2). lra. }
    destruct (Req_EM_T prered 0); [contradiction|]. field. auto. }
  rewrite Re.
  assert (Rleb (1 / 10000) 1 = true) as -> by (unfold Rleb; destruct (Rle_dec _ _); [reflexivity|lra]).
  destruct (Rle_dec 1 (25 / 100)) as [L|_]; [lra|].
  destruct (is_zero 0 || Rleb (75 / 100) 1).
  all: match goal with |- context [if negb ?b then _ else _] => destruct (negb b) end; cbn [s_x]; auto.
Qed.

(** ---------- the whole fit *)

(** length of a step, in units of the columns *)
Let scaled : vec -> R := scaled_length m n B.

Lemma enorm_sqrt : forall k v, enorm 0 k v = sqrt (sqlen k v).
Proof. intros. unfold enorm, sqlen, dot. now rewrite total_ssum. Qed.

Lemma ls_normal_point : forall st p, at_point fcn ifree xall m n st ->
  (forall l, (l < n)%nat -> total n (fun k => gram m B l k * p k) = dot m (column B l) (fcn (place n ifree xall (s_x st)))) ->
  forall x', (forall j, (j < n)%nat -> x' j = s_x st j + - p j) ->
  (forall l, (l < n)%nat -> dot m (column B l) (fcn (place n ifree xall x')) = 0) /\
  (forall q, (forall i, ~ In i free -> q i = xall i) -> chi2 m fcn (place n ifree xall x') <= chi2 m fcn q).
Proof.
  intros st p Ap Eq x' Hx'. set (f := fcn (place n ifree xall (s_x st))) in *.
  assert (forall i, (i < m)%nat -> fcn (place n ifree xall x') i = f i + times n B (fun k => - p k) i) as Sh.
  { intros i Hi. rewrite (lin_shift (s_x st)) by auto. fold f. f_equal. unfold times. apply total_ext. intros j Hj. rewrite Hx' by auto. ring. }
  pose proof (normal_residual m n B f p Eq) as Nr. pose proof (normal_least m n B f p Eq) as Ls. split.
  - intros l Hl. rewrite <- (Nr l Hl). unfold dot. apply total_ext. intros i Hi. now rewrite Sh.
  - intros q Hq. unfold chi2. rewrite (sqlen_ext m _ _ Sh).
    rewrite (sqlen_ext m (fcn q) (fun i => f i + times n B (fun j => q (nth j free 0%nat) - s_x st j) i)).
    + apply Ls.
    + intros i Hi. unfold f. rewrite <- (lin_shift (s_x st) (fun j => q (nth j free 0%nat))) by auto.
      apply lin_reads; auto. intros k Hk. unfold n, ifree. destruct (in_dec Nat.eq_dec k free) as [I|I].
      * destruct (In_nth free k 0%nat I) as [j [Hj <-]]. now rewrite place_in.
      * rewrite place_out by auto. auto.
Qed.

Lemma linear_fit : forall fuel,
  (forall p, least_squares m n B (fcn xall) p -> within_reach m n B (fun j => xall (nth j free 0%nat)) p) ->
  exists o, mpfit (S (S fuel)) fcn npar m free xall = Some (POk o) /\
    ((forall q, (forall i, ~ In i free -> q i = xall i) -> chi2 m fcn (o_params o) <= chi2 m fcn q) \/
     (o_status o = 4%Z /\ forall i, o_params o i = xall i)) /\
    o_fnorm o = chi2 m fcn (o_params o) /\
    (independent (/ 10 ^ 14) m n B -> exists cov, o_covar o = Some cov /\
       inverse_of n (gram m B) (fun a b => cov (nth a free 0%nat) (nth b free 0%nat))).
Proof.
  intros fuel Fits.
  (* it is enough to look at the end of the outer loop *)
  assert (exists st status ipvt,
     outer (S (S fuel)) fcn ifree xall m n (fun _ => 0) (lm_start fcn m free xall) = Some (st, status, ipvt) /\
     s_fnorm1 st <= s_fnorm st /\
     ((forall q, (forall i, ~ In i free -> q i = xall i) -> chi2 m fcn (place n ifree xall (s_x st)) <= chi2 m fcn q) \/
      (status = 4%Z /\ s_x st = s_x (lm_start fcn m free xall)))) as (st & status & ipvt & O & La & Res).
  2:{ destruct (outer_spec _ fcn ifree xall m n _ _ st status ipvt Enough (start_running fcn npar m free xall lin_reads Nd) O)
        as (Ap & Fn & Sr & Ni & _ & (st0 & Ap0 & _ & _ & qtf & Fa) & _).
      rewrite mpfit_unfold by auto. fold n. fold ifree. rewrite O. eexists. split; [reflexivity|]. cbn [o_params o_status o_fnorm o_covar].
      split; [|split].
      - destruct Res as [R1|[R1 R2]]; [now left|]. right. split; auto. intros i. rewrite R2. now apply place_start.
      - rewrite <- enorm_chi2. rewrite (at_point_norm _ _ _ _ _ _ Ap). rewrite Rmax_left by lra. reflexivity.
      - intros I. eexists. split; [reflexivity|].
        pose proof (factored_ext _ B _ (s_fvec st0) ipvt (s_r st) qtf (fun i j Hi Hj => lin_jac st0 i j Ap0 Hi Hj) (fun i Hi => eq_refl) Fa) as Fb.
        pose proof (covariance_inverse m n B _ ipvt (s_r st) qtf Fb I) as Inv.
        intros a b Ha Hb. rewrite <- (Inv a b Ha Hb). apply total_ext. intros k Hk. f_equal.
        unfold ifree, n in *.
        rewrite !first_free by auto.
        destruct (Nat.ltb_spec k (length free)), (Nat.ltb_spec b (length free)); try lia. reflexivity. }
  pose proof (start_running fcn npar m free xall lin_reads Nd) as Rn. fold n in Rn. fold ifree in Rn.
  set (st0 := lm_start fcn m free xall) in *.
  pose proof (r_point _ _ _ _ _ _ _ Rn) as Ap.
  rewrite outer_step. cbv zeta.
  set (J := jac fcn ifree xall n st0).
  pose proof (lin_factored st0 Ap) as F. cbv zeta in F. fold J in F.
  destruct (r_qtf m n (qrfac m n J) (s_fvec st0)) as [r qtf].
  pose proof (running_prepared fcn ifree xall m n (fun _ => 0) st0 r Rn) as Pre. cbv zeta in Pre. fold J in Pre.
  assert (diag_in st0 (acnorm m J) (fun _ => 0) = start_diag (acnorm m J)) as Di by reflexivity.
  rewrite Di in *. set (d := start_diag (acnorm m J)) in *.
  destruct Pre as (A0 & B0 & C0 & D0 & E0 & F0 & G0 & K0 & L0 & M0).
  set (gn := grad_norm n r qtf (q_ipvt (qrfac m n J)) (acnorm m J) (s_fnorm st0)).
  destruct (Rle_dec gn gtol) as [Lg|Lg].
  { do 3 eexists. split; [reflexivity|]. split.
    - rewrite M0, G0. apply (r_last _ _ _ _ _ _ _ Rn).
    - right. split; auto. }
  set (st1 := prepared m n J d st0 r) in *.
  set (d' := fun j => Rmax (acnorm m J j) (d j)).
  assert (forall j, (j < n)%nat -> acnorm m J j = sqrt (gram m B j j)) as Acn by (intros j Hj; now apply lin_acnorm).
  assert (forall j, (j < n)%nat -> 0 < sqrt (gram m B j j)) as Sp by (intros j Hj; apply sqrt_lt_R0; now apply column_pos).
  assert (forall j, (j < n)%nat -> d j = sqrt (gram m B j j)) as Dj.
  { intros j Hj. unfold d, start_diag. rewrite Acn by auto. destruct (Req_EM_T (sqrt (gram m B j j)) 0) as [E|]; auto. exfalso. specialize (Sp j Hj). rewrite E in Sp. lra. }
  assert (forall j, (j < n)%nat -> d' j = sqrt (gram m B j j)) as Dj'.
  { intros j Hj. unfold d'. rewrite Dj, Acn by auto. apply Rmax_left. lra. }
  assert (forall c, (c < n)%nat -> 0 < d' c) as Dp by (intros c Hc; rewrite Dj' by auto; auto).
  set (f := fcn (place n ifree xall (s_x st0))) in *.
  assert (forall i, (i < m)%nat -> f i = fcn xall i) as Fx.
  { intros i Hi. apply lin_reads; auto. intros k _. now apply place_start. }
  (* the full step is within reach *)
  assert (forall x, lm_equations m n B f d' 0 x -> enorm 0 n (fun i => d' i * x i) <= 11 / 10 * s_delta st1) as Reach.
  { intros x Eq.
    assert (least_squares m n B (fcn xall) (fun k => - x k)) as Ls.
    { intros z. assert (forall l, (l < n)%nat -> total n (fun k => gram m B l k * x k) = dot m (column B l) f) as Eq'.
      { intros l Hl. rewrite <- (Eq l Hl). ring. }
      pose proof (normal_least m n B f x Eq' z) as Q.
      rewrite (sqlen_ext m (fun i => fcn xall i + times n B (fun k => - x k) i) (fun i => f i + times n B (fun k => - x k) i))
        by (intros i Hi; now rewrite Fx).
      rewrite (sqlen_ext m (fun i => fcn xall i + times n B z i) (fun i => f i + times n B z i)) by (intros i Hi; now rewrite Fx).
      exact Q. }
    specialize (Fits _ Ls). unfold within_reach in Fits. fold scaled in Fits. cbv zeta in Fits.
    assert (scaled (fun k => - x k) = enorm 0 n (fun i => d' i * x i)) as Se.
    { rewrite enorm_sqrt. unfold scaled, scaled_length. f_equal. unfold sqlen, dot. apply total_ext. intros i Hi. rewrite Dj' by auto. ring. }
    assert (scaled (fun j => xall (nth j free 0%nat)) = s_xnorm st1) as Sx.
    { rewrite D0, enorm_sqrt. unfold scaled, scaled_length. f_equal. unfold sqlen, dot. apply total_ext. intros i Hi. rewrite Dj by auto. reflexivity. }
    rewrite Se, Sx in Fits.
    assert (s_delta st1 = if Req_EM_T (factor * s_xnorm st1) 0 then factor else factor * s_xnorm st1) as De by reflexivity.
    rewrite De. unfold factor. destruct (Req_EM_T (s_xnorm st1) 0) as [Z|Z], (Req_EM_T (100 * s_xnorm st1) 0) as [Y|Y].
    all: lra. }
  pose proof (lmpar_solves m n B f (s_r st1) (q_ipvt (qrfac m n J)) d' qtf (s_delta st1) (s_par st1)) as Sol.
  rewrite L0 in Sol. specialize (Sol F Indep Dp B0 C0).
  destruct (lmpar n r (q_ipvt (qrfac m n J)) d' qtf (s_delta st1) (s_par st1)) as [[r' par'] p] eqn:Lp.
  destruct Sol as (_ & Sol & _). destruct (Sol Reach) as (-> & Eq & ->). clear Sol.
  assert (forall l, (l < n)%nat -> total n (fun k => gram m B l k * p k) = dot m (column B l) f) as Eq'.
  { intros l Hl. rewrite <- (Eq l Hl). ring. }
  assert (0 < gtol) as Gp by (unfold gtol; apply Rinv_0_lt_compat, pow_lt; lra).
  (* the step is not zero *)
  assert (sqlen m (times n B p) <> 0) as Pn.
  { intros Z. apply Lg. apply Rle_trans with 0; [|lra]. right. unfold gn. apply (grad_zero B f _ r qtf); auto.
    intros j Hj. rewrite <- (Eq' j Hj).
    assert (total n (fun k => gram m B j k * p k) = dot m (column B j) (times n B p)) as -> by (rewrite dot_times; reflexivity).
    unfold sqlen, dot in Z. rewrite total_ssum in Z. unfold dot. rewrite total_ssum. apply ssum_0. intros i Hi.
    rewrite (ssum_sq_zero 0 m (times n B p) Z i) by lia. ring. }
  assert (s_fnorm st1 <> 0) as Fn0.
  { rewrite G0. intros Z. apply Lg. unfold gn, grad_norm. destruct (Req_EM_T (s_fnorm st0) 0); [lra|contradiction]. }
  assert (fcn (place n ifree xall (s_x st1)) = f) as Fe by (unfold f; now rewrite F0).
  pose proof (lin_try (q_ipvt (qrfac m n J)) d' qtf gn st1 p E0 Fn0) as Tr.
  rewrite Fe, L0 in Tr. specialize (Tr F Lp Eq Pn).
  pose proof (lm_try_spec fcn ifree xall m n (q_ipvt (qrfac m n J)) d' qtf gn st1 (f_perm _ _ _ _ _ _ _ F) Dp B0 C0 (at_point_fnorm _ _ _ _ _ _ E0)) as Ts.
  assert (inner (S fuel) fcn ifree xall m n (q_ipvt (qrfac m n J)) d' qtf gn st1 =
    (let '(st', status, good) := lm_try fcn ifree xall m n (q_ipvt (qrfac m n J)) d' qtf gn st1 in
      if negb (Z.eqb status 0) then Some (st', status) else if good then Some (st', 0%Z)
      else inner fuel fcn ifree xall m n (q_ipvt (qrfac m n J)) d' qtf gn st')) as In by reflexivity.
  destruct (lm_try fcn ifree xall m n (q_ipvt (qrfac m n J)) d' qtf gn st1) as [[st2 s2] good]. destruct Tr as [-> X2].
  destruct (t_good _ _ _ _ _ _ _ _ _ _ Ts eq_refl) as (T1 & T2 & T3 & T4 & T5 & T6).
  assert (forall j, (j < n)%nat -> s_x st2 j = s_x st0 j + - p j) as X2' by (intros j Hj; rewrite X2, F0; reflexivity).
  destruct (ls_normal_point st0 p Ap Eq' (s_x st2) X2') as [Gz Min].
  destruct (Z.eq_dec s2 0) as [E2|Ns].
  - rewrite E2 in In. cbn [Z.eqb negb] in In. rewrite In.
    (* one more round, which finds the gradient zero *)
    pose proof (running_next (S fuel) fcn ifree xall m n (fun _ => 0) st0 r qtf gn st2 Rn (f_perm _ _ _ _ _ _ _ F)) as Rx.
    cbv zeta in Rx. fold J in Rx. rewrite Di in Rx. fold st1 in Rx. fold d' in Rx. specialize (Rx In).
    destruct Rx as (R2 & _ & _). cbn [Z.eqb negb]. rewrite outer_step. cbv zeta.
    pose proof (lin_factored st2 (r_point _ _ _ _ _ _ _ R2)) as F2. cbv zeta in F2.
    set (J2 := jac fcn ifree xall n st2) in *.
    destruct (r_qtf m n (qrfac m n J2) (s_fvec st2)) as [r2 qtf2].
    rewrite (grad_zero B _ _ r2 qtf2 _ _ F2 Gz).
    destruct (Rle_dec 0 gtol) as [_|L]; [|lra].
    destruct (running_prepared fcn ifree xall m n d' st2 r2 R2) as (_ & _ & _ & _ & _ & F3 & G3 & _ & _ & M3). fold J2 in F3, G3, M3.
    do 3 eexists. split; [reflexivity|]. split.
    + rewrite M3, G3. apply (r_last _ _ _ _ _ _ _ R2).
    + left. rewrite F3. exact Min.
  - assert (negb (s2 =? 0)%Z = true) as Q by (destruct (Z.eqb_spec s2 0); [contradiction|reflexivity]).
    rewrite Q in In. rewrite In, Q. do 3 eexists. split; [reflexivity|]. split; [lra|]. left. exact Min.
Qed.

End Linear.
