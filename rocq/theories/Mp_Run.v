(** The fitter as a whole (Mp_Model.mpfit): the fit is never worse than the
    start, fixed parameters stay, and the iteration ends. *)
From Coq Require Import Reals List Arith ZArith Bool Lra Lia Psatz Permutation.
From Verif Require Import PyRes CBase PyList Mp_Model Mp_Spec Mp_Sums Mp_QR Mp_Solve Mp_Givens Mp_Step Mp_Covar.
Import ListNotations.
Local Open Scope R_scope.

Lemma Rleb_true : forall a b, Rleb a b = true -> a <= b.
Proof. intros a b. unfold Rleb. destruct (Rle_dec a b); [auto|discriminate]. Qed.
Lemma Rleb_false : forall a b, Rleb a b = false -> b < a.
Proof. intros a b. unfold Rleb. destruct (Rle_dec a b); [discriminate|lra]. Qed.
Lemma Rltb_true : forall a b, Rltb a b = true -> a < b.
Proof. intros a b. unfold Rltb. destruct (Rlt_dec a b); [auto|discriminate]. Qed.
Lemma Rltb_false : forall a b, Rltb a b = false -> b <= a.
Proof. intros a b. unfold Rltb. destruct (Rlt_dec a b); [discriminate|lra]. Qed.

Definition small_steps (actred prered ratio : R) (t : R) : bool :=
  Rleb (Rabs actred) t && Rleb prered t && Rleb (5 / 10 * ratio) 1.

(** self.status after a round *)
Definition status_of (actred prered ratio delta xnorm gnorm : R) (niter : nat) : Z :=
  let small := small_steps actred prered ratio in
  let status := 0%Z in
  let status := if small ftol then 1%Z else status in
  let status := if Rle_dec delta (xtol * xnorm) then 2%Z else status in
  let status := if small ftol && Z.eqb status 2 then 3%Z else status in
  if negb (Z.eqb status 0) then status
  else
    let status := if Nat.leb maxiter niter then 5%Z else status in
    let status := if small machep then 6%Z else status in
    let status := if Rle_dec delta (machep * xnorm) then 7%Z else status in
    if Rle_dec gnorm machep then 8%Z else status.

Lemma status_of_range : forall a p r d x g k, let st := status_of a p r d x g k in
  (0 <= st <= 8)%Z /\ st <> 4%Z /\ (st = 0%Z -> xtol * x < d /\ (k < maxiter)%nat).
Proof.
  intros a p r d x g k. unfold status_of. cbv zeta.
  destruct (small_steps a p r ftol), (Rle_dec d (xtol * x)); cbn [Z.eqb andb negb Pos.eqb];
    try (split; [lia|split; [lia|discriminate]]).
  destruct (Nat.leb_spec maxiter k), (small_steps a p r machep), (Rle_dec d (machep * x)), (Rle_dec g machep);
    (split; [lia|split; [lia|intros E; try discriminate E]]).
  all: split; [lra|lia].
Qed.

(** how much the trust region and the damping change *)
Definition resize (niter : nat) (ratio actred dirder fnorm fnorm1 pnorm delta par : R) : R * R :=
    if Rle_dec ratio (25 / 100) then
      let temp := if Rle_dec 0 actred then 5 / 10 else 5 / 10 * dirder / (dirder + 5 / 10 * actred) in
      let temp := if Rleb fnorm (1 / 10 * fnorm1) || Rltb temp (1 / 10) then 1 / 10 else temp in
      (temp * Rmin delta (pnorm / (1 / 10)), par / temp)
    else if is_zero par || Rleb (75 / 100) ratio then (pnorm / (5 / 10), 5 / 10 * par)
    else (delta, par).

Lemma resize_spec : forall niter ratio actred dirder fnorm fnorm1 pnorm delta par, dirder <= 0 -> 0 <= pnorm ->
  0 <= delta -> 0 <= par ->
  let '(delta', par') := resize niter ratio actred dirder fnorm fnorm1 pnorm delta par in
  0 <= delta' /\ 0 <= par' /\ (ratio <= 25 / 100 -> delta' <= delta / 2).
Proof.
  intros niter ratio actred dirder fnorm fnorm1 pnorm delta par Hd Hp Hde Hpa. unfold resize. cbv zeta.
  destruct (Rle_dec ratio (25 / 100)) as [L|L].
  - set (t0 := if Rle_dec 0 actred then _ else _).
    assert (t0 <= 5 / 10) as T0.
    { unfold t0. destruct (Rle_dec 0 actred) as [A|A]; [lra|].
      assert (dirder + 5 / 10 * actred < 0) by lra.
      apply Rmult_le_reg_r with (- (dirder + 5 / 10 * actred)); [lra|].
      replace (5 / 10 * dirder / (dirder + 5 / 10 * actred) * - (dirder + 5 / 10 * actred)) with (- (5 / 10 * dirder)) by (field; lra).
      lra. }
    set (t := if Rleb _ _ || Rltb _ _ then _ else t0).
    assert (1 / 10 <= t <= 5 / 10) as T.
    { unfold t. destruct (Rleb fnorm (1 / 10 * fnorm1)); cbn [orb]; [lra|].
      destruct (Rltb t0 (1 / 10)) eqn:E; [lra|]. apply Rltb_false in E. lra. }
    clearbody t. assert (0 <= Rmin delta (pnorm / (1 / 10)) <= delta) as M.
    { split; [apply Rmin_glb; lra|apply Rmin_l]. }
    split; [|split]; [nra| |intros _; nra]. apply Rdiv_nonneg; lra.
  - destruct (_ || _); (split; [lra|split; [lra|intros; lra]]).
Qed.

Record tried (fcn : vec -> vec) (ifree : nat -> nat) (xall : vec) (m n : nat) (diag : vec) (st st' : lm) (status : Z) (good : bool) : Prop := mk_tried {
  t_upper : same_upper n (s_r st) (s_r st');
  t_par : 0 <= s_par st';
  t_delta : 0 <= s_delta st';
  t_status : (0 <= status <= 8)%Z /\ status <> 4%Z;
  t_go : status = 0%Z -> xtol * s_xnorm st' < s_delta st' /\ (s_niter st' < maxiter)%nat;
  t_fnorm1 : exists x, s_fnorm1 st' = enorm 0 m (fcn (place n ifree xall x));
  t_good : good = true -> s_fnorm st' < s_fnorm st /\ s_fvec st' = fcn (place n ifree xall (s_x st')) /\
             s_fnorm st' = enorm 0 m (s_fvec st') /\ s_fnorm1 st' = s_fnorm st' /\ s_niter st' = S (s_niter st) /\
             s_xnorm st' = enorm 0 n (fun i => diag i * s_x st' i);
  t_bad : good = false -> s_x st' = s_x st /\ s_fvec st' = s_fvec st /\ s_fnorm st' = s_fnorm st /\
             s_niter st' = s_niter st /\ s_xnorm st' = s_xnorm st /\ s_delta st' <= s_delta st / 2 }.

Lemma lm_try_spec : forall fcn ifree xall m n ipvt diag qtf gnorm st, is_perm n ipvt ->
  (forall c, (c < n)%nat -> 0 < diag c) -> 0 < s_delta st -> 0 <= s_par st -> 0 <= s_fnorm st ->
  let '(st', status, good) := lm_try fcn ifree xall m n ipvt diag qtf gnorm st in
  tried fcn ifree xall m n diag st st' status good.
Proof.
  intros fcn ifree xall m n ipvt diag qtf gnorm st Hp Hd Hde Hpa Hf. unfold lm_try.
  pose proof (lmpar_frame n (s_r st) ipvt diag qtf (s_delta st) (s_par st) Hp Hd Hde Hpa) as Fr.
  destruct (lmpar n (s_r st) ipvt diag qtf (s_delta st) (s_par st)) as [[r par] p]. destruct Fr as (Up & Hpar & _).
  cbv zeta.
  set (wa2 := fun i => s_x st i + - p i).
  set (pnorm := enorm 0 n (fun i => diag i * - p i)).
  set (fnorm1 := enorm 0 m (fcn (place n ifree xall wa2))).
  set (actred := if Rlt_dec (1 / 10 * fnorm1) (s_fnorm st) then _ else _).
  set (wa3 := fold_left _ _ _).
  set (temp1 := enorm 0 n wa3 / s_fnorm st). set (temp2 := sqrt par * pnorm / s_fnorm st).
  set (prered := temp1 * temp1 + temp2 * temp2 / (5 / 10)).
  set (dirder := - (temp1 * temp1 + temp2 * temp2)).
  set (ratio := if Req_EM_T prered 0 then 0 else actred / prered).
  set (delta0 := if Nat.eqb (s_niter st) 1 then Rmin (s_delta st) pnorm else s_delta st).
  fold (resize (s_niter st) ratio actred dirder (s_fnorm st) fnorm1 pnorm delta0 par).
  assert (0 <= pnorm) as Pn by apply enorm_nonneg.
  assert (0 <= delta0 <= s_delta st) as D0.
  { unfold delta0. destruct (Nat.eqb (s_niter st) 1); [|lra]. split; [apply Rmin_glb; lra|apply Rmin_l]. }
  assert (0 <= prered) as Pr.
  { unfold prered. pose proof (Rle_0_sqr temp1) as Q1. pose proof (Rle_0_sqr temp2) as Q2. unfold Rsqr in *. lra. }
  pose proof (resize_spec (s_niter st) ratio actred dirder (s_fnorm st) fnorm1 pnorm delta0 par) as Rs.
  assert (dirder <= 0) as Dd.
  { unfold dirder. pose proof (Rle_0_sqr temp1) as Q1. pose proof (Rle_0_sqr temp2) as Q2. unfold Rsqr in *. lra. }
  specialize (Rs Dd Pn (proj1 D0) Hpar).
  destruct (resize (s_niter st) ratio actred dirder (s_fnorm st) fnorm1 pnorm delta0 par) as [delta' par'].
  destruct Rs as (R1 & R2 & R3).
  set (st' := if Rleb (1 / 10000) ratio then _ else _).
  assert (forall P : (lm * Z * bool) -> Prop, P (st', status_of actred prered ratio delta' (s_xnorm st') gnorm (s_niter st'), Rleb (1 / 10000) ratio) ->
    P (let small := small_steps actred prered ratio in
       let status := 0%Z in
       let status := if small ftol then 1%Z else status in
       let status := if Rle_dec delta' (xtol * s_xnorm st') then 2%Z else status in
       let status := if small ftol && Z.eqb status 2 then 3%Z else status in
       if negb (Z.eqb status 0) then (st', status, Rleb (1 / 10000) ratio)
       else
         let status := if Nat.leb maxiter (s_niter st') then 5%Z else status in
         let status := if small machep then 6%Z else status in
         let status := if Rle_dec delta' (machep * s_xnorm st') then 7%Z else status in
         let status := if Rle_dec gnorm machep then 8%Z else status in
         (st', status, Rleb (1 / 10000) ratio))) as Sub.
  { intros P HP. unfold status_of in HP. cbv zeta in *. destruct (negb _); exact HP. }
  apply (Sub (fun t => let '(st', status, good) := t in tried fcn ifree xall m n diag st st' status good)).
  destruct (status_of_range actred prered ratio delta' (s_xnorm st') gnorm (s_niter st')) as (Q1 & Q2 & Q3).
  set (status := status_of _ _ _ _ _ _ _) in *. clearbody status. clear Sub.
  assert (s_delta st' = delta' /\ s_par st' = par' /\ s_r st' = r /\ s_fnorm1 st' = fnorm1) as (E1 & E2 & E3 & E4)
    by (unfold st'; destruct (Rleb _ _); auto).
  split.
  - rewrite E3. exact Up.
  - now rewrite E2.
  - now rewrite E1.
  - auto.
  - rewrite E1. exact Q3.
  - exists wa2. exact E4.
  - intros G. unfold st'. rewrite G. cbn. apply Rleb_true in G. split; [|auto 10].
    unfold ratio in G. destruct (Req_EM_T prered 0); [lra|].
    assert (0 < actred) as A.
    { assert (0 < prered) by lra. replace actred with (actred / prered * prered) by (field; lra). apply Rmult_lt_0_compat; lra. }
    unfold actred in A. destruct (Rlt_dec _ _) as [L|L]; [|lra].
    assert (0 <= fnorm1) by apply enorm_nonneg.
    assert (0 < s_fnorm st) by lra.
    assert (fnorm1 / s_fnorm st < 1).
    { assert (0 <= fnorm1 / s_fnorm st) by (apply Rdiv_nonneg; lra). nra. }
    apply Rmult_lt_reg_r with (/ s_fnorm st); [now apply Rinv_0_lt_compat|]. rewrite Rinv_r by lra. exact H1.
  - intros G. unfold st'. rewrite G. cbn. apply Rleb_false in G. repeat split.
    specialize (R3 ltac:(lra)). lra.
Qed.

(** ---------- the inner loop *)

Definition at_point (fcn : vec -> vec) (ifree : nat -> nat) (xall : vec) (m n : nat) (st : lm) : Prop :=
  (forall i, (i < m)%nat -> s_fvec st i = fcn (place n ifree xall (s_x st)) i) /\ s_fnorm st = enorm 0 m (s_fvec st).

Lemma at_point_fnorm : forall fcn ifree xall m n st, at_point fcn ifree xall m n st -> 0 <= s_fnorm st.
Proof. intros fcn ifree xall m n st [_ H]. rewrite H. apply enorm_nonneg. Qed.

Lemma inner_spec : forall fuel fcn ifree xall m n ipvt diag qtf gnorm st st' status, is_perm n ipvt ->
  (forall c, (c < n)%nat -> 0 < diag c) -> 0 < s_delta st -> 0 <= s_par st -> 0 <= s_xnorm st ->
  at_point fcn ifree xall m n st -> (s_niter st < maxiter)%nat ->
  inner fuel fcn ifree xall m n ipvt diag qtf gnorm st = Some (st', status) ->
  at_point fcn ifree xall m n st' /\ s_fnorm st' <= s_fnorm st /\ same_upper n (s_r st) (s_r st') /\
  (s_niter st' <= maxiter)%nat /\ (0 <= status <= 8)%Z /\ status <> 4%Z /\
  (exists x, s_fnorm1 st' = enorm 0 m (fcn (place n ifree xall x))) /\
  (status = 0%Z -> s_fnorm st' < s_fnorm st /\ s_niter st' = S (s_niter st) /\ (s_niter st' < maxiter)%nat /\
      0 < s_delta st' /\ 0 <= s_par st' /\ s_xnorm st' = enorm 0 n (fun i => diag i * s_x st' i) /\ s_fnorm1 st' = s_fnorm st').
Proof.
  induction fuel as [|fuel IH]; intros fcn ifree xall m n ipvt diag qtf gnorm st st' status Hp Hd Hde Hpa Hx Ap Ni H; [discriminate|].
  cbn [inner] in H.
  pose proof (lm_try_spec fcn ifree xall m n ipvt diag qtf gnorm st Hp Hd Hde Hpa (at_point_fnorm _ _ _ _ _ _ Ap)) as T.
  destruct (lm_try fcn ifree xall m n ipvt diag qtf gnorm st) as [[st1 s1] good].
  destruct T as [U P D [S1 S2] G F1 Tg Tb].
  assert (at_point fcn ifree xall m n st1 /\ s_fnorm st1 <= s_fnorm st /\ (s_niter st1 <= maxiter)%nat) as (Ap1 & Fn1 & Ni1).
  { destruct good.
    - destruct (Tg eq_refl) as (A & B & C & _ & E & _). split; [|split; [lra|lia]]. split; auto. intros i Hi. now rewrite B.
    - destruct (Tb eq_refl) as (A & B & C & E & _). split; [|split; [lra|lia]]. destruct Ap as [A1 A2]. split; rewrite ?A, ?B, ?C; auto. }
  destruct (Z.eqb_spec s1 0) as [->|Ns]; cbn [negb] in H.
  - specialize (G eq_refl). assert (0 < xtol) as Xt by (unfold xtol; apply Rinv_0_lt_compat, pow_lt; lra).
    destruct good.
    + injection H as <- <-. destruct (Tg eq_refl) as (A & B & C & E & N & X). split; [exact Ap1|].
      split; [exact Fn1|]. split; [exact U|]. split; [exact Ni1|]. split; [lia|]. split; [lia|]. split; [exact F1|]. intros _.
      split; [lra|]. split; [lia|]. split; [tauto|]. split; [|auto].
      pose proof (enorm_nonneg 0 n (fun i => diag i * s_x st1 i)). rewrite <- X in *. nra.
    + destruct (Tb eq_refl) as (A & B & C & E & X & _).
      apply IH in H; auto; [| |lra|tauto].
      2:{ rewrite X in *. nra. }
      destruct H as (H1 & H2 & H3 & H4 & H5 & H6 & H7 & H8).
      split; [exact H1|]. split; [lra|]. split; [eapply same_upper_trans; eauto|]. split; [exact H4|]. split; [exact H5|].
      split; [exact H6|]. split; [exact H7|]. intros Z0. destruct (H8 Z0) as (K1 & K2 & K3). split; [lra|]. split; [lia|]. exact K3.
  - injection H as <- <-. split; [exact Ap1|]. split; [exact Fn1|]. split; [exact U|]. split; [exact Ni1|]. split; [exact S1|].
    split; [exact S2|]. split; [exact F1|]. intros Z0. contradiction.
Qed.

Lemma inner_mono : forall f k fcn ifree xall m n ipvt diag qtf gnorm st res,
  inner f fcn ifree xall m n ipvt diag qtf gnorm st = Some res ->
  inner (f + k) fcn ifree xall m n ipvt diag qtf gnorm st = Some res.
Proof.
  induction f as [|f IH]; intros k fcn ifree xall m n ipvt diag qtf gnorm st res H; [discriminate|].
  cbn [inner plus] in *. destruct (lm_try fcn ifree xall m n ipvt diag qtf gnorm st) as [[st1 s1] good].
  destruct (negb (s1 =? 0)%Z); auto. destruct good; auto.
Qed.

Lemma inner_niter : forall f fcn ifree xall m n ipvt diag qtf gnorm st st2 s2,
  inner f fcn ifree xall m n ipvt diag qtf gnorm st = Some (st2, s2) -> (s_niter st <= s_niter st2)%nat.
Proof.
  induction f as [|f IH]; intros fcn ifree xall m n ipvt diag qtf gnorm st st2 s2 H; [discriminate|]. cbn [inner] in H.
  assert (let '(a, _, _) := lm_try fcn ifree xall m n ipvt diag qtf gnorm st in (s_niter st <= s_niter a)%nat) as T.
  { unfold lm_try. destruct (lmpar _ _ _ _ _ _ _) as [[? ?] ?]. cbv zeta.
    match goal with |- context [if Rle_dec ?a (25 / 100) then ?x else ?y] => destruct (if Rle_dec a (25 / 100) then x else y) as [? ?] end.
    match goal with |- context [if negb ?b then _ else _] => destruct (negb b) end; destruct (Rleb (1 / 10000) _); cbn; lia. }
  destruct (lm_try fcn ifree xall m n ipvt diag qtf gnorm st) as [[a s1] g]. destruct (negb _); [injection H as <- <-; auto|].
  destruct g; [injection H as <- <-; auto|]. apply IH in H. lia.
Qed.

(** away from zero the trust region cannot shrink for ever *)
Lemma inner_ends : forall k fcn ifree xall m n ipvt diag qtf gnorm st, is_perm n ipvt ->
  (forall c, (c < n)%nat -> 0 < diag c) -> 0 < s_delta st -> 0 <= s_par st -> 0 < s_xnorm st -> 0 <= s_fnorm st ->
  s_delta st <= 2 ^ k * (xtol * s_xnorm st) -> inner (S k) fcn ifree xall m n ipvt diag qtf gnorm st <> None.
Proof.
  induction k as [|k IH]; intros fcn ifree xall m n ipvt diag qtf gnorm st Hp Hd Hde Hpa Hx Hf Hk.
  all: assert (0 < xtol) as Xt by (unfold xtol; apply Rinv_0_lt_compat, pow_lt; lra).
  all: cbn [inner].
  all: pose proof (lm_try_spec fcn ifree xall m n ipvt diag qtf gnorm st Hp Hd Hde Hpa Hf) as T.
  all: destruct (lm_try fcn ifree xall m n ipvt diag qtf gnorm st) as [[st1 s1] good].
  all: destruct T as [U P D [S1 S2] G F1 Tg Tb].
  all: destruct (Z.eqb_spec s1 0) as [->|Ns]; cbn [negb]; [|discriminate].
  all: destruct good; [discriminate|].
  all: destruct (Tb eq_refl) as (A & B & C & E & X & L); destruct (G eq_refl) as [G1 _]; rewrite X in G1.
  - exfalso. cbn [pow] in Hk. assert (0 < xtol * s_xnorm st) by nra. lra.
  - apply (IH fcn ifree xall m n ipvt diag qtf gnorm st1); auto.
    + assert (0 < xtol * s_xnorm st) by nra. lra.
    + lra.
    + lra.
    + rewrite X. cbn [pow] in Hk. lra.
Qed.

(** ---------- the outer loop *)

Definition start_diag (acn : vec) : vec := fun j => if Req_EM_T (acn j) 0 then 1 else acn j.

Lemma start_diag_pos : forall m J j, 0 < start_diag (acnorm m J) j.
Proof.
  intros m J j. unfold start_diag. destruct (Req_EM_T _ _); [lra|].
  pose proof (enorm_nonneg 0 m (fun i => J i j)) as E. unfold acnorm in *. lra.
Qed.

(** what a round of the outer loop starts with *)
Definition jac (fcn : vec -> vec) (ifree : nat -> nat) (xall : vec) (n : nat) (st : lm) : mat :=
  fdjac2 fcn ifree (place n ifree xall (s_x st)) (s_x st) (s_fvec st).

Definition diag_in (st : lm) (acn diag : vec) : vec := if Nat.eqb (s_niter st) 1 then start_diag acn else diag.

Definition prepared (m n : nat) (J : mat) (diag : vec) (st : lm) (r : mat) : lm :=
  let xnorm := if Nat.eqb (s_niter st) 1 then enorm 0 n (fun j => diag j * s_x st j) else s_xnorm st in
  mk_lm (s_x st) (s_fvec st) (s_fnorm st) (s_fnorm1 st) xnorm
        (if Nat.eqb (s_niter st) 1 then if Req_EM_T (factor * xnorm) 0 then factor else factor * xnorm else s_delta st)
        (s_par st) (s_niter st) r.

Lemma outer_step : forall f fcn ifree xall m n diag st,
  outer (S f) fcn ifree xall m n diag st =
  let J := jac fcn ifree xall n st in
  let q := qrfac m n J in
  let '(r, qtf) := r_qtf m n q (s_fvec st) in
  let d := diag_in st (acnorm m J) diag in
  let st1 := prepared m n J d st r in
  let gnorm := grad_norm n r qtf (q_ipvt q) (acnorm m J) (s_fnorm st) in
  if Rle_dec gnorm gtol then Some (st1, 4%Z, q_ipvt q)
  else
    let d' := fun j => Rmax (acnorm m J j) (d j) in
    match inner f fcn ifree xall m n (q_ipvt q) d' qtf gnorm st1 with
    | None => None
    | Some (st2, status) => if negb (Z.eqb status 0) then Some (st2, status, q_ipvt q) else outer f fcn ifree xall m n d' st2
    end.
Proof.
  intros. cbn [outer]. fold (jac fcn ifree xall n st).
  destruct (r_qtf m n (qrfac m n (jac fcn ifree xall n st)) (s_fvec st)) as [r qtf].
  reflexivity.
Qed.

(** the invariant of the outer loop *)
Record running (fcn : vec -> vec) (ifree : nat -> nat) (xall : vec) (m n : nat) (diag : vec) (st : lm) : Prop := mk_running {
  r_point : at_point fcn ifree xall m n st;
  r_par : 0 <= s_par st;
  r_niter : (1 <= s_niter st < maxiter)%nat;
  r_later : s_niter st <> 1%nat -> (forall c, (c < n)%nat -> 0 < diag c) /\ 0 < s_delta st /\
              s_xnorm st = enorm 0 n (fun i => diag i * s_x st i);
  r_last : s_fnorm1 st <= s_fnorm st }.

Lemma running_prepared : forall fcn ifree xall m n diag st r, running fcn ifree xall m n diag st ->
  let J := jac fcn ifree xall n st in let d := diag_in st (acnorm m J) diag in let st1 := prepared m n J d st r in
  (forall c, (c < n)%nat -> 0 < d c) /\ 0 < s_delta st1 /\ 0 <= s_par st1 /\
  s_xnorm st1 = enorm 0 n (fun i => d i * s_x st1 i) /\ at_point fcn ifree xall m n st1 /\ s_x st1 = s_x st /\ s_fnorm st1 = s_fnorm st /\
  s_niter st1 = s_niter st /\ s_r st1 = r /\ s_fnorm1 st1 = s_fnorm1 st.
Proof.
  intros fcn ifree xall m n diag st r [Ap Pa Ni La Lt] J d st1.
  unfold st1, prepared, d, diag_in. destruct (Nat.eqb_spec (s_niter st) 1) as [E|E]; cbn.
  - split; [intros; apply start_diag_pos|]. split.
    + pose proof (enorm_nonneg 0 n (fun j => start_diag (acnorm m J) j * s_x st j)). unfold factor. destruct (Req_EM_T _ _); lra.
    + repeat split; auto; apply Ap.
  - destruct (La E) as (A & B & C). split; [exact A|]. split; [exact B|]. split; [exact Pa|]. split; [exact C|]. repeat split; auto; apply Ap.
Qed.

(** one round keeps the invariant *)
Lemma running_next : forall f fcn ifree xall m n diag st r qtf gnorm st2, running fcn ifree xall m n diag st ->
  is_perm n (q_ipvt (qrfac m n (jac fcn ifree xall n st))) ->
  let J := jac fcn ifree xall n st in let d := diag_in st (acnorm m J) diag in let st1 := prepared m n J d st r in
  let d' := fun j => Rmax (acnorm m J j) (d j) in
  inner f fcn ifree xall m n (q_ipvt (qrfac m n J)) d' qtf gnorm st1 = Some (st2, 0%Z) ->
  running fcn ifree xall m n d' st2 /\ s_fnorm st2 < s_fnorm st /\ s_niter st2 = S (s_niter st).
Proof.
  intros f fcn ifree xall m n diag st r qtf gnorm st2 Rn Hp J d st1 d' H.
  destruct (running_prepared fcn ifree xall m n diag st r Rn) as (A & B & C & D & E & F & G & K & L & M).
  fold J in A, B, C, D, E, F, G, K, L, M. fold d in A, B, C, D, E, F, G, K, L, M. fold st1 in B, C, D, E, F, G, K, L, M.
  assert (forall c, (c < n)%nat -> 0 < d' c) as Dp.
  { intros c Hc. unfold d'. pose proof (Rmax_r (acnorm m J c) (d c)). specialize (A c Hc). lra. }
  pose proof (r_niter _ _ _ _ _ _ _ Rn) as Ni.
  apply inner_spec in H; auto; [| |rewrite K; lia].
  2:{ rewrite D. apply enorm_nonneg. }
  destruct H as (H1 & H2 & H3 & H4 & H5 & H6 & H7 & H8). destruct (H8 eq_refl) as (K1 & K2 & K3 & K4 & K5 & K6 & K7).
  split; [|split; [lra|lia]]. split; auto; [lia|lra].
Qed.

Lemma outer_spec : forall fuel fcn ifree xall m n diag st st' status ipvt, (n <= m)%nat ->
  running fcn ifree xall m n diag st ->
  outer fuel fcn ifree xall m n diag st = Some (st', status, ipvt) ->
  at_point fcn ifree xall m n st' /\ s_fnorm st' <= s_fnorm st /\ (1 <= status <= 8)%Z /\ (1 <= s_niter st' <= maxiter)%nat /\
  (s_fnorm1 st' <= s_fnorm st' \/ exists x, s_fnorm1 st' = enorm 0 m (fcn (place n ifree xall x))) /\
  (exists st0, at_point fcn ifree xall m n st0 /\ s_fnorm st' <= s_fnorm st0 <= s_fnorm st /\ (status = 4%Z -> s_x st' = s_x st0) /\
     exists qtf, factored m n (jac fcn ifree xall n st0) (s_fvec st0) ipvt (s_r st') qtf) /\
  (status = 4%Z -> s_fnorm1 st' <= s_fnorm st' /\
     forall j, (j < n)%nat -> Rabs (dot m (column (jac fcn ifree xall n st') j) (s_fvec st')) <=
        gtol * s_fnorm st' * acnorm m (jac fcn ifree xall n st') j).
Proof.
  induction fuel as [|fuel IH]; intros fcn ifree xall m n diag st st' status ipvt Hnm Rn H; [discriminate|].
  rewrite outer_step in H. cbv zeta in H.
  set (J := jac fcn ifree xall n st) in *.
  pose proof (qr_correct m n J (s_fvec st) Hnm) as Qc. cbv zeta in Qc.
  destruct (r_qtf m n (qrfac m n J) (s_fvec st)) as [r qtf].
  pose proof (running_prepared fcn ifree xall m n diag st r Rn) as Pre. cbv zeta in Pre. fold J in Pre.
  set (d := diag_in st (acnorm m J) diag) in *.
  destruct Pre as (A & B & C & D & E & F & G & K & L & M).
  pose proof (r_niter _ _ _ _ _ _ _ Rn) as Ni.
  destruct (Rle_dec _ gtol) as [Lg|Lg].
  - injection H as <- <- <-. set (st1 := prepared m n J d st r) in *.
    split; [exact E|]. split; [lra|]. split; [lia|]. split; [lia|]. rewrite M, G. pose proof (r_last _ _ _ _ _ _ _ Rn) as La.
    split; [left; exact La|]. split.
    { exists st. split; [apply (r_point _ _ _ _ _ _ _ Rn)|]. split; [lra|]. split; [intros _; exact F|]. exists qtf. rewrite L. exact Qc. }
    intros _. split; [exact La|].
    assert (jac fcn ifree xall n st1 = J) as -> by (unfold jac, J; rewrite F; reflexivity).
    change (s_fvec st1) with (s_fvec st).
    intros j Hj. destruct (is_perm_surj n _ j (f_perm _ _ _ _ _ _ _ Qc) Hj) as [a [Ha <-]].
    rewrite <- (f_qtf _ _ _ _ _ _ _ Qc a Ha).
    rewrite (ssum_split 0 (a + 1) n) by lia.
    rewrite (ssum_0 (a + 1) n) by (intros i Hi; unfold up; destruct (Nat.leb_spec i a); [lia|ring]).
    rewrite Rplus_0_r.
    rewrite (ssum_ext 0 (a + 1) _ (fun i => r i a * qtf i)) by (intros i Hi; unfold up; destruct (Nat.leb_spec i a); [reflexivity|lia]).
    unfold grad_norm in Lg. destruct (Req_EM_T (s_fnorm st) 0) as [Z0|Nz].
    { (* the residuals vanish *)
      destruct (r_point _ _ _ _ _ _ _ Rn) as [_ En]. rewrite Z0 in En. symmetry in En.
      assert (dot m (column J (q_ipvt (qrfac m n J) a)) (s_fvec st) = 0) as Z.
      { unfold dot. rewrite total_ssum. apply ssum_0. intros i Hi. rewrite (enorm_zero 0 m _ En i) by lia. ring. }
      rewrite <- (f_qtf _ _ _ _ _ _ _ Qc a Ha) in Z.
      rewrite (ssum_split 0 (a + 1) n) in Z by lia.
      rewrite (ssum_0 (a + 1) n) in Z by (intros i Hi; unfold up; destruct (Nat.leb_spec i a); [lia|ring]).
      rewrite Rplus_0_r in Z.
      rewrite (ssum_ext 0 (a + 1) _ (fun i => r i a * qtf i)) in Z by (intros i Hi; unfold up; destruct (Nat.leb_spec i a); [reflexivity|lia]).
      rewrite Z, Z0, Rabs_R0. lra. }
    assert (0 < s_fnorm st) as Fp by (pose proof (at_point_fnorm _ _ _ _ _ _ (r_point _ _ _ _ _ _ _ Rn)); lra).
    set (l := q_ipvt (qrfac m n J) a) in *.
    destruct (Req_EM_T (acnorm m J l) 0) as [Za|Na].
    { (* a column of zeros *)
      assert (dot m (column J l) (s_fvec st) = 0) as Z.
      { unfold dot, column. rewrite total_ssum. apply ssum_0. intros i Hi. rewrite (enorm_zero 0 m _ Za i) by lia. ring. }
      unfold l in Z.      rewrite <- (f_qtf _ _ _ _ _ _ _ Qc a Ha) in Z.
      rewrite (ssum_split 0 (a + 1) n) in Z by lia.
      rewrite (ssum_0 (a + 1) n) in Z by (intros i Hi; unfold up; destruct (Nat.leb_spec i a); [lia|ring]).
      rewrite Rplus_0_r in Z.
      rewrite (ssum_ext 0 (a + 1) _ (fun i => r i a * qtf i)) in Z by (intros i Hi; unfold up; destruct (Nat.leb_spec i a); [reflexivity|lia]).
      rewrite Z, Za, Rabs_R0. lra. }
    assert (0 < acnorm m J l) as Ap by (pose proof (enorm_nonneg 0 m (fun i => J i l)); unfold acnorm in *; lra).
    set (step := fun g j => _) in Lg.
    pose proof (fold_seq_inv0 (fun k g => (a < k)%nat -> Rabs (ssum 0 (a + 1) (fun i => r i a * qtf i) / s_fnorm st / acnorm m J l) <= g) step n 0) as Kf.
    cbv beta in Kf. assert (Rabs (ssum 0 (a + 1) (fun i => r i a * qtf i) / s_fnorm st / acnorm m J l) <= gtol) as Bd.
    { eapply Rle_trans; [|exact Lg]. apply Kf; [intros; lia| |exact Ha].
      intros j g Hjn Hg Haj. unfold step. destruct (Nat.eq_dec a j) as [<-|].
      - fold l. destruct (Req_EM_T (acnorm m J l) 0); [contradiction|]. apply Rmax_r.
      - specialize (Hg ltac:(lia)). destruct (Req_EM_T _ 0); [exact Hg|].
        eapply Rle_trans; [exact Hg|]. apply Rmax_l. }
    unfold Rdiv in Bd. rewrite !Rabs_mult, (Rabs_right (/ s_fnorm st)), (Rabs_right (/ acnorm m J l)) in Bd
      by (left; now apply Rinv_0_lt_compat).
    set (v := Rabs (ssum 0 (a + 1) (fun i => r i a * qtf i))) in *.
    replace v with (v * / s_fnorm st * / acnorm m J l * (s_fnorm st * acnorm m J l)) by (field; lra).
    replace (gtol * s_fnorm st * acnorm m J l) with (gtol * (s_fnorm st * acnorm m J l)) by ring.
    apply Rmult_le_compat_r; auto. nra.
  - set (st1 := prepared m n J d st r) in *. set (gn := grad_norm n r qtf _ _ _) in *.
    destruct (inner _ _ _ _ _ _ _ _ _ _ _) as [[st2 s2]|] eqn:In; [|discriminate].
    assert (forall c, (c < n)%nat -> 0 < Rmax (acnorm m J c) (d c)) as Dp.
    { intros c Hc. pose proof (Rmax_r (acnorm m J c) (d c)). specialize (A c Hc). lra. }
    destruct (Z.eqb_spec s2 0) as [->|Ns]; cbn [negb] in H.
    + pose proof (running_next fuel fcn ifree xall m n diag st r qtf gn st2 Rn (f_perm _ _ _ _ _ _ _ Qc) In) as (R2 & Fl & _).
      destruct (IH fcn ifree xall m n _ st2 st' status ipvt Hnm R2 H) as (H1 & H2 & H3 & H4 & H5 & (st0 & H6 & H7 & H8) & H9).
      split; [exact H1|]. split; [lra|]. split; [exact H3|]. split; [exact H4|]. split; [exact H5|]. split; [|exact H9].
      exists st0. split; [exact H6|]. split; [lra|]. exact H8.
    + injection H as <- <- <-.
      pose proof (inner_spec fuel fcn ifree xall m n _ _ qtf gn st1 st2 s2 (f_perm _ _ _ _ _ _ _ Qc) Dp B C) as Is.
      specialize (Is ltac:(rewrite D; apply enorm_nonneg) E ltac:(rewrite K; lia) In).
      destruct Is as (H1 & H2 & H3 & H4 & H5 & H6 & H7 & _).
      split; [exact H1|]. split; [lra|]. split; [lia|]. split.
      { split; auto. assert (s_niter st2 <> 0)%nat; [|lia]. intros Z0.
        pose proof (inner_niter _ _ _ _ _ _ _ _ _ _ _ _ _ In). lia. }
      split; [right; exact H7|]. split; [|intros Z4; contradiction].
      exists st. split; [apply (r_point _ _ _ _ _ _ _ Rn)|]. split; [lra|]. split; [intros Z4; contradiction|]. exists qtf.
      eapply factored_upper; [exact H3|]. rewrite L. exact Qc.
Qed.
