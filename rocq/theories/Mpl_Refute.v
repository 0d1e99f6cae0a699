(** Where fits with limits and bounds go wrong. *)
From Coq Require Import Reals List Arith ZArith Bool Lra Lia Psatz FunctionalExtensionality.
From Verif Require Import PyRes CBase PyList Mp_Model Mp_Spec Mp_Sums Mp_QR Mp_Step Mp_Run Mp_Fit Mpl_Model Mpl_Spec Mpl_Run Mpl_Limits Mpl_More.
Import ListNotations.
Local Open Scope R_scope.

Lemma ssum1 : forall f, ssum 0 1 f = f 0%nat.
Proof. intros f. unfold ssum, rsum. cbn. ring. Qed.
Lemma ssum2 : forall f, ssum 0 2 f = f 0%nat + f 1%nat.
Proof. intros f. unfold ssum, rsum. cbn. ring. Qed.
Lemma total1 : forall f, total 1 f = f 0%nat.
Proof. intros f. rewrite total_ssum. apply ssum1. Qed.
Lemma total2 : forall f, total 2 f = f 0%nat + f 1%nat.
Proof. intros f. rewrite total_ssum. apply ssum2. Qed.

Definition ent (x : R) : entry := mk_entry (Some (VFloat x)) None None None None None None None.

(** ---------- a flag other than 0 and 1 *)

Definition flag2 : entry := mk_entry (Some (VFloat 5)) None (Some (2, 2)%Z) (Some (0, 1)) None None None None.

Lemma flag_unchecked : exists fcn o, reads 1 1 fcn /\
  mpfit_b 1 false kw_default fcn 1 None (Some [flag2]) = Some (Ended o) /\ o_params o 0%nat = 5.
Proof.
  assert (match mpfit_b 1 false kw_default (fun _ _ => 0) 1 None (Some [flag2]) with
          | Some (Ended o) => o_params o 0%nat = 5 | _ => False end) as K.
  2:{ exists (fun _ _ => 0). destruct (mpfit_b _ _ _ _ _ _ _) as [[| |o]|]; try contradiction. exists o.
      split; [intros p q _ i _; reflexivity|auto]. }
  { unfold mpfit_b. cbn [negb map e_value flag2 start_array all_some forallb is_int andb val_R].
    unfold fit_values. change (free_of (Some [flag2]) (length [5])) with [0%nat].
    cbn [seq length existsb parinfo map e_limited e_limits flag2 nth fst snd bit Z.odd andb orb negb].
    assert (Rleb (k_ftol kw_default) 0 || Rleb (k_xtol kw_default) 0 || Rleb (k_gtol kw_default) 0 ||
            Z.ltb (k_maxiter kw_default) 0 || Rleb (k_factor kw_default) 0 = false) as ->.
    { apply keywords_b. unfold keywords_ok, kw_default, k_ftol, k_xtol, k_gtol, k_maxiter, k_factor, ftol, xtol, gtol, factor.
      assert (0 < / 10 ^ 10) by (apply Rinv_0_lt_compat, pow_lt; lra). repeat split; auto; try lia; lra. }
    cbn [Nat.ltb Nat.leb]. cbv zeta. cbn [outer_b]. destruct (r_qtf _ _ _ _) as [r qtf]. cbv zeta. cbn [s_fnorm].
    assert (enorm 0 1 (fun _ => 0) = 0) as E0 by (unfold enorm; rewrite ssum1; match goal with |- sqrt ?e = 0 => replace e with 0 by ring end; apply sqrt_0).
    rewrite E0. unfold grad_norm. destruct (Req_EM_T 0 0); [|contradiction].
    assert (0 < / 10 ^ 10) by (apply Rinv_0_lt_compat, pow_lt; lra).
    destruct (Rle_dec 0 (k_gtol kw_default)) as [_|N]; [|exfalso; apply N; unfold kw_default, k_gtol, gtol; lra].
    reflexivity. }
Qed.

(** ---------- a bound on the steps beside a fixed parameter *)

Definition held : entry := mk_entry (Some (VFloat 0)) (Some 1%Z) None None None None None None.
Definition stepped : entry := mk_entry (Some (VFloat 1)) None None None None None None (Some 1).

Lemma fd_step_nz : forall x, fd_step x <> 0.
Proof.
  intros x. assert (0 < sqrt machep) by apply sqrt_lt_R0, machep_pos. unfold fd_step.
  destruct (Req_EM_T _ 0); lra.
Qed.

Lemma max_step_raises : mpfit_b 2 false kw_default (fun p _ => p 1%nat) 1 None (Some [held; stepped]) = Some Raised.
Proof.
  set (fcn := fun (p : vec) (_ : nat) => p 1%nat).
  unfold mpfit_b. cbn [negb map e_value held stepped start_array all_some forallb is_int andb val_R].
  assert (Forall plain_flags [held; stepped]) as Hf by (repeat constructor; left; reflexivity).
  destruct (fit_values_cases 2 kw_default fcn 1 [0; 1] [held; stepped] eq_refl Hf)
    as [[A E]|[A [[B E]|[_ [[C E]|[_ [[D E]|[_ [[F E]|[F E]]]]]]]]]].
  - specialize (A stepped (or_intror (or_introl eq_refl))). discriminate A.
  - exfalso. destruct B as (i & e & He & N). apply N. destruct i as [|[|[|i]]]; cbn in He; try discriminate; injection He as <-;
      split; intros X; discriminate X.
  - exfalso. destruct C as (e & [<-|[<-|[]]] & (X & _) & _); discriminate X.
  - exfalso. apply D. unfold keywords_ok, kw_default, k_ftol, k_xtol, k_gtol, k_maxiter, k_factor, ftol, xtol, gtol, factor.
    assert (0 < / 10 ^ 10) by (apply Rinv_0_lt_compat, pow_lt; lra). repeat split; auto; try lia; lra.
  - exfalso. revert F. cbn. lia.
  - clear F. rewrite E. clear E. cbv zeta. change (free_n [held; stepped]) with [1%nat]. cbn [length].
    set (b := run_bounds [held; stepped] 2).
    set (st := lm_start fcn 1 [1%nat] (vec_of [0; 1])). set (ifree := fun j => nth j [1%nat] 0%nat). set (xall := vec_of [0; 1]).
    assert (outer_b 2 kw_default fcn b ifree xall 1 1 (fun _ => 0) st = Some PErr) as ->; [|reflexivity].
    cbn [outer_b].
    set (J := peg_jac _ _ _ _ _ _).
    assert (J 0%nat 0%nat = 1) as J0.
    { unfold J, peg_jac. assert (any_lim 1 b = false) as -> by reflexivity. unfold fdjac2_b.
      assert (fd_step_b b ifree (s_x st) 0 = fd_step 1) as ->.
      { unfold fd_step_b, fd_step. change (b_step b (ifree 0%nat)) with 0. change (b_rel b (ifree 0%nat)) with 0.
        destruct (Rlt_dec 0 0); [lra|]. change (s_x st 0%nat) with 1. reflexivity. }
      change (Z.leb (Z.abs (b_side b (ifree 0%nat))) 1) with true. cbv iota.
      unfold fcn at 1. change (s_fvec st 0%nat) with 1. unfold upd. change (Nat.eqb 1 (ifree 0%nat)) with true. cbv iota.
      change (place 1 ifree xall (s_x st) (ifree 0%nat)) with 1. field. apply fd_step_nz. }
    pose proof (qr_correct 1 1 J (s_fvec st) (le_n 1)) as Q. cbv zeta in Q.
    destruct (r_qtf 1 1 (qrfac 1 1 J) (s_fvec st)) as [r qtf]. cbv zeta.
    set (ip := q_ipvt (qrfac 1 1 J)) in *.
    assert (ip 0%nat = 0%nat) as I0 by (pose proof (is_perm_lt 1 ip 0 (f_perm _ _ _ _ _ _ _ Q) ltac:(lia)); lia).
    pose proof (f_qtf _ _ _ _ _ _ _ Q 0%nat ltac:(lia)) as Fq. rewrite I0 in Fq.
    unfold dot, column in Fq. rewrite ssum1, total1 in Fq. unfold up in Fq. cbn [Nat.leb] in Fq. rewrite J0 in Fq. change (s_fvec st 0%nat) with 1 in Fq.
    assert (acnorm 1 J 0%nat = 1) as A0.
    { unfold acnorm, enorm. rewrite ssum1, J0. match goal with |- sqrt ?e = 1 => replace e with 1 by ring end. apply sqrt_1. }
    assert (enorm 0 1 (fcn xall) = 1) as N0.
    { unfold enorm. rewrite ssum1. unfold fcn, xall, vec_of. cbn. match goal with |- sqrt ?e = 1 => replace e with 1 by ring end. apply sqrt_1. }
    assert (grad_norm 1 r qtf ip (acnorm 1 J) (s_fnorm st) = 1) as G1.
    { change (s_fnorm st) with (enorm 0 1 (fcn xall)). rewrite N0. unfold grad_norm. destruct (Req_EM_T 1 0); [lra|].
      cbn [seq fold_left]. rewrite I0, A0. destruct (Req_EM_T 1 0); [lra|].
      change (0 + 1)%nat with 1%nat. rewrite ssum1. replace (r 0%nat 0%nat * qtf 0%nat) with 1 by lra.
      replace (1 / 1 / 1) with 1 by field. rewrite Rabs_R1. unfold Rmax. destruct (Rle_dec 0 1); lra. }
    cbn [s_fnorm]. rewrite G1.
    destruct (Rle_dec 1 (k_gtol kw_default)) as [L|_].
    { exfalso. unfold kw_default, k_gtol, gtol in L. assert (/ 10 ^ 10 < 1); [|lra].
      rewrite <- Rinv_1. apply Rinv_lt_contravar; [rewrite Rmult_1_l; apply pow_lt; lra|]. apply Rlt_pow_R1; [lra|lia]. }
    change (Z.eqb (k_maxiter kw_default) 0) with false. cbv iota. cbn [inner_b].
    unfold lm_try_b at 1. destruct (lmpar _ _ _ _ _ _ _) as [[r1 par] p].
    assert (forall x w, take_step 1 b ifree x w = PErr) as T.
    { intros x w. unfold take_step. assert (any_lim 1 b = false) as -> by reflexivity.
      assert (any_max b = true) as ->.
      { unfold any_max, b, run_bounds. cbn. unfold is_zero. destruct (Req_EM_T 0 0); [|contradiction]. destruct (Req_EM_T 1 0); [lra|]. reflexivity. }
      cbn [negb andb]. unfold bound_step. change (length (b_max b)) with 2%nat. cbn [seq filter].
      change (nth 0 (b_max b) 0) with 0. change (nth 1 (b_max b) 0) with 1. unfold Rltb.
      destruct (Rlt_dec 0 0); [lra|]. destruct (Rlt_dec 0 1); [|lra]. reflexivity. }
    rewrite T. reflexivity.
Qed.

(** ---------- stuck at a limit *)

Definition tilted : vec -> vec := fun p i => match i with O => p 0%nat - 2 * p 1%nat | _ => p 1%nat end.
Definition pinned : entry := mk_entry (Some (VFloat 1)) None (Some (1, 0)%Z) (Some (1, 0)) None None None None.

(** the limits of the two parameters *)
Definition pin_bounds : bounds := run_bounds [pinned; ent 1] 2.

Lemma pin_independent : forall J : mat, J 0%nat 0%nat = 1 -> J 0%nat 1%nat = -2 -> J 1%nat 0%nat = 0 -> J 1%nat 1%nat = 1 ->
  independent machep 2 2 J.
Proof.
  intros J J00 J01 J10 J11 z k l Hk Hl Hzk. assert (machep ^ 2 * 5 < 1 / 5) as Mp.
  { unfold machep. assert (/ 2 ^ 52 < / 2 ^ 5) by (apply Rinv_lt_contravar; [apply Rmult_lt_0_compat; apply pow_lt; lra|apply Rlt_pow; [lra|lia]]).
    assert (0 < / 2 ^ 52) by (apply Rinv_0_lt_compat, pow_lt; lra). assert (/ 2 ^ 5 = / 32) as E by (f_equal; ring). rewrite E in *.
    set (x := / 2 ^ 52) in *. clearbody x. replace (x ^ 2) with (x * x) by ring. nra. }
  assert (gram 2 J l l <= 5) as Gl.
  { unfold gram, dot, column. rewrite total2. destruct l as [|[|l]]; [| |lia]; rewrite ?J00, ?J01, ?J10, ?J11; lra. }
  assert (sqlen 2 (times 2 J z) = (z 0%nat - 2 * z 1%nat) ^ 2 + z 1%nat ^ 2) as ->.
  { unfold sqlen, dot, times. rewrite !total2. rewrite J00, J01, J10, J11. ring. }
  assert (1 / 5 <= (z 0%nat - 2 * z 1%nat) ^ 2 + z 1%nat ^ 2) as Z.
  { destruct k as [|[|k]]; [| |lia]; rewrite Hzk.
    - pose proof (Rle_0_sqr (5 * z 1%nat - 2)) as S. unfold Rsqr in S. cbn [pow]. lra.
    - pose proof (Rle_0_sqr (z 0%nat - 2 * 1)) as S. unfold Rsqr in S. cbn [pow]. lra. }
  assert (0 <= machep ^ 2) by (apply pow_le; left; apply machep_pos). nra.
Qed.

Lemma pin_step : forall ifree (x p : vec), x 0%nat = 1 -> x 1%nat = 1 -> p 0%nat = 1 -> p 1%nat = 1 ->
  exists w1 w2, take_step 2 pin_bounds ifree x (fun i => - p i) = POk (0, fun i => w1 i * 0, w2) /\ w2 0%nat = 1 /\ w2 1%nat = 1.
Proof.
  intros ifree x p X0 X1 P0 P1. set (b := pin_bounds).
  exists (hold 2 b x (fun i => - p i)), (snap b (fun i => x i + hold 2 b x (fun i => - p i) i * 0)). split.
  - unfold take_step. assert (any_lim 2 b = true) as -> by reflexivity. cbn [negb andb].
    assert (any_max b = false) as ->.
    { unfold any_max, b, pin_bounds, run_bounds. cbn. unfold is_zero. destruct (Req_EM_T 0 0); [reflexivity|contradiction]. }
    set (w := hold _ _ _ _).
    assert (w 0%nat = -1) as W0.
    { unfold w, hold. assert (low_peg b x 0 = true) as Lp.
      { unfold low_peg, is_zero. change (b_l b 0%nat) with 1. rewrite X0. destruct (Req_EM_T (1 - 1) 0); [reflexivity|lra]. }
      cbv zeta. change (up_peg b x 0) with false. rewrite Lp. unfold vmax, clip. cbn [seq map Nat.sub fold_left]. rewrite P0, P1.
      unfold Rmax, Rmin. repeat (destruct (Rle_dec _ _)); lra. }
    assert (shorten 2 b x w = 0) as ->; [|reflexivity].
    unfold shorten. cbn [seq filter].
    change (bit (b_ql b 1%nat)) with false. change (bit (b_qu b 0%nat)) with false. change (bit (b_qu b 1%nat)) with false.
    change (bit (b_ql b 0%nat)) with true. rewrite !andb_false_r. cbn [andb map fold_left].
    rewrite W0, X0. change (b_l b 0%nat) with 1.
    assert (machep < 1) as M1.
    { unfold machep. rewrite <- Rinv_1. apply Rinv_lt_contravar; [rewrite Rmult_1_l; apply pow_lt; lra|]. apply Rlt_pow_R1; [lra|lia]. }
    assert (Rltb machep (Rabs (-1)) = true) as ->.
    { unfold Rltb. rewrite Rabs_left by lra. destruct (Rlt_dec _ _); [reflexivity|lra]. }
    assert (Rltb (1 + -1) 1 = true) as -> by (unfold Rltb; destruct (Rlt_dec _ _); [reflexivity|lra]).
    cbn [andb map fold_left]. rewrite X0. change (b_l b 0%nat) with 1. rewrite W0.
    replace ((1 - 1) / -1) with 0 by field. unfold Rmin. destruct (Rle_dec 1 0); lra.
  - unfold snap. change (b_qu b 0%nat) with 0%Z. change (b_qu b 1%nat) with 0%Z. change (b_ql b 1%nat) with 0%Z. change (b_ql b 0%nat) with 1%Z.
    change (b_l b 0%nat) with 1. cbn [nz negb Z.eqb andb]. rewrite X0, X1.
    pose proof machep_pos. split; [|lra]. unfold sgn. destruct (Rleb _ _); lra.
Qed.

Lemma pin_round : forall ifree xall J fvec ip d r qtf gnorm st, J 0%nat 0%nat = 1 -> J 0%nat 1%nat = -2 -> J 1%nat 0%nat = 0 -> J 1%nat 1%nat = 1 ->
  factored 2 2 J fvec ip r qtf -> fvec 0%nat = -1 -> fvec 1%nat = 1 ->
  (forall j, (j < 2)%nat -> 0 < d j) -> s_r st = r -> s_par st = 0 -> 0 < s_delta st ->
  enorm 0 2 (fun j => d j * 1) <= 11 / 10 * s_delta st ->
  s_x st 0%nat = 1 -> s_x st 1%nat = 1 -> 0 < s_fnorm st ->
  (forall w, w 0%nat = 1 -> w 1%nat = 1 -> enorm 0 2 (tilted (place 2 ifree xall w)) = s_fnorm st) ->
  exists st' status good, lm_try_b kw_default tilted pin_bounds ifree xall 2 2 ip d qtf gnorm st = POk (st', status, good) /\
    s_x st' = s_x st /\ (1 <= status <= 4)%Z.
Proof.
  intros ifree xall J fvec ip d r qtf gnorm st J00 J01 J10 J11 Q F0 F1 Dp Er Ep De Le X0 X1 Fp Fe.
  pose proof (pin_independent J J00 J01 J10 J11) as Ind.
  assert (forall x, lm_equations 2 2 J fvec d 0 x -> x 0%nat = 1 /\ x 1%nat = 1) as Sol.
  { intros x L. pose proof (L 0%nat ltac:(lia)) as L0. pose proof (L 1%nat ltac:(lia)) as L1.
    unfold gram, dot, column in L0, L1. rewrite !total2 in L0, L1.
    rewrite J00, J01, J10, J11, F0, F1 in L0, L1. lra. }
  unfold lm_try_b. rewrite Er, Ep.
  pose proof (lmpar_solves 2 2 J fvec r ip d qtf (s_delta st) 0 Q Ind Dp De (Rle_refl 0)) as Lp.
  destruct (lmpar 2 r ip d qtf (s_delta st) 0) as [[r1 par] p]. destruct Lp as (_ & Lp & _).
  destruct Lp as (-> & Leq & ->).
  { intros x Hx. destruct (Sol x Hx) as [S0 S1]. eapply Rle_trans; [|exact Le]. right. unfold enorm. f_equal.
    rewrite !ssum2, S0, S1. reflexivity. }
  destruct (Sol p Leq) as [P0 P1].
  destruct (pin_step ifree (s_x st) p X0 X1 P0 P1) as (w1 & w2 & T & W0 & W1). rewrite T. cbv zeta.
  rewrite (Fe w2 W0 W1).
  set (actred := if Rlt_dec _ (s_fnorm st) then _ else _).
  assert (actred = 0) as ->.
  { unfold actred. destruct (Rlt_dec _ _); [|lra]. replace (s_fnorm st / s_fnorm st) with 1 by (field; lra). ring. }
  set (wa3 := fold_left _ _ _).
  assert (enorm 0 2 (fun i => 0 * wa3 i) = 0) as ->.
  { unfold enorm. rewrite ssum2. match goal with |- sqrt ?e = 0 => replace e with 0 by ring end. apply sqrt_0. }
  assert (enorm 0 2 (fun i => d i * (w1 i * 0)) = 0) as ->.
  { unfold enorm. rewrite ssum2. match goal with |- sqrt ?e = 0 => replace e with 0 by ring end. apply sqrt_0. }
  set (prered := _ + _ / (5 / 10)). assert (prered = 0) as -> by (unfold prered; field; lra).
  destruct (Req_EM_T 0 0) as [_|]; [|contradiction].
  destruct (Rle_dec 0 (25 / 100)) as [_|]; [|lra].
  assert (Rleb (1 / 10000) 0 = false) as -> by (unfold Rleb; destruct (Rle_dec _ _); [lra|reflexivity]).
  assert (Rleb (Rabs 0) (k_ftol kw_default) && Rleb 0 (k_ftol kw_default) && Rleb (5 / 10 * 0) 1 = true) as ->.
  { assert (0 < k_ftol kw_default) by (unfold kw_default, k_ftol, ftol; apply Rinv_0_lt_compat, pow_lt; lra).
    rewrite Rabs_R0. unfold Rleb. destruct (Rle_dec 0 _); [|lra]. destruct (Rle_dec (5 / 10 * 0) 1); [reflexivity|lra]. }
  cbn [andb].
  match goal with |- context [if Rle_dec ?a ?c then 2%Z else 1%Z] => destruct (Rle_dec a c) end; cbn [Z.eqb Pos.eqb negb].
  all: eexists _, _, _; split; [reflexivity|]; split; [reflexivity|lia].
Qed.

Lemma pin_scale : forall (d acn : vec), 0 < acn 0%nat -> 0 < acn 1%nat ->
  (d = fun j => if Req_EM_T (acn j) 0 then 1 else acn j) -> forall j, (j < 2)%nat -> 0 < d j /\ Rmax (acn j) (d j) = d j.
Proof.
  intros d acn A0 A1 -> j Hj. assert (0 < acn j) as A by (destruct j as [|[|j]]; [exact A0|exact A1|lia]). cbv beta.
  destruct (Req_EM_T (acn j) 0); [lra|]. split; auto. unfold Rmax. destruct (Rle_dec _ _); reflexivity.
Qed.

Lemma pin_reach : forall (d d' x : vec) xn de, (forall j, (j < 2)%nat -> 0 < d j /\ d' j = d j) -> x 0%nat = 1 -> x 1%nat = 1 ->
  xn = enorm 0 2 (fun j => d j * x j) -> de = (if Req_EM_T (k_factor kw_default * xn) 0 then k_factor kw_default else k_factor kw_default * xn) ->
  0 < de /\ enorm 0 2 (fun j => d' j * 1) <= 11 / 10 * de.
Proof.
  intros d d' x xn de Hd X0 X1 Ex Ed. destruct (Hd 0%nat ltac:(lia)) as [D0 E0]. destruct (Hd 1%nat ltac:(lia)) as [D1 E1].
  assert (enorm 0 2 (fun j => d' j * 1) = xn) as -> by (rewrite Ex; unfold enorm; rewrite !ssum2, X0, X1, E0, E1; reflexivity).
  assert (0 < xn) as Xp.
  { rewrite Ex. unfold enorm. apply sqrt_lt_R0. rewrite ssum2, X0, X1. nra. }
  change (k_factor kw_default) with 100 in Ed. destruct (Req_EM_T _ _) in Ed; lra.
Qed.

Lemma fit_stuck : exists o better, reads 2 2 tilted /\ Forall plain_flags [pinned; ent 1] /\
  mpfit_b 2 false kw_default tilted 2 None (Some [pinned; ent 1]) = Some (Ended o) /\
  (1 <= o_status o <= 4)%Z /\ o_params o 0%nat = 1 /\ o_params o 1%nat = 1 /\
  obeys pinned (better 0%nat) /\ chi2 2 tilted better < chi2 2 tilted (o_params o).
Proof.
  assert (reads 2 2 tilted) as Hr.
  { intros p q H i _. unfold tilted. rewrite (H 0%nat), (H 1%nat) by lia. destruct i; reflexivity. }
  assert (Forall plain_flags [pinned; ent 1]) as Hf.
  { constructor; [split; [right|left]; reflexivity|]. constructor; [split; left; reflexivity|constructor]. }
  set (fcn := tilted) in *.
  set (b := pin_bounds). set (free := [0%nat; 1%nat]).
  set (ifree := fun j => nth j free 0%nat). set (xall := vec_of [1; 1]). set (st := lm_start fcn 2 free xall).
  assert (exists st' status ipvt, outer_b 2 kw_default fcn b ifree xall 2 2 (fun _ => 0) st = Some (POk (st', status, ipvt)) /\
    s_x st' = s_x st /\ (1 <= status <= 4)%Z) as (st' & status & ipvt & O & Ox & Os).
  2:{ exists (report fcn ifree xall 2 2 st' status ipvt), (fun i => match i with O => 1 | _ => 2 / 5 end).
      split; auto. split; auto. split.
      - unfold mpfit_b. cbn [negb map e_value pinned ent start_array all_some forallb is_int andb val_R].
        destruct (fit_values_cases 2 kw_default fcn 2 [1; 1] [pinned; ent 1] eq_refl Hf)
          as [[A E]|[A [[B E]|[_ [[C E]|[_ [[D E]|[_ [[F E]|[F E]]]]]]]]]].
        + specialize (A pinned (or_introl eq_refl)). discriminate A.
        + exfalso. destruct B as (i & e & He & N). apply N. destruct i as [|[|[|i]]]; cbn in He; try discriminate; injection He as <-;
            split; intros X; try discriminate X; cbn; lra.
        + exfalso. destruct C as (e & [<-|[<-|[]]] & (X & Y & _) & _); [discriminate Y|discriminate X].
        + exfalso. apply D. unfold keywords_ok, kw_default, k_ftol, k_xtol, k_gtol, k_maxiter, k_factor, ftol, xtol, gtol, factor.
          assert (0 < / 10 ^ 10) by (apply Rinv_0_lt_compat, pow_lt; lra). repeat split; auto; try lia; lra.
        + exfalso. revert F. cbn. lia.
        + rewrite E. cbv zeta. change (free_n [pinned; ent 1]) with free. change (length free) with 2%nat.
          change (length [pinned; ent 1]) with 2%nat. fold pin_bounds. fold b. fold ifree. fold xall. fold st. rewrite O. reflexivity.
      - cbn [report o_params o_status].
        assert (place 2 ifree xall (s_x st') 0%nat = 1 /\ place 2 ifree xall (s_x st') 1%nat = 1) as [P0 P1].
        { rewrite Ox. split; reflexivity. }
        split; [auto|]. split; [exact P0|]. split; [exact P1|]. split.
        { split; intros X; [cbn; lra|discriminate X]. }
        unfold chi2, sqlen, dot. rewrite !total2. unfold fcn, tilted. rewrite P0, P1. lra. }
  (* the run *)
  cbn [outer_b].
  set (J0 := fdjac2_b fcn b ifree (place 2 ifree xall (s_x st)) (s_x st) (s_fvec st)).
  assert (forall j, (j < 2)%nat -> fd_step_b b ifree (s_x st) j = fd_step 1) as Fd.
  { intros j Hj. unfold fd_step_b, fd_step. destruct j as [|[|j]]; [| |lia].
    - change (b_step b (ifree 0%nat)) with 0. change (b_rel b (ifree 0%nat)) with 0. destruct (Rlt_dec 0 0); [lra|]. reflexivity.
    - change (b_step b (ifree 1%nat)) with 0. change (b_rel b (ifree 1%nat)) with 0. destruct (Rlt_dec 0 0); [lra|]. reflexivity. }
  pose proof (fd_step_nz 1) as Hz.
  assert (J0 0%nat 0%nat = 1 /\ J0 0%nat 1%nat = -2 /\ J0 1%nat 0%nat = 0 /\ J0 1%nat 1%nat = 1) as (J00 & J01 & J10 & J11).
  { unfold J0, fdjac2_b. rewrite !Fd by lia.
    change (Z.leb (Z.abs (b_side b (ifree 0%nat))) 1) with true. change (Z.leb (Z.abs (b_side b (ifree 1%nat))) 1) with true. cbv iota.
    unfold fcn, tilted, st, lm_start, upd, xall, ifree, free, place, vec_of, upd. cbn. set (h := fd_step 1) in *. repeat split; field; auto. }
  set (J := peg_jac _ _ _ _ _ _).
  assert (forall i j, (i < 2)%nat -> (j < 2)%nat -> J i j = J0 i j) as JJ.
  { intros i j Hi Hj. unfold J, peg_jac. assert (any_lim 2 b = true) as -> by reflexivity.
    assert (forall k, up_peg b (s_x st) k = false \/ (2 <= k)%nat) as U.
    { intros [|[|k]]; [left; reflexivity|left; reflexivity|right; lia]. }
    destruct (U j) as [->|]; [|lia]. cbn [andb].
    destruct j as [|[|j]]; [| |lia].
    - assert (Rltb 0 (ssum 0 2 (fun k => s_fvec st k * J0 k 0%nat)) = false) as ->; [|now rewrite andb_false_r].
      rewrite ssum2, J00, J10. change (s_fvec st 0%nat) with (1 - 2 * 1). change (s_fvec st 1%nat) with 1. unfold Rltb. destruct (Rlt_dec _ _) as [L|]; auto. exfalso. lra.
    - reflexivity. }
  pose proof (qr_correct 2 2 J (s_fvec st) (le_n 2)) as Q. cbv zeta in Q.
  destruct (r_qtf 2 2 (qrfac 2 2 J) (s_fvec st)) as [r qtf]. cbv zeta.
  set (ip := q_ipvt (qrfac 2 2 J)) in *.
  change (Nat.eqb (s_niter st) 1) with true. cbv iota.
  set (d := fun j => if Req_EM_T (acnorm 2 J j) 0 then 1 else acnorm 2 J j).
  set (xn := enorm 0 2 (fun j => d j * s_x st j)).
  set (de := if Req_EM_T (k_factor kw_default * xn) 0 then _ else _).
  set (st1 := mk_lm _ _ _ _ _ _ _ _ r).
  destruct (Rle_dec _ (k_gtol kw_default)) as [_|_].
  { eexists _, _, _. split; [reflexivity|]. split; [reflexivity|lia]. }
  change (Z.eqb (k_maxiter kw_default) 0) with false. cbv iota. cbn [inner_b].
  assert (0 < acnorm 2 J 0%nat) as A0.
  { unfold acnorm, enorm. rewrite !ssum2, !JJ, J00, J10 by lia. apply sqrt_lt_R0. clear. lra. }
  assert (0 < acnorm 2 J 1%nat) as A1.
  { unfold acnorm, enorm. rewrite !ssum2, !JJ, J01, J11 by lia. apply sqrt_lt_R0. clear. lra. }
  pose proof (pin_scale d (acnorm 2 J) A0 A1 eq_refl) as Ds.
  destruct (pin_reach d (fun j => Rmax (acnorm 2 J j) (d j)) (s_x st) xn de Ds eq_refl eq_refl eq_refl eq_refl) as [R1 R2].
  match goal with |- context [lm_try_b _ _ _ _ _ _ _ _ _ _ ?g _] => set (gn := g) end.
  assert (0 < s_fnorm st1) as Fp.
  { change (s_fnorm st1) with (enorm 0 2 (fcn xall)). unfold enorm. apply sqrt_lt_R0. rewrite ssum2. unfold fcn, tilted, xall, vec_of. cbn. clear. lra. }
  assert (forall w, w 0%nat = 1 -> w 1%nat = 1 -> enorm 0 2 (tilted (place 2 ifree xall w)) = s_fnorm st1) as Fe.
  { intros w W0 W1. change (s_fnorm st1) with (enorm 0 2 (fcn xall)). apply enorm_ext. intros i Hi. unfold fcn, tilted.
    change (place 2 ifree xall w 0%nat) with (w 0%nat). change (place 2 ifree xall w 1%nat) with (w 1%nat). rewrite W0, W1. reflexivity. }
  destruct (pin_round ifree xall J (s_fvec st) ip (fun j => Rmax (acnorm 2 J j) (d j)) r qtf gn st1) as (s1 & z1 & g1 & T & T1 & T2).
  1-4: rewrite JJ by lia; assumption.
  { exact Q. }
  { change (1 - 2 * 1 = -1). clear. lra. }
  { reflexivity. }
  { intros j Hj. destruct (Ds j Hj) as [D1 D2]. rewrite D2. exact D1. }
  { reflexivity. }
  { reflexivity. }
  { exact R1. }
  { exact R2. }
  { reflexivity. }
  { reflexivity. }
  { exact Fp. }
  { exact Fe. }
  change fcn with tilted. change b with pin_bounds. rewrite T.
  assert (negb (Z.eqb z1 0) = true) as Nz by (destruct (Z.eqb_spec z1 0); [lia|reflexivity]).
  rewrite Nz. cbv beta iota. rewrite Nz.
  eexists _, _, _. split; [reflexivity|]. split; [exact T1|exact T2].
Qed.
