(** Without limits and bounds the fitter is the one of Mp_Model. *)
From Coq Require Import Reals List Arith ZArith Bool Lra Lia Psatz FunctionalExtensionality.
From Verif Require Import PyRes CBase PyList Mp_Model Mp_Spec Mp_Sums Mp_QR Mp_Step Mp_Run Mp_Fit Mpl_Model Mpl_Spec Mpl_Run Mpl_Limits Mpl_More.
Import ListNotations.
Local Open Scope R_scope.

Record idle (n : nat) (b : bounds) : Prop := mk_idle {
  i_lim : forall j, b_ql b j = 0%Z /\ b_qu b j = 0%Z;
  i_max : any_max b = false;
  i_step : forall i, b_step b i = 0 /\ b_rel b i = 0 /\ b_side b i = 0%Z }.

Lemma idle_lim : forall n b, idle n b -> any_lim n b = false.
Proof.
  intros n b [L _ _]. unfold any_lim. destruct (existsb _ _) eqn:E; auto. apply existsb_exists in E. destruct E as (j & _ & E).
  destruct (L j) as [A B]. rewrite A, B in E. discriminate.
Qed.

Lemma idle_take : forall n b ifree x p, idle n b -> take_step n b ifree x p = POk (1, p, fun i => x i + p i).
Proof. intros n b ifree x p I. unfold take_step. rewrite (idle_lim n b I), (i_max n b I). reflexivity. Qed.

Lemma idle_fd : forall n b ifree x j, idle n b -> fd_step_b b ifree x j = fd_step (x j).
Proof.
  intros n b ifree x j [L _ S]. unfold fd_step_b. destruct (S (ifree j)) as (A & B & C). rewrite A, B, C.
  destruct (L j) as [_ D]. rewrite D. cbv zeta. destruct (Rlt_dec 0 0); [lra|]. cbn [nz negb Z.eqb andb orb]. reflexivity.
Qed.

Lemma idle_jac : forall fcn n b ifree xall x fvec, idle n b -> fdjac2_b fcn b ifree xall x fvec = fdjac2 fcn ifree xall x fvec.
Proof.
  intros fcn n b ifree xall x fvec I. apply functional_extensionality. intros i. apply functional_extensionality. intros j.
  unfold fdjac2_b, fdjac2. rewrite (idle_fd n b ifree x j I). destruct (i_step n b I (ifree j)) as (_ & _ & ->). reflexivity.
Qed.

Lemma idle_try : forall fcn b ifree xall m n ipvt diag qtf gnorm st, idle n b ->
  lm_try_b kw_default fcn b ifree xall m n ipvt diag qtf gnorm st = POk (lm_try fcn ifree xall m n ipvt diag qtf gnorm st).
Proof.
  intros fcn b ifree xall m n ipvt diag qtf gnorm st I. unfold lm_try_b, lm_try.
  destruct (lmpar n (s_r st) ipvt diag qtf (s_delta st) (s_par st)) as [[r par] p].
  rewrite (idle_take n b ifree _ _ I). cbv zeta.
  set (wa3 := fold_left _ _ _).
  replace (fun i => 1 * wa3 i) with wa3 by (apply functional_extensionality; intros; ring).
  rewrite Rmult_1_l.
  change (k_ftol kw_default) with ftol. change (k_xtol kw_default) with xtol. change (k_maxiter kw_default) with (Z.of_nat maxiter).
  destruct (if Rle_dec _ (25 / 100) then _ else _) as [delta' par'].
  set (st' := if Rleb _ _ then _ else _).
  assert (forall k, Z.leb (Z.of_nat maxiter) (Z.of_nat k) = Nat.leb maxiter k) as E.
  { intros k. destruct (Nat.leb_spec maxiter k); [apply Z.leb_le|apply Z.leb_gt]; lia. }
  rewrite E. destruct (negb _); reflexivity.
Qed.

Lemma idle_inner : forall fuel fcn b ifree xall m n ipvt diag qtf gnorm st, idle n b ->
  inner_b fuel kw_default fcn b ifree xall m n ipvt diag qtf gnorm st =
  option_map POk (inner fuel fcn ifree xall m n ipvt diag qtf gnorm st).
Proof.
  induction fuel as [|fuel IH]; intros fcn b ifree xall m n ipvt diag qtf gnorm st I; auto. cbn [inner_b inner].
  rewrite (idle_try fcn b ifree xall m n ipvt diag qtf gnorm st I).
  destruct (lm_try fcn ifree xall m n ipvt diag qtf gnorm st) as [[st1 s1] good].
  destruct (negb _); [reflexivity|]. destruct good; [reflexivity|]. now apply IH.
Qed.

Lemma idle_outer : forall fuel fcn b ifree xall m n diag st, idle n b ->
  outer_b fuel kw_default fcn b ifree xall m n diag st = option_map POk (outer fuel fcn ifree xall m n diag st).
Proof.
  induction fuel as [|fuel IH]; intros fcn b ifree xall m n diag st I; auto. cbn [outer_b outer].
  rewrite (idle_jac fcn n b ifree _ _ _ I). unfold peg_jac. rewrite (idle_lim n b I).
  set (J := fdjac2 _ _ _ _ _). destruct (r_qtf m n (qrfac m n J) (s_fvec st)) as [r qtf]. cbv zeta.
  change (k_gtol kw_default) with gtol. change (k_factor kw_default) with factor. change (Z.eqb (k_maxiter kw_default) 0) with false.
  destruct (Rle_dec _ gtol); [reflexivity|].
  rewrite (idle_inner _ _ _ _ _ _ _ _ _ _ _ _ I).
  destruct (inner _ _ _ _ _ _ _ _ _ _ _) as [[st2 s2]|]; [|reflexivity]. cbn [option_map].
  destruct (negb _); [reflexivity|]. now apply IH.
Qed.

Lemma bare_idle : forall ps n, (forall e, In e ps -> bare e) -> idle n (run_bounds ps (length ps)).
Proof.
  intros ps n Hb.
  assert (forall {A} (key : entry -> option A) d i, (forall e, bare e -> key e = None) -> nth i (parinfo (Some ps) key d (length ps)) d = d) as K.
  { intros A key d i Hk. rewrite nth_key. destruct (nth_error ps i) as [e|] eqn:E; auto. now rewrite (Hk e (Hb e (nth_error_In _ _ E))). }
  split; unfold run_bounds; cbn [b_ql b_qu b_l b_u b_max b_step b_rel b_side].
  - intros j. rewrite (K _ e_limited); [auto|]. now intros e (A & _).
  - unfold any_max. cbn [b_max parinfo]. clear K. induction ps as [|e ps IH]; auto. cbn [map existsb].
    rewrite IH by (intros; apply Hb; now right). destruct (Hb e (or_introl eq_refl)) as (_ & _ & _ & _ & _ & ->).
    unfold is_zero. destruct (Req_EM_T 0 0); auto; contradiction.
  - intros i. rewrite (K _ e_step), (K _ e_relstep), (K _ e_side); auto; intros e (A & B & C & D & E & F); auto.
Qed.

Lemma fit_plain : forall fuel old fcn m ps vals free, (forall e, In e ps -> bare e) -> ps <> [] ->
  map e_value ps = map (fun x => Some (VFloat x)) vals -> frees ps free ->
  mpfit_b fuel old kw_default fcn m None (Some ps) =
  match mpfit fuel fcn (length ps) m free (fun i => nth i vals 0) with
  | None => None
  | Some PErr => Some (Refused M_no_free)
  | Some (POk o) => Some (if Nat.ltb m (length free) then Refused M_few_data else Ended o)
  end.
Proof.
  intros fuel old fcn m ps vals free Hb Hn Hv Hfr.
  assert (free = free_n ps) as -> by (rewrite Hfr; symmetry; apply (free_frees ps); reflexivity).
  assert (Forall plain_flags ps) as Hf.
  { apply Forall_forall. intros e I. destruct (Hb e I) as (L & _). unfold plain_flags, flags. rewrite L. split; left; reflexivity. }
  assert (length vals = length ps) as Hl by (rewrite <- (map_length e_value ps), Hv, map_length; reflexivity).
  assert (mpfit_b fuel old kw_default fcn m None (Some ps) = fit_values fuel kw_default fcn m vals (Some ps)) as E0.
  { unfold mpfit_b. destruct ps as [|e0 pl] eqn:Eps; [contradiction|]. rewrite <- Eps in *. cbn [negb]. rewrite Hv.
    assert (all_some (map (fun x => Some (VFloat x)) vals) = Some (map VFloat vals)) as A
      by (clear; induction vals as [|v l IH]; cbn; [|rewrite IH]; reflexivity).
    unfold start_array. rewrite A. destruct vals as [|v l]; [subst ps; discriminate Hl|]. cbn [map forallb is_int andb].
    rewrite map_map. cbn [val_R]. rewrite map_id. reflexivity. }
  rewrite E0.
  assert (~ some_outside ps vals) as No.
  { intros (i & e & He & N). apply N. destruct (Hb e (nth_error_In _ _ He)) as (L & _). unfold obeys, flags. rewrite L. split; intros; discriminate. }
  assert (~ some_no_room ps) as Nr.
  { intros (e & He & (N & _) & _). destruct (Hb e He) as (L & _). unfold flags in N. rewrite L in N. discriminate. }
  assert (keywords_ok kw_default) as Kw.
  { unfold keywords_ok, kw_default, k_ftol, k_xtol, k_gtol, k_maxiter, k_factor, ftol, xtol, gtol, factor.
    assert (0 < / 10 ^ 10) by (apply Rinv_0_lt_compat, pow_lt; lra). repeat split; auto; try lia; lra. }
  destruct (fit_values_cases fuel kw_default fcn m vals ps Hl Hf)
    as [[A E]|[A [[B E]|[_ [[C E]|[_ [[D E]|[_ [[F E]|[F E]]]]]]]]]]; try contradiction; rewrite E; clear E.
  - unfold mpfit. rewrite (proj2 (free_nil ps) A). reflexivity.
  - assert (free_n ps <> []) as Nf by (intros Z; now apply A, free_nil).
    assert (Nat.ltb m (length (free_n ps)) = true) as L by (now apply Nat.ltb_lt). rewrite L.
    unfold mpfit. rewrite L. destruct (free_n ps); [contradiction|]. reflexivity.
  - assert (free_n ps <> []) as Nf by (intros Z; now apply A, free_nil).
    rewrite mpfit_unfold by auto. cbv zeta. rewrite (idle_outer _ _ _ _ _ _ _ _ _ (bare_idle ps _ Hb)).
    assert (Nat.ltb m (length (free_n ps)) = false) as -> by (now apply Nat.ltb_ge).
    change (fun i => nth i vals 0) with (vec_of vals).
    destruct (outer _ _ _ _ _ _ _ _) as [[[st status] ipvt]|]; reflexivity.
Qed.
