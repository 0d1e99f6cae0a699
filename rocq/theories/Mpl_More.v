(** What is refused, when an exception is raised, bounds on the steps, and the
    fitter without limits. *)
From Coq Require Import Reals List Arith ZArith Bool Lra Lia Psatz FunctionalExtensionality.
From Verif Require Import PyRes CBase PyList Mp_Model Mp_Spec Mp_Sums Mp_QR Mp_Step Mp_Run Mp_Fit Mpl_Model Mpl_Spec Mpl_Run Mpl_Limits.
Import ListNotations.
Local Open Scope R_scope.

Lemma fit_refused : forall fuel old kw fcn m xall ps out free, Forall plain_flags ps -> frees ps free ->
  (forall x, xall = Some x -> length x = length ps) ->
  mpfit_b fuel old kw fcn m xall (Some ps) = Some out -> out <> Raised ->
  exists start, length start = length ps /\ (forall i, (i < length ps)%nat -> start_value xall ps i = Some (nth i start 0)) /\
  (out = Refused M_no_free <-> all_fixed ps) /\
  (out = Refused M_not_within <-> ~ all_fixed ps /\ some_outside ps start) /\
  (out = Refused M_inconsistent <-> ~ all_fixed ps /\ ~ some_outside ps start /\ some_no_room ps) /\
  (out = Refused M_keywords <-> ~ all_fixed ps /\ ~ some_outside ps start /\ ~ some_no_room ps /\ ~ keywords_ok kw) /\
  (out = Refused M_few_data <-> ~ all_fixed ps /\ ~ some_outside ps start /\ ~ some_no_room ps /\ keywords_ok kw /\
     (m < length free)%nat) /\
  ((exists o, out = Ended o) <-> ~ all_fixed ps /\ ~ some_outside ps start /\ ~ some_no_room ps /\ keywords_ok kw /\
     (length free <= m)%nat).
Proof.
  intros fuel old kw fcn m xall ps out free Hf Hfr Ha H Nr.
  assert (free = free_n ps) as -> by (rewrite Hfr; symmetry; apply (free_frees ps); reflexivity).
  pose proof H as H0. apply started in H; auto.
  destruct H as [->|(vals & Hl & Hs & H)].
  { exfalso. unfold mpfit_b in H0. destruct ps as [|e0 pl] eqn:Eps; [destruct xall; discriminate|].
    destruct xall as [x|].
    - rewrite (Ha x eq_refl), Nat.eqb_refl in H0. cbn [negb] in H0. destruct (start_array _ _) as [[|v vl]|]; try discriminate.
      unfold fit_values in H0.
      repeat match goal with H : context [match ?c with _ => _ end] |- _ => destruct c; try discriminate end.
    - cbn [negb] in H0. destruct (start_array _ _) as [[|v vl]|]; try discriminate.
      unfold fit_values in H0.
      repeat match goal with H : context [match ?c with _ => _ end] |- _ => destruct c; try discriminate end. }
  exists vals. split; auto. split; auto.
  destruct (fit_values_cases fuel kw fcn m vals ps Hl Hf) as [[A E]|[A [[B E]|[B [[C E]|[C [[D E]|[D [[F E]|[F E]]]]]]]]]];
    rewrite E in H; cbv zeta in H.
  1-5: injection H as <-; repeat match goal with |- _ /\ _ => split | |- _ <-> _ => split end;
    let X := fresh in intros X; first [discriminate X | tauto | destruct X as [? X]; discriminate X | exfalso; destruct X as (_ & _ & _ & _ & X); lia
      | repeat (split; auto; fail) | idtac].
  destruct (outer_b _ _ _ _ _ _ _ _ _ _) as [[[[st status] ipvt]|]|]; try discriminate; injection H as <-; [|contradiction].
  repeat match goal with |- _ /\ _ => split | |- _ <-> _ => split end;
    let X := fresh in intros X; first [discriminate X | eexists; reflexivity | tauto | exfalso; destruct X as (_ & _ & _ & _ & X); lia | idtac].
Qed.

(** ---------- exceptions *)

Lemma raises_missing : forall fuel old kw fcn m ps e, In e ps -> e_value e = None ->
  mpfit_b fuel old kw fcn m None (Some ps) = Some Raised.
Proof.
  intros fuel old kw fcn m ps e He Hv. unfold mpfit_b. destruct ps as [|e0 pl] eqn:Eps; auto. rewrite <- Eps in *. cbn [negb].
  assert (all_some (map e_value ps) = None) as A.
  { clear Eps. induction ps as [|a ps IH]; [destruct He|]. cbn. destruct He as [->|He]; [now rewrite Hv|].
    destruct (e_value a); auto. now rewrite (IH He). }
  unfold start_array. now rewrite A.
Qed.

Lemma raises_ints : forall fuel kw fcn m zs, mpfit_b fuel false kw fcn m (Some (map VInt zs)) None = Some Raised.
Proof.
  intros fuel kw fcn m zs. unfold mpfit_b. cbn [negb]. unfold start_array.
  assert (all_some (map Some (map VInt zs)) = Some (map VInt zs)) as -> by (induction zs as [|z zs IH]; cbn; [|rewrite IH]; reflexivity).
  assert (forallb is_int (map VInt zs) = true) as -> by (induction zs; cbn; auto).
  destruct zs; reflexivity.
Qed.

Lemma step_no_raise : forall n b ifree x p, any_max b = false -> take_step n b ifree x p <> PErr.
Proof. intros n b ifree x p H. unfold take_step. rewrite H. destruct (negb (any_lim n b) && _); discriminate. Qed.

Lemma inner_no_raise : forall fuel kw fcn b ifree xall m n ipvt diag qtf gnorm st, any_max b = false ->
  inner_b fuel kw fcn b ifree xall m n ipvt diag qtf gnorm st <> Some PErr.
Proof.
  induction fuel as [|fuel IH]; intros kw fcn b ifree xall m n ipvt diag qtf gnorm st H; [discriminate|]. cbn [inner_b].
  destruct (lm_try_b kw fcn b ifree xall m n ipvt diag qtf gnorm st) as [[[st1 s1] good]|] eqn:T.
  - destruct (negb _); [discriminate|]. destruct good; [discriminate|]. now apply IH.
  - exfalso. unfold lm_try_b in T. destruct (lmpar _ _ _ _ _ _ _) as [[r par] p].
    destruct (take_step _ _ _ _ _) as [[[al w1] w2]|] eqn:E; [|now apply step_no_raise in E].
    cbv zeta in T. destruct (if Rle_dec _ _ then _ else _) as [d q]. destruct (negb _); discriminate.
Qed.

Lemma outer_no_raise : forall fuel kw fcn b ifree xall m n diag st, any_max b = false ->
  outer_b fuel kw fcn b ifree xall m n diag st <> Some PErr.
Proof.
  induction fuel as [|fuel IH]; intros kw fcn b ifree xall m n diag st H; [discriminate|]. cbn [outer_b].
  destruct (r_qtf _ _ _ _) as [r qtf]. cbv zeta. destruct (Rle_dec _ (k_gtol kw)); [discriminate|].
  destruct (Z.eqb _ 0); [discriminate|].
  destruct (inner_b _ _ _ _ _ _ _ _ _ _ _ _ _) as [[[st2 s2]|]|] eqn:I; [|now apply inner_no_raise in I|discriminate].
  destruct (negb _); [discriminate|]. now apply IH.
Qed.

(** starting values of which one is a float, and no bound on the steps *)
Lemma fit_no_raise : forall fuel old kw fcn m ps, Forall plain_flags ps -> ps <> [] ->
  (forall e, In e ps -> e_value e <> None) -> (exists e x, In e ps /\ e_value e = Some (VFloat x)) ->
  (forall e, In e ps -> e_maxstep e = None \/ e_maxstep e = Some 0) ->
  mpfit_b fuel old kw fcn m None (Some ps) <> Some Raised.
Proof.
  intros fuel old kw fcn m ps Hf Hn Hv (ef & xf & Hef & Hxf) Hm H. unfold mpfit_b in H.
  destruct ps as [|e0 pl] eqn:Eps; [contradiction|]. rewrite <- Eps in *. cbn [negb] in H.
  assert (exists l, all_some (map e_value ps) = Some l /\ length l = length ps /\ In (VFloat xf) l) as (l & A & Al & Ai).
  { clear - Hv Hef Hxf. induction ps as [|a ps IH]; [destruct Hef|]. cbn.
    destruct (e_value a) as [v|] eqn:E; [|exfalso; apply (Hv a); cbn; auto].
    assert (exists l, all_some (map e_value ps) = Some l /\ length l = length ps) as (l & L1 & L2).
    { assert (forall e, In e ps -> e_value e <> None) as Hv' by (intros; apply Hv; now right). clear - Hv'.
      induction ps as [|c ps IH]; cbn; [now exists []|].
      destruct (e_value c) as [w|] eqn:E; [|exfalso; apply (Hv' c); cbn; auto].
      destruct IH as (l & -> & L); [intros; apply Hv'; now right|]. exists (w :: l). cbn. auto. }
    rewrite L1. exists (v :: l). split; auto. split; [cbn; auto|].
    destruct Hef as [->|Hef]; [left; congruence|].
    destruct IH as (l' & M1 & _ & M3); auto; [intros; apply Hv; now right|]. rewrite L1 in M1. injection M1 as <-. now right. }
  unfold start_array in H. rewrite A in H.
  assert (forallb is_int l = false) as Fi.
  { destruct (forallb is_int l) eqn:E; auto. rewrite forallb_forall in E. specialize (E _ Ai). discriminate. }
  rewrite Fi in H. cbn [andb] in H.
  assert (fit_values fuel kw fcn m (map val_R l) (Some ps) = Some Raised) as K.
  { destruct (map val_R l) eqn:E; auto. exfalso. destruct l; [destruct Ai|discriminate]. }
  clear H.
  destruct (fit_values_cases fuel kw fcn m (map val_R l) ps ltac:(rewrite map_length; lia) Hf)
    as [[_ E]|[_ [[_ E]|[_ [[_ E]|[_ [[_ E]|[_ [[_ E]|[_ E]]]]]]]]]]; rewrite E in K; try discriminate K. cbv zeta in K.
  destruct (outer_b _ _ _ _ _ _ _ _ _ _) as [[[[st status] ipvt]|]|] eqn:O; try discriminate K.
  apply outer_no_raise in O; auto. unfold any_max, run_bounds. cbn [b_max parinfo].
  clear - Hm. induction ps as [|e ps IH]; auto. cbn [map existsb]. rewrite IH by (intros; apply Hm; now right).
  destruct (Hm e (or_introl eq_refl)) as [-> | ->]; unfold is_zero; destruct (Req_EM_T 0 0); auto; contradiction.
Qed.

(** ---------- bounds on the steps *)

Lemma fold_max_ge : forall l a x, In x (a :: l) -> x <= fold_left Rmax l a.
Proof.
  assert (forall l a, a <= fold_left Rmax l a) as K.
  { induction l as [|c l IH]; intros a; cbn; [lra|]. eapply Rle_trans; [|apply IH]. apply Rmax_l. }
  induction l as [|c l IH]; intros a x [->|Hx]; cbn; [lra|destruct Hx| |].
  - eapply Rle_trans; [|apply K]. apply Rmax_l.
  - destruct Hx as [->|Hx]; [eapply Rle_trans; [|apply K]; apply Rmax_r|]. apply IH. now right.
Qed.

Lemma bound_step_le : forall n b ifree wa1 alpha alpha' k, (forall j, (j < n)%nat -> ifree j = j) ->
  length (b_max b) = n -> bound_step n b ifree wa1 alpha = POk alpha' -> (k < n)%nat -> 0 < nth k (b_max b) 0 ->
  Rabs (wa1 k * alpha') <= nth k (b_max b) 0.
Proof.
  intros n b ifree wa1 alpha alpha' k Hi Hl H Hk Hp. unfold bound_step in H. cbv zeta in H.
  set (wh := filter _ (seq 0 (length (b_max b)))) in H.
  assert (In k wh) as Ik.
  { unfold wh. apply filter_In. split; [apply in_seq; lia|]. unfold Rltb. destruct (Rlt_dec _ _); [auto|contradiction]. }
  assert (forall j, In j wh -> (j < n)%nat /\ 0 < nth j (b_max b) 0) as Wh.
  { intros j Hj. apply filter_In in Hj. destruct Hj as [A B]. apply in_seq in A. apply Rltb_true in B. split; [lia|auto]. }
  destruct wh as [|k0 ks] eqn:Ew; [destruct Ik|]. rewrite <- Ew in *.
  destruct (existsb _ wh); [discriminate|].
  assert (forall (f : nat -> bool), (forall j, In j wh -> f j = false) -> existsb f wh = false) as Ex.
  { intros f F. destruct (existsb f wh) eqn:E; auto. apply existsb_exists in E. destruct E as (j & A & B). rewrite F in B; auto. }
  assert (forall j, In j wh -> is_zero (nth (ifree j) (b_max b) 0) = false) as Nz.
  { intros j Hj. destruct (Wh j Hj) as [A B]. rewrite Hi by auto. unfold is_zero. destruct (Req_EM_T _ _); [lra|auto]. }
  rewrite Ex in H by (intros j Hj; now rewrite Nz). rewrite Ex in H by auto.
  set (q := fun k => Rabs (wa1 k * alpha) / Rabs (nth (ifree k) (b_max b) 0)) in H.
  change (Rabs (wa1 k0 * alpha) / Rabs (nth (ifree k0) (b_max b) 0)) with (q k0) in H.
  set (mrat := fold_left Rmax (map q ks) (q k0)) in H.
  assert (q k <= mrat) as Qk.
  { apply fold_max_ge. change (In (q k) (map q (k0 :: ks))). apply in_map. now rewrite <- Ew. }
  assert (q k = Rabs (wa1 k * alpha) / nth k (b_max b) 0) as Eq by (unfold q; rewrite Hi by auto; rewrite (Rabs_right (nth k _ 0)); lra).
  set (s := nth k (b_max b) 0) in *.
  assert (Rabs (wa1 k * alpha) <= mrat * s) as Bd.
  { replace (Rabs (wa1 k * alpha)) with (q k * s) by (rewrite Eq; field; lra). apply Rmult_le_compat_r; lra. }
  destruct (Rlt_dec 1 mrat); injection H as <-.
  - replace (wa1 k * (alpha / mrat)) with (wa1 k * alpha * / mrat) by (field; lra).
    rewrite Rabs_mult, (Rabs_right (/ mrat)) by (left; apply Rinv_0_lt_compat; lra).
    apply Rmult_le_reg_r with mrat; [lra|]. rewrite Rmult_assoc, Rinv_l by lra. lra.
  - nra.
Qed.

(** every parameter free and none limited: an iteration moves a parameter by at
    most its bound *)
Lemma fit_max_step : forall fuel old kw fcn m xall ps o, reads (length ps) m fcn ->
  (forall e, In e ps -> e_limited e = None /\ ~ is_fixed e) ->
  mpfit_b fuel old kw fcn m xall (Some ps) = Some (Ended o) ->
  forall i e s, nth_error ps i = Some e -> e_maxstep e = Some s -> 0 < s ->
  exists v, start_value xall ps i = Some v /\ Rabs (o_params o i - v) <= INR (o_niter o - 1) * s.
Proof.
  intros fuel old kw fcn m xall ps o Hr Hp H i e s He Hs Hpos.
  assert (Forall plain_flags ps) as Hf.
  { apply Forall_forall. intros e' I. destruct (Hp e' I) as [L _]. unfold plain_flags, flags. rewrite L. split; left; reflexivity. }
  apply ended in H; auto. destruct H as (vals & Hl & Hsv & Ho & Hn & Hk & st & status & ipvt & -> & O).
  assert (i < length ps)%nat as Hi by (apply nth_error_Some; congruence).
  exists (nth i vals 0). split; [now apply Hsv|].
  assert (free_n ps = seq 0 (length ps)) as Fr.
  { unfold free_n, free_of. rewrite <- (app_nil_r (seq 0 (length ps))) at 2.
    assert (forall l, (forall i, In i l -> (i < length ps)%nat) -> filter (fun i => negb (Z.eqb (nth i (parinfo (Some ps) e_fixed 0%Z (length ps)) 0%Z) 1)) l = l) as K.
    { induction l as [|a l IH]; intros Hl'; auto. cbn [filter]. rewrite nth_key.
      destruct (nth_error ps a) as [ea|] eqn:Ea; [|apply nth_error_None in Ea; specialize (Hl' a (or_introl eq_refl)); lia].
      destruct (Hp ea (nth_error_In _ _ Ea)) as [_ F]. unfold is_fixed in F.
      destruct (e_fixed ea) as [z|]; [destruct (Z.eqb_spec z 1); [congruence|]|]; cbn [negb]; rewrite IH; auto; intros; apply Hl'; now right. }
    rewrite app_nil_r. apply K. intros j Hj. apply in_seq in Hj. lia. }
  set (free := free_n ps) in *. set (b := run_bounds ps (length ps)) in *.
  assert (NoDup free) as Nd by apply free_nodup.
  assert (length free = length ps) as Lf by (rewrite Fr; apply seq_length).
  assert (forall j, (j < length free)%nat -> nth j free 0%nat = j) as If by (intros j Hj; rewrite Fr; rewrite seq_nth; lia).
  assert (forall j, b_ql b j = 0%Z /\ b_qu b j = 0%Z) as Fl.
  { intros j. unfold b, run_bounds. cbn [b_ql b_qu]. 
    rewrite (nth_key e_limited). set (k := nth j _ 0%nat).
    destruct (nth_error ps k) as [e'|] eqn:E; [|auto]. destruct (Hp e' (nth_error_In _ _ E)) as [L _]. rewrite L. auto. }
  assert (any_lim (length free) b = false) as Al.
  { unfold any_lim. destruct (existsb _ _) eqn:E; auto. apply existsb_exists in E. destruct E as (j & _ & E).
    destruct (Fl j) as [A B]. rewrite A, B in E. discriminate. }
  assert (nth i (b_max b) 0 = s) as Ms by (unfold b, run_bounds; cbn [b_max]; now rewrite nth_key, He, Hs).
  assert (length (b_max b) = length free) as Lm by (unfold b, run_bounds; cbn [b_max parinfo]; rewrite map_length; lia).
  assert (any_max b = true) as Am.
  { unfold any_max. apply existsb_exists. exists s. split.
    - rewrite <- Ms. apply nth_In. lia.
    - unfold is_zero. destruct (Req_EM_T s 0); [lra|auto]. }
  assert (forall x, snap b x = x) as Sn.
  { intros x. apply functional_extensionality. intros j. unfold snap. destruct (Fl j) as [A B]. rewrite A, B. reflexivity. }
  pose proof (outer_b_inv kw fcn b (fun j => nth j free 0%nat) (vec_of vals) m (length free)
                  (fun x k => (1 <= k)%nat /\ Rabs (x i - nth i vals 0) <= INR (k - 1) * s)) as K.
  apply K in O.
  - destruct O as ([_ [W1 W]] & _). cbn [report o_params o_niter].
    replace (place (length free) (fun j => nth j free 0%nat) (vec_of vals) (s_x st) i) with (s_x st i); [exact W|].
    assert (nth i free 0%nat = i) as E by (apply If; lia). rewrite <- E at 2. rewrite place_in; auto. lia.
  - intros x k p alpha w1 w2 [Hk1 Q] T. split; [lia|]. unfold take_step in T. rewrite Al, Am in T. cbn [negb andb] in T.
    destruct (bound_step _ _ _ _ _) as [a|] eqn:B; [|discriminate]. injection T as <- <- <-. rewrite Sn.
    pose proof (bound_step_le _ _ _ _ _ _ i If Lm B ltac:(lia)) as Le. rewrite Ms in Le. specialize (Le Hpos).
    replace (S k - 1)%nat with (S (k - 1)) by lia. rewrite S_INR.
    replace (x i + p i * a - nth i vals 0) with ((x i - nth i vals 0) + p i * a) by ring.
    eapply Rle_trans; [apply Rabs_triang|]. lra.
  - split; [now apply (start_point fcn (length ps))|]. cbn [lm_start s_x s_niter]. split; [lia|].
    rewrite If by lia. unfold vec_of. rewrite Rminus_eq_0, Rabs_R0. cbn. lra.
  - apply start_in_time.
  - cbn. lia.
Qed.
