(** Fits with limits: what is refused, and where the result lies. *)
From Coq Require Import Reals List Arith ZArith Bool Lra Lia Psatz.
From Verif Require Import PyRes CBase PyList Mp_Model Mp_Spec Mp_Sums Mp_QR Mp_Step Mp_Run Mp_Fit Mpl_Model Mpl_Spec Mpl_Run.
Import ListNotations.
Local Open Scope R_scope.

(** ---------- the keys *)

Lemma nth_key : forall {A} (key : entry -> option A) d ps i n,
  nth i (parinfo (Some ps) key d n) d =
  match nth_error ps i with Some e => match key e with Some v => v | None => d end | None => d end.
Proof.
  intros A key d ps i n. cbn [parinfo]. revert i. induction ps as [|e ps IH]; intros [|i]; cbn; auto.
Qed.

Lemma free_frees : forall ps npar, npar = length ps -> frees ps (free_of (Some ps) npar).
Proof.
  intros ps npar ->. unfold frees, free_of. apply filter_ext_in. intros i Hi. apply in_seq in Hi.
  rewrite nth_key. destruct (nth_error ps i) as [e|] eqn:E.
  - destruct (e_fixed e); reflexivity.
  - apply nth_error_None in E. lia.
Qed.

Lemma free_nodup : forall ps npar, NoDup (free_of ps npar).
Proof. intros. apply NoDup_filter, seq_NoDup. Qed.

Lemma free_in : forall ps npar i, In i (free_of (Some ps) npar) <->
  (i < npar)%nat /\ forall e, nth_error ps i = Some e -> ~ is_fixed e.
Proof.
  intros ps npar i. unfold free_of. rewrite filter_In, in_seq, nth_key. unfold is_fixed.
  destruct (nth_error ps i) as [e|].
  - destruct (e_fixed e) as [z|] eqn:Fe.
    + destruct (Z.eqb_spec z 1) as [->|N]; cbn; split.
      * intros [_ ?]. discriminate.
      * intros [_ H]. exfalso. now apply (H e).
      * intros [H _]. split; [lia|]. intros e0 E F. injection E as <-. congruence.
      * intros [H _]. split; [lia|auto].
    + cbn. split; [intros [H _]; split; [lia|]|intros [H _]; split; [lia|auto]]. intros e0 E F. congruence.
  - cbn. split; [intros [H _]; split; [lia|discriminate]|intros [H _]; split; [lia|auto]].
Qed.

(** ---------- a step ends within the limits *)

Lemma any_lim_false : forall n b j, any_lim n b = false -> (j < n)%nat -> b_ql b j = 0%Z /\ b_qu b j = 0%Z.
Proof.
  intros n b j H Hj. unfold any_lim in H.
  assert (nz (b_qu b j) || nz (b_ql b j) = false) as K.
  { destruct (nz (b_qu b j) || nz (b_ql b j)) eqn:E; auto.
    assert (existsb (fun j => nz (b_qu b j) || nz (b_ql b j)) (seq 0 n) = true); [|congruence].
    apply existsb_exists. exists j. split; [apply in_seq; lia|exact E]. }
  apply orb_false_iff in K. unfold nz in K. rewrite !negb_false_iff, !Z.eqb_eq in K. tauto.
Qed.

Definition between (n : nat) (b : bounds) (x : vec) : Prop := forall j, (j < n)%nat ->
  (b_ql b j <> 0%Z -> b_l b j <= x j) /\ (b_qu b j <> 0%Z -> x j <= b_u b j).

Lemma snap_between : forall n b x, (forall j, (j < n)%nat -> b_ql b j <> 0%Z -> b_qu b j <> 0%Z -> b_l b j <= b_u b j) ->
  between n b (snap b x).
Proof.
  intros n b x Hc j Hj. specialize (Hc j Hj). unfold snap.
  set (u := b_u b j) in *. set (l := b_l b j) in *. pose proof machep_pos as Mp.
  set (u1 := u * _ - _). set (l1 := l * _ + _).
  assert (u1 <= u) as U.
  { unfold u1, sgn. destruct (Rle_dec 0 u), (Req_EM_T u 0); nra. }
  assert (l <= l1) as L.
  { unfold l1, sgn. destruct (Rle_dec 0 l), (Req_EM_T l 0); nra. }
  unfold nz. destruct (Z.eqb_spec (b_qu b j) 0) as [Eu|Eu], (Z.eqb_spec (b_ql b j) 0) as [El|El]; cbn [negb andb].
  - split; intros; contradiction.
  - split; intros; [|contradiction]. destruct (Rleb (x j) l1) eqn:E; [lra|]. apply Rleb_false in E. lra.
  - split; intros; [contradiction|]. destruct (Rleb u1 (x j)) eqn:E; [lra|]. apply Rleb_false in E. lra.
  - specialize (Hc El Eu). destruct (Rleb u1 (x j)) eqn:E.
    + destruct (Rleb u l1); split; intros; lra.
    + apply Rleb_false in E. destruct (Rleb (x j) l1) eqn:F; [split; intros; lra|]. apply Rleb_false in F. split; intros; lra.
Qed.

Lemma step_between : forall n b ifree x p alpha w1 w2,
  (forall j, (j < n)%nat -> b_ql b j <> 0%Z -> b_qu b j <> 0%Z -> b_l b j <= b_u b j) ->
  take_step n b ifree x p = POk (alpha, w1, w2) -> between n b w2.
Proof.
  intros n b ifree x p alpha w1 w2 Hc H. unfold take_step in H.
  destruct (negb (any_lim n b) && negb (any_max b)) eqn:E.
  - apply andb_true_iff in E. destruct E as [E _]. apply negb_true_iff in E. intros j Hj.
    destruct (any_lim_false n b j E Hj) as [A B]. rewrite A, B. split; intros; contradiction.
  - cbv zeta in H. destruct (if any_max b then _ else _) as [a|]; [|discriminate]. injection H as <- <- <-. now apply snap_between.
Qed.

(** ---------- the checks *)

Definition run_bounds (ps : list entry) (npar : nat) : bounds :=
  let free := free_of (Some ps) npar in
  let ifree := fun j => nth j free 0%nat in
  let limited := fun i => nth i (parinfo (Some ps) e_limited (0, 0)%Z npar) (0, 0)%Z in
  let limits := fun i => nth i (parinfo (Some ps) e_limits (0, 0) npar) (0, 0) in
  mk_bounds (fun j => fst (limited (ifree j))) (fun j => snd (limited (ifree j)))
                 (fun j => fst (limits (ifree j))) (fun j => snd (limits (ifree j)))
                 (parinfo (Some ps) e_maxstep 0 npar) (fun i => nth i (parinfo (Some ps) e_step 0 npar) 0)
                 (fun i => nth i (parinfo (Some ps) e_relstep 0 npar) 0)
                 (fun i => nth i (parinfo (Some ps) e_side 0%Z npar) 0%Z).

Definition vec_of (vals : list R) : vec := fun i => nth i vals 0.

Definition free_n (ps : list entry) := free_of (Some ps) (length ps).

Lemma flag_bit : forall q, flag01 q -> bit q = true <-> q = 1%Z.
Proof. intros q [->| ->]; unfold bit; cbn; split; intros; try discriminate; auto. Qed.

Lemma nth_flags : forall ps i e n, nth_error ps i = Some e ->
  nth i (parinfo (Some ps) e_limited (0, 0)%Z n) (0, 0)%Z = flags e.
Proof. intros ps i e n E. rewrite nth_key, E. reflexivity. Qed.
Lemma nth_sides : forall ps i e n, nth_error ps i = Some e ->
  nth i (parinfo (Some ps) e_limits (0, 0) n) (0, 0) = sides e.
Proof. intros ps i e n E. rewrite nth_key, E. reflexivity. Qed.


Lemma free_nil : forall ps, free_n ps = [] <-> all_fixed ps.
Proof.
  intros ps. unfold all_fixed. split.
  - intros E e He. destruct (In_nth_error ps e He) as [i Hi].
    assert (i < length ps)%nat by (apply nth_error_Some; congruence).
    assert (~ In i (free_n ps)) as N by (rewrite E; auto). unfold free_n in N. rewrite free_in in N.
    unfold is_fixed. destruct (e_fixed e) as [z|] eqn:F.
    + destruct (Z.eq_dec z 1) as [->|Nz]; auto. exfalso. apply N. split; auto. intros e0 E0 F0. unfold is_fixed in F0. congruence.
    + exfalso. apply N. split; auto. intros e0 E0 F0. unfold is_fixed in F0. congruence.
  - intros H. destruct (free_n ps) as [|i l] eqn:E; auto. exfalso.
    assert (In i (free_n ps)) as I by (rewrite E; now left). apply free_in in I. destruct I as [Hi K].
    destruct (nth_error ps i) as [e|] eqn:Ee; [|apply nth_error_None in Ee; lia].
    apply (K e); auto. apply H. eapply nth_error_In; eauto.
Qed.

Lemma outside_b : forall ps vals, Forall plain_flags ps ->
  existsb (fun i => (bit (fst (nth i (parinfo (Some ps) e_limited (0, 0)%Z (length ps)) (0, 0)%Z)) &&
                       Rltb (nth i vals 0) (fst (nth i (parinfo (Some ps) e_limits (0, 0) (length ps)) (0, 0))))
                 || (bit (snd (nth i (parinfo (Some ps) e_limited (0, 0)%Z (length ps)) (0, 0)%Z)) &&
                       Rltb (snd (nth i (parinfo (Some ps) e_limits (0, 0) (length ps)) (0, 0))) (nth i vals 0)))
    (seq 0 (length ps)) = true <-> some_outside ps vals.
Proof.
  intros ps vals Hf. rewrite existsb_exists. unfold some_outside. split.
  - intros (i & Hi & B). apply in_seq in Hi.
    destruct (nth_error ps i) as [e|] eqn:Ee; [|apply nth_error_None in Ee; lia].
    rewrite (nth_flags ps i e) in B by auto. rewrite (nth_sides ps i e) in B by auto.
    exists i, e. split; auto. intros [O1 O2].
    pose proof (proj1 (Forall_forall _ _) Hf e (nth_error_In _ _ Ee)) as [P1 P2].
    apply orb_true_iff in B. destruct B as [B|B]; apply andb_true_iff in B; destruct B as [B C]; apply Rltb_true in C;
      apply flag_bit in B; auto; [specialize (O1 B)|specialize (O2 B)]; lra.
  - intros (i & e & Ee & No). assert (i < length ps)%nat by (apply nth_error_Some; congruence).
    exists i. split; [apply in_seq; lia|]. rewrite (nth_flags ps i e), (nth_sides ps i e) by auto.
    pose proof (proj1 (Forall_forall _ _) Hf e (nth_error_In _ _ Ee)) as [P1 P2].
    destruct (_ || _) eqn:B; auto. exfalso. apply No. apply orb_false_iff in B. destruct B as [B C].
    split; intros F.
    + rewrite (proj2 (flag_bit _ P1) F) in B. now apply Rltb_false in B.
    + rewrite (proj2 (flag_bit _ P2) F) in C. now apply Rltb_false in C.
Qed.

Lemma no_room_b : forall ps, Forall plain_flags ps ->
  existsb (fun i => bit (fst (nth i (parinfo (Some ps) e_limited (0, 0)%Z (length ps)) (0, 0)%Z)) &&
                    bit (snd (nth i (parinfo (Some ps) e_limited (0, 0)%Z (length ps)) (0, 0)%Z)) &&
                    Rleb (snd (nth i (parinfo (Some ps) e_limits (0, 0) (length ps)) (0, 0)))
                         (fst (nth i (parinfo (Some ps) e_limits (0, 0) (length ps)) (0, 0))) &&
                    negb (Z.eqb (nth i (parinfo (Some ps) e_fixed 0%Z (length ps)) 0%Z) 1))
    (seq 0 (length ps)) = true <-> some_no_room ps.
Proof.
  intros ps Hf. rewrite existsb_exists. unfold some_no_room, no_room, is_fixed. split.
  - intros (i & Hi & B). apply in_seq in Hi.
    destruct (nth_error ps i) as [e|] eqn:Ee; [|apply nth_error_None in Ee; lia].
    rewrite (nth_flags ps i e), (nth_sides ps i e), nth_key, Ee in B by auto.
    pose proof (proj1 (Forall_forall _ _) Hf e (nth_error_In _ _ Ee)) as [P1 P2].
    rewrite !andb_true_iff in B. destruct B as [[[B1 B2] B3] B4]. apply Rleb_true in B3.
    exists e. split; [eapply nth_error_In; eauto|]. split; [|].
    + split; [now apply flag_bit|]. split; [now apply flag_bit|exact B3].
    + intros F. rewrite F in B4. discriminate.
  - intros (e & He & (A & B & C) & D). destruct (In_nth_error ps e He) as [i Ee].
    assert (i < length ps)%nat by (apply nth_error_Some; congruence).
    exists i. split; [apply in_seq; lia|]. rewrite (nth_flags ps i e), (nth_sides ps i e), nth_key, Ee by auto.
    pose proof (proj1 (Forall_forall _ _) Hf e He) as [P1 P2].
    rewrite (proj2 (flag_bit _ P1) A), (proj2 (flag_bit _ P2) B). cbn [andb].
    unfold Rleb. destruct (Rle_dec _ _); [|lra]. cbn [andb].
    destruct (e_fixed e) as [z|]; auto. destruct (Z.eqb_spec z 1); auto. congruence.
Qed.

Lemma keywords_b : forall kw,
  Rleb (k_ftol kw) 0 || Rleb (k_xtol kw) 0 || Rleb (k_gtol kw) 0 || Z.ltb (k_maxiter kw) 0 || Rleb (k_factor kw) 0 = false
  <-> keywords_ok kw.
Proof.
  intros kw. unfold keywords_ok. rewrite !orb_false_iff. split.
  - intros ((((A & B) & C) & D) & E). apply Rleb_false in A, B, C, E. apply Z.ltb_ge in D. auto.
  - intros (A & B & C & D & E). unfold Rleb.
    destruct (Rle_dec (k_ftol kw) 0), (Rle_dec (k_xtol kw) 0), (Rle_dec (k_gtol kw) 0), (Rle_dec (k_factor kw) 0); try lra.
    rewrite (proj2 (Z.ltb_ge _ _) D). auto.
Qed.

(** the tests at once *)
Lemma fit_values_cases : forall fuel kw fcn m vals ps, length vals = length ps -> Forall plain_flags ps ->
  let free := free_n ps in let ifree := fun j => nth j free 0%nat in let n := length free in
  (all_fixed ps /\ fit_values fuel kw fcn m vals (Some ps) = Some (Refused M_no_free)) \/
  (~ all_fixed ps /\
   ((some_outside ps vals /\ fit_values fuel kw fcn m vals (Some ps) = Some (Refused M_not_within)) \/
    (~ some_outside ps vals /\
     ((some_no_room ps /\ fit_values fuel kw fcn m vals (Some ps) = Some (Refused M_inconsistent)) \/
      (~ some_no_room ps /\
       ((~ keywords_ok kw /\ fit_values fuel kw fcn m vals (Some ps) = Some (Refused M_keywords)) \/
        (keywords_ok kw /\
         (((m < n)%nat /\ fit_values fuel kw fcn m vals (Some ps) = Some (Refused M_few_data)) \/
          ((n <= m)%nat /\ fit_values fuel kw fcn m vals (Some ps) =
             match outer_b fuel kw fcn (run_bounds ps (length ps)) ifree (vec_of vals) m n (fun _ => 0)
                     (lm_start fcn m free (vec_of vals)) with
             | None => None
             | Some PErr => Some Raised
             | Some (POk (st, status, ipvt)) => Some (Ended (report fcn ifree (vec_of vals) m n st status ipvt))
             end))))))))).
Proof.
  intros fuel kw fcn m vals ps Hl Hf free ifree n. unfold fit_values. rewrite Hl. fold (free_n ps). fold free.
  assert (forall {T} (a c : T), (free = [] -> False) -> match free with [] => a | _ => c end = c) as M
    by (intros T a c; destruct free; [intros K; now destruct K|reflexivity]).
  assert ({free = []} + {free <> []}) as [Ef|Ef] by (destruct free; [now left|right; discriminate]).
  { left. split; [now apply free_nil|]. now rewrite Ef. }
  right. split; [intros A; apply free_nil in A; contradiction|].
  cbv zeta. rewrite (M _ _ _ Ef). clear M.
  match goal with |- context [existsb ?f (seq 0 (length ps))] => pose proof (outside_b ps vals Hf) as O; set (o := existsb f (seq 0 (length ps))) end.
  change (o = true <-> some_outside ps vals) in O. destruct o.
  { left. split; [now apply O|]. reflexivity. }
  right. split; [intros S; apply O in S; discriminate|]. clear O.
  match goal with |- context [existsb ?f (seq 0 (length ps))] => pose proof (no_room_b ps Hf) as O; set (o := existsb f (seq 0 (length ps))) end.
  change (o = true <-> some_no_room ps) in O. destruct o.
  { left. split; [now apply O|]. reflexivity. }
  right. split; [intros S; apply O in S; discriminate|]. clear O.
  match goal with |- context [if ?c then Some (Refused M_keywords) else _] => set (k := c) end.
  pose proof (keywords_b kw : k = false <-> keywords_ok kw) as O. destruct k.
  { left. split; [intros S; apply O in S; discriminate|]. reflexivity. }
  right. split; [now apply O|].
  change (Nat.ltb m (length free)) with (Nat.ltb m n). destruct (Nat.ltb_spec m n).
  { left. split; auto. }
  right. split; auto.
Qed.

(** ---------- the constructor *)

Lemma all_some_nth : forall {A} (l : list (option A)) r, all_some l = Some r ->
  length r = length l /\ forall i, nth_error l i = option_map Some (nth_error r i).
Proof.
  induction l as [|[x|] l IH]; intros r H; cbn in H; [|destruct (all_some l) as [r'|]|]; try discriminate; injection H as <-.
  - split; auto. intros [|i]; auto.
  - destruct (IH r' eq_refl) as [L E]. cbn. split; [lia|]. intros [|i]; cbn; auto.
Qed.

(** a run that gets past the starting values *)
Lemma started : forall fuel old kw fcn m xall ps out, mpfit_b fuel old kw fcn m xall (Some ps) = Some out -> out <> Raised ->
  out = Refused M_must_agree \/
  exists vals, length vals = length ps /\ (forall i, (i < length ps)%nat -> start_value xall ps i = Some (nth i vals 0)) /\
    fit_values fuel kw fcn m vals (Some ps) = Some out.
Proof.
  intros fuel old kw fcn m xall ps out H Nr. unfold mpfit_b in H.
  destruct ps as [|e0 pl] eqn:Eps; [destruct xall; congruence|]. rewrite <- Eps in *.
  destruct xall as [x|].
  - rewrite Eps in H. destruct (Nat.eqb_spec (length x) (length (e0 :: pl))) as [L|L]; cbn [negb] in H; [|left; congruence].
    rewrite <- Eps in *. right.
    unfold start_array in H. destruct (all_some (map Some x)) as [l|] eqn:A; [|congruence].
    apply all_some_nth in A. rewrite map_length in A. destruct A as [A B].
    destruct (_ && _) in H; [congruence|].
    exists (map val_R l). rewrite map_length. split; [lia|]. split.
    + intros i Hi. unfold start_value. specialize (B i). rewrite nth_error_map in B.
      assert (i < length l)%nat as Hl by lia. apply nth_error_Some in Hl.
      destruct (nth_error l i) as [v|] eqn:El; [|contradiction]. destruct (nth_error x i) as [w|]; [|discriminate B].
      cbn in B. injection B as ->. cbn. f_equal. symmetry. apply nth_error_nth. now rewrite nth_error_map, El.
    + destruct (map val_R l) as [|]; [congruence|exact H].
  - rewrite Eps in H. cbn [negb] in H. rewrite <- Eps in *. right.
    unfold start_array in H. destruct (all_some (map e_value ps)) as [l|] eqn:A; [|congruence].
    apply all_some_nth in A. rewrite map_length in A. destruct A as [A B].
    destruct (_ && _) in H; [congruence|].
    exists (map val_R l). rewrite map_length. split; [lia|]. split.
    + intros i Hi. unfold start_value. specialize (B i). rewrite nth_error_map in B.
      assert (i < length l)%nat as Hl by lia. apply nth_error_Some in Hl.
      destruct (nth_error l i) as [v|] eqn:El; [|contradiction]. destruct (nth_error ps i) as [w|]; [|discriminate B].
      cbn in B. injection B as ->. cbn. f_equal. symmetry. apply nth_error_nth. now rewrite nth_error_map, El.
    + destruct (map val_R l) as [|]; [congruence|exact H].
Qed.

(** an ended run is a run of the loops *)
Lemma ended : forall fuel old kw fcn m xall ps o, Forall plain_flags ps ->
  mpfit_b fuel old kw fcn m xall (Some ps) = Some (Ended o) ->
  exists vals, length vals = length ps /\ (forall i, (i < length ps)%nat -> start_value xall ps i = Some (nth i vals 0)) /\
    ~ some_outside ps vals /\ ~ some_no_room ps /\ keywords_ok kw /\
    let free := free_n ps in let ifree := fun j => nth j free 0%nat in let n := length free in
    exists st status ipvt, o = report fcn ifree (vec_of vals) m n st status ipvt /\
      outer_b fuel kw fcn (run_bounds ps (length ps)) ifree (vec_of vals) m n (fun _ => 0)
                     (lm_start fcn m free (vec_of vals)) = Some (POk (st, status, ipvt)).
Proof.
  intros fuel old kw fcn m xall ps o Hf H. apply started in H; [|discriminate].
  destruct H as [H|(vals & Hl & Hs & H)]; [discriminate|].
  exists vals. split; auto. split; auto.
  destruct (fit_values_cases fuel kw fcn m vals ps Hl Hf) as [[_ E]|[_ [[_ E]|[A [[_ E]|[B [[_ E]|[C [[_ E]|[_ E]]]]]]]]]];
    rewrite E in H; try discriminate H.
  split; auto. split; auto. split; auto. cbv zeta.
  destruct (outer_b _ _ _ _ _ _ _ _ _ _) as [[[[st status] ipvt]|]|]; try discriminate.
  injection H as <-. exists st, status, ipvt. auto.
Qed.

Lemma start_in_time : forall kw fcn m free xall, in_time kw (lm_start fcn m free xall).
Proof. intros. right. reflexivity. Qed.

Lemma start_point : forall fcn npar m free xall, reads npar m fcn -> NoDup free ->
  at_point fcn (fun j => nth j free 0%nat) xall m (length free) (lm_start fcn m free xall).
Proof.
  intros fcn npar m free xall Hr Nd. split; cbn; auto. intros i Hi. apply (Hr xall); auto. intros k _. symmetry. now apply place_start.
Qed.

(** within the limits, and fixed parameters stay *)
Lemma fit_within : forall fuel old kw fcn m xall ps o, reads (length ps) m fcn -> Forall plain_flags ps ->
  mpfit_b fuel old kw fcn m xall (Some ps) = Some (Ended o) ->
  forall i e, nth_error ps i = Some e ->
    obeys e (o_params o i) /\ (is_fixed e -> start_value xall ps i = Some (o_params o i)).
Proof.
  intros fuel old kw fcn m xall ps o Hr Hf H i e He. apply ended in H; auto.
  destruct H as (vals & Hl & Hs & Ho & Hn & Hk & st & status & ipvt & -> & O).
  assert (i < length ps)%nat as Hi by (apply nth_error_Some; congruence).
  set (free := free_n ps) in *. set (b := run_bounds ps (length ps)) in *.
  assert (NoDup free) as Nd by apply free_nodup.
  assert (forall j, (j < length free)%nat -> exists e, nth_error ps (nth j free 0%nat) = Some e /\
    b_ql b j = fst (flags e) /\ b_qu b j = snd (flags e) /\ b_l b j = fst (sides e) /\ b_u b j = snd (sides e) /\ ~ is_fixed e) as Bd.
  { intros j Hj. pose proof (nth_In free 0%nat Hj) as I. apply free_in in I. destruct I as [I1 I2].
    destruct (nth_error ps (nth j free 0%nat)) as [e'|] eqn:E; [|apply nth_error_None in E; lia].
    exists e'. split; auto. unfold b, run_bounds. cbn [b_ql b_qu b_l b_u]. fold (free_n ps). fold free.
    rewrite (nth_flags ps _ e'), (nth_sides ps _ e') by auto. auto 10. }
  assert (forall e, plain_flags e -> fst (flags e) <> 0%Z -> fst (flags e) = 1%Z) as F1 by (intros ? [[|] _]; tauto).
  assert (forall e, plain_flags e -> snd (flags e) <> 0%Z -> snd (flags e) = 1%Z) as F2 by (intros ? [_ [|]]; tauto).
  assert (forall e', In e' ps -> plain_flags e') as Pf by (apply Forall_forall; auto).
  cbn [report o_params].
  destruct (in_dec Nat.eq_dec i free) as [Fr|Fx].
  - destruct (In_nth free i 0%nat Fr) as [j [Hj <-]]. rewrite place_in by auto.
    destruct (Bd j Hj) as (e' & E1 & E2 & E3 & E4 & E5 & E6). rewrite E1 in He. injection He as ->.
    split; [|intros; contradiction].
    pose proof (outer_b_inv kw fcn b (fun j => nth j free 0%nat) (vec_of vals) m (length free)
                  (fun x _ => between (length free) b x)) as K.
    apply K in O.
    + destruct O as ([_ W] & _). destruct (W j Hj) as [W1 W2]. rewrite E2, E4 in W1. rewrite E3, E5 in W2.
      split; intros F; [apply W1|apply W2]; rewrite F; discriminate.
    + intros x k p alpha w1 w2 _ T. eapply step_between; [|exact T]. intros j' Hj' Ql Qu.
      destruct (Bd j' Hj') as (e' & B1 & B2 & B3 & B4 & B5 & B6). rewrite B4, B5. rewrite B2 in Ql. rewrite B3 in Qu.
      pose proof (nth_error_In _ _ B1) as I.
      destruct (Rle_dec (fst (sides e')) (snd (sides e'))); auto. exfalso. apply Hn. exists e'. split; auto. split; auto.
      split; [auto|]. split; [auto|lra].
    + split; [now apply (start_point fcn (length ps))|]. cbn [lm_start s_x s_niter].
      intros j' Hj'. destruct (Bd j' Hj') as (e' & B1 & B2 & B3 & B4 & B5 & B6). rewrite B2, B3, B4, B5.
      assert (obeys e' (nth (nth j' free 0%nat) vals 0)) as [O1 O2].
      { destruct (Rle_dec (fst (sides e')) (nth (nth j' free 0%nat) vals 0)), (Rle_dec (nth (nth j' free 0%nat) vals 0) (snd (sides e')));
          split; intros F; auto; exfalso; apply Ho; eexists _, e'; (split; [exact B1|]); intros [X1 X2];
          (specialize (X1 F) + specialize (X2 F)); lra. }
      pose proof (Pf e' (nth_error_In _ _ B1)). unfold vec_of. split; auto.
    + apply start_in_time.
    + cbn. lia.
  - rewrite place_out by auto. unfold vec_of. split; [|intros _; now apply Hs].
    split; intros F.
    + destruct (Rle_dec (fst (sides e)) (nth i vals 0)); auto. exfalso. apply Ho. exists i, e. split; auto. intros [X _]. specialize (X F). lra.
    + destruct (Rle_dec (nth i vals 0) (snd (sides e))); auto. exfalso. apply Ho. exists i, e. split; auto. intros [_ X]. specialize (X F). lra.
Qed.

(** never worse than the start; number of iterations *)
Lemma fit_descends : forall fuel old kw fcn m xall ps o, reads (length ps) m fcn -> Forall plain_flags ps ->
  mpfit_b fuel old kw fcn m xall (Some ps) = Some (Ended o) ->
  exists start, (forall i, (i < length ps)%nat -> start_value xall ps i = Some (start i)) /\
    chi2 m fcn (o_params o) <= chi2 m fcn start /\ (1 <= o_status o <= 8)%Z /\
    (Z.of_nat (o_niter o) <= Z.max 2 (k_maxiter kw))%Z.
Proof.
  intros fuel old kw fcn m xall ps o Hr Hf H. apply ended in H; auto.
  destruct H as (vals & Hl & Hs & Ho & Hn & Hk & st & status & ipvt & -> & O).
  exists (vec_of vals). split; [exact Hs|].
  set (free := free_n ps) in *. assert (NoDup free) as Nd by apply free_nodup.
  pose proof (outer_b_inv kw fcn (run_bounds ps (length ps)) (fun j => nth j free 0%nat) (vec_of vals) m (length free)
                  (fun _ _ => True)) as K.
  apply K in O; auto.
  - destruct O as ([Ap _] & Fn & Sr & Ni). cbn [report o_params o_status o_niter].
    split; [|auto]. rewrite <- !enorm_chi2. rewrite (at_point_norm _ _ _ _ _ _ Ap). cbn [lm_start s_fnorm] in Fn.
    apply pow_incr. split; auto. now apply (at_point_fnorm _ _ _ _ _ _ Ap).
  - split; auto. now apply (start_point fcn (length ps)).
  - apply start_in_time.
  - cbn. lia.
Qed.
