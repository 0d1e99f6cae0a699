(** Fits with limits and bounds on the steps: claim C92. *)
From Coq Require Import Reals List Arith ZArith Lia Lra Bool Permutation.
Set Warnings "-ambiguous-paths".
From Coquelicot Require Import Coquelicot.
From Verif Require Import PyRes CBase PyList Mp_Model Mp_Spec Mp_Sums Mp_QR Mp_Step Mp_Run Mp_Fit Mpl_Model Mpl_Spec Mpl_Run Mpl_Limits Mpl_More Mpl_Plain Mpl_Refute Mpl_Deriv.
Local Notation Forall := List.Forall.
Import ListNotations.
Local Open Scope R_scope.

(** C92. Every parameter of the result is between its limits; a fixed parameter has its starting value. *)
Theorem C92_within : forall fuel old kw fcn m xall ps o, reads (length ps) m fcn -> Forall plain_flags ps ->
  mpfit_b fuel old kw fcn m xall (Some ps) = Some (Ended o) ->
  forall i e, nth_error ps i = Some e ->
    obeys e (o_params o i) /\ (is_fixed e -> start_value xall ps i = Some (o_params o i)).
Proof. exact @fit_within. Qed.
Print Assumptions C92_within.
(** two parameters, the first limited from below; the fit ends *)
Example C92_within_nonvacuous : exists o, mpfit_b 2 false kw_default tilted 2 None (Some [pinned; ent 1]) = Some (Ended o) /\ 1 <= o_params o 0%nat.
Proof.
  destruct fit_stuck as (o & _ & Rd & F & E & _). exists o. split; [exact E|].
  destruct (C92_within 2 false kw_default tilted 2 None [pinned; ent 1] o Rd F E 0%nat pinned eq_refl) as [[H _] _]. exact (H eq_refl).
Qed.


(** C92. The result is never worse than the start; the status is between 1 and 8, and the number of rounds is bounded by maxiter. *)
Theorem C92_descends : forall fuel old kw fcn m xall ps o, reads (length ps) m fcn -> Forall plain_flags ps ->
  mpfit_b fuel old kw fcn m xall (Some ps) = Some (Ended o) ->
  exists start, (forall i, (i < length ps)%nat -> start_value xall ps i = Some (start i)) /\
    chi2 m fcn (o_params o) <= chi2 m fcn start /\ (1 <= o_status o <= 8)%Z /\
    (Z.of_nat (o_niter o) <= Z.max 2 (k_maxiter kw))%Z.
Proof. exact @fit_descends. Qed.
Print Assumptions C92_descends.
Example C92_descends_nonvacuous : exists o, mpfit_b 2 false kw_default tilted 2 None (Some [pinned; ent 1]) = Some (Ended o) /\ (1 <= o_status o <= 8)%Z /\ (Z.of_nat (o_niter o) <= Z.max 2 (k_maxiter kw_default))%Z.
Proof.
  destruct fit_stuck as (o & _ & Rd & F & E & _). exists o. split; [exact E|].
  destruct (C92_descends 2 false kw_default tilted 2 None [pinned; ent 1] o Rd F E) as (_ & _ & _ & H). exact H.
Qed.


(** C92. What is refused, and with which message: if no exception is raised, the first of five reasons that applies; otherwise the fit ends. *)
Theorem C92_refused : forall fuel old kw fcn m xall ps out free, Forall plain_flags ps -> frees ps free ->
  (forall x, xall = Some x -> length x = length ps) ->
  mpfit_b fuel old kw fcn m xall (Some ps) = Some out -> out <> Raised ->
  exists start, length start = length ps /\ (forall i, (i < length ps)%nat -> start_value xall ps i = Some (nth i start 0)) /\
  (out = Refused M_no_free <-> all_fixed ps) /\
  (out = Refused M_not_within <-> ~ all_fixed ps /\ some_outside ps start) /\
  (out = Refused M_inconsistent <-> ~ all_fixed ps /\ ~ some_outside ps start /\ some_no_room ps) /\
  (out = Refused M_keywords <-> ~ all_fixed ps /\ ~ some_outside ps start /\ ~ some_no_room ps /\ ~ keywords_ok kw) /\
  (out = Refused M_few_data <-> ~ all_fixed ps /\ ~ some_outside ps start /\ ~ some_no_room ps /\ keywords_ok kw /\
     (m < length free)%nat) /\
  ((exists o, out = Ended o) <-> ~ all_fixed ps /\ ~ some_outside ps start /\ ~ some_no_room ps /\ keywords_ok kw /\
     (length free <= m)%nat).
Proof. exact @fit_refused. Qed.
Print Assumptions C92_refused.
(** a start below the limit *)
Definition below : entry := mk_entry (Some (VFloat 1)) None (Some (1, 0)%Z) (Some (2, 0)) None None None None.
Example C92_refused_nonvacuous : mpfit_b 0 false kw_default tilted 2 None (Some [below]) = Some (Refused M_not_within).
Proof.
  unfold mpfit_b. cbn [negb map e_value below start_array all_some forallb is_int andb val_R]. unfold fit_values.
  change (free_of (Some [below]) (length [1])) with [0%nat].
  cbn [seq length existsb parinfo map e_limited e_limits below nth fst snd bit Z.odd andb orb negb].
  unfold Rltb. destruct (Rlt_dec 1 2); [reflexivity|lra].
Qed.


(** C92. If every entry has a value, one of them a float, and no largest step is given, no exception is raised. *)
Theorem C92_no_raise : forall fuel old kw fcn m ps, Forall plain_flags ps -> ps <> [] ->
  (forall e, In e ps -> e_value e <> None) -> (exists e x, In e ps /\ e_value e = Some (VFloat x)) ->
  (forall e, In e ps -> e_maxstep e = None \/ e_maxstep e = Some 0) ->
  mpfit_b fuel old kw fcn m None (Some ps) <> Some Raised.
Proof. exact @fit_no_raise. Qed.
Print Assumptions C92_no_raise.
Example C92_no_raise_nonvacuous : forall fuel, mpfit_b fuel false kw_default tilted 2 None (Some [pinned; ent 1]) <> Some Raised.
Proof.
  intros fuel. apply C92_no_raise.
  - destruct fit_stuck as (_ & _ & _ & F & _). exact F.
  - discriminate.
  - intros e [<-|[<-|[]]]; discriminate.
  - exists pinned, 1. split; [now left|reflexivity].
  - intros e [<-|[<-|[]]]; left; reflexivity.
Qed.


(** C92. With a largest step s for a parameter, no limits and nothing fixed: in each round it moves by at most s. *)
Theorem C92_max_step : forall fuel old kw fcn m xall ps o, reads (length ps) m fcn ->
  (forall e, In e ps -> e_limited e = None /\ ~ is_fixed e) ->
  mpfit_b fuel old kw fcn m xall (Some ps) = Some (Ended o) ->
  forall i e s, nth_error ps i = Some e -> e_maxstep e = Some s -> 0 < s ->
  exists v, start_value xall ps i = Some v /\ Rabs (o_params o i - v) <= INR (o_niter o - 1) * s.
Proof. exact @fit_max_step. Qed.
Print Assumptions C92_max_step.
Example C92_max_step_nonvacuous : (forall e, In e [stepped; ent 1] -> e_limited e = None /\ ~ is_fixed e) /\ nth_error [stepped; ent 1] 0 = Some stepped /\ e_maxstep stepped = Some 1 /\ reads 2 2 tilted.
Proof.
  split; [intros e [<-|[<-|[]]]; split; [reflexivity|discriminate|reflexivity|discriminate]|]. split; [reflexivity|]. split; [reflexivity|].
  destruct fit_stuck as (_ & _ & Rd & _). exact Rd.
Qed.


(** C92. With the keys "value" and "fixed" only, as RM-Tools calls it, and the default keywords, it is the fit of the earlier claims about mpfit. *)
Theorem C92_plain : forall fuel old fcn m ps vals free, (forall e, In e ps -> bare e) -> ps <> [] ->
  map e_value ps = map (fun x => Some (VFloat x)) vals -> frees ps free ->
  mpfit_b fuel old kw_default fcn m None (Some ps) =
  match mpfit fuel fcn (length ps) m free (fun i => nth i vals 0) with
  | None => None
  | Some PErr => Some (Refused M_no_free)
  | Some (POk o) => Some (if Nat.ltb m (length free) then Refused M_few_data else Ended o)
  end.
Proof. exact @fit_plain. Qed.
Print Assumptions C92_plain.
Example C92_plain_nonvacuous : (forall e, In e [ent 3; held] -> bare e) /\ map e_value [ent 3; held] = map (fun x => Some (VFloat x)) [3; 0] /\ frees [ent 3; held] [0%nat].
Proof. split; [intros e [<-|[<-|[]]]; repeat split|]. split; reflexivity. Qed.


(** C92. Refuted: an entry without "value" (and no starting values given) is refused with a message. It raises an exception. *)
Theorem C92_missing_value_refuted : forall fuel old kw fcn m ps e, In e ps -> e_value e = None ->
  mpfit_b fuel old kw fcn m None (Some ps) = Some Raised.
Proof. exact @raises_missing. Qed.
Print Assumptions C92_missing_value_refuted.
Example C92_missing_value_nonvacuous : In (mk_entry None None None None None None None None) [ent 1; mk_entry None None None None None None None None].
Proof. right. now left. Qed.


(** C92. Refuted: integer starting values are accepted. With numpy 1.24 or later they raise an exception. *)
Theorem C92_ints_refuted : forall fuel kw fcn m zs, mpfit_b fuel false kw fcn m (Some (map VInt zs)) None = Some Raised.
Proof. exact @raises_ints. Qed.
Print Assumptions C92_ints_refuted.
Example C92_ints_nonvacuous : mpfit_b 5 false kw_default tilted 2 (Some [VInt 1; VInt 1]) None = Some Raised.
Proof. exact (C92_ints_refuted 5 kw_default tilted 2 [1; 1]%Z). Qed.


(** C92. Refuted: any true value as the flag of a limit is respected. With the flag 2 the start 5 is accepted and returned although the limits are 0 and 1. *)
Theorem C92_flag_refuted : exists fcn o, reads 1 1 fcn /\
  mpfit_b 1 false kw_default fcn 1 None (Some [flag2]) = Some (Ended o) /\ o_params o 0%nat = 5.
Proof. exact @flag_unchecked. Qed.
Print Assumptions C92_flag_refuted.


(** C92. Refuted: a largest step can be given beside a fixed parameter. It raises an exception. *)
Theorem C92_max_step_refuted : mpfit_b 2 false kw_default (fun p _ => p 1%nat) 1 None (Some [held; stepped]) = Some Raised.
Proof. exact @max_step_raises. Qed.
Print Assumptions C92_max_step_refuted.


(** C92. Refuted: a fit of linear residuals that reports convergence is at the best point that the limits allow. A start on a limit, with every step negative, stays where it is and reports convergence; a better point is allowed. *)
Theorem C92_stuck_refuted : exists o better, reads 2 2 tilted /\ Forall plain_flags [pinned; ent 1] /\
  mpfit_b 2 false kw_default tilted 2 None (Some [pinned; ent 1]) = Some (Ended o) /\
  (1 <= o_status o <= 4)%Z /\ o_params o 0%nat = 1 /\ o_params o 1%nat = 1 /\
  obeys pinned (better 0%nat) /\ chi2 2 tilted better < chi2 2 tilted (o_params o).
Proof. exact @fit_stuck. Qed.
Print Assumptions C92_stuck_refuted.


(** C92. The step of a derivative has the size asked for (a relative step before an absolute one, else the default), and goes to the left if that is asked for or if the right would be beyond an upper limit. *)
Theorem C92_step : forall b ifree x j, exists h, 0 < h /\ step_size b (ifree j) (x j) h /\
  (fd_step_b b ifree x j = h \/ fd_step_b b ifree x j = - h) /\
  (fd_step_b b ifree x j = - h <-> b_side b (ifree j) = (-1)%Z \/ (b_qu b j <> 0%Z /\ b_u b j < x j + h)).
Proof. exact @step_signed. Qed.
Print Assumptions C92_step.
Example C92_step_nonvacuous : exists b ifree x, b_u b 0%nat < x 0%nat + 1 /\ fd_step_b b ifree x 0%nat = - 1.
Proof.
  exists narrow, (fun j => j), (fun _ => 1 / 4). split; [cbn; lra|]. destruct (C92_step narrow (fun j => j) (fun _ => 1 / 4) 0%nat) as (h & _ & (_ & _ & S & _) & _ & I).
  cbn [narrow b_rel b_step b_qu b_u b_side] in S, I. rewrite S in I by lra. apply I. right. split; [discriminate|lra].
Qed.


(** C92. The first point of a derivative is never beyond an upper limit. *)
Theorem C92_upper : forall b ifree x j, b_qu b j <> 0%Z -> x j <= b_u b j -> x j + fd_step_b b ifree x j <= b_u b j.
Proof. exact @below_upper. Qed.
Print Assumptions C92_upper.
Example C92_upper_nonvacuous : b_qu narrow 0%nat <> 0%Z /\ 1 / 4 <= b_u narrow 0%nat.
Proof. split; [discriminate|cbn; lra]. Qed.


(** C92. Where a residual is linear in a parameter, its derivative is exact, whatever the step and the side. *)
Theorem C92_linear : forall fcn b ifree xall x fvec i j a,
  (forall t, fcn (upd xall (ifree j) (xall (ifree j) + t)) i = fvec i + a * t) ->
  fdjac2_b fcn b ifree xall x fvec i j = a.
Proof. exact @linear_exact. Qed.
Print Assumptions C92_linear.
Example C92_linear_nonvacuous : forall b x p, fdjac2_b tilted b (fun j => j) p x (tilted p) 0%nat 1%nat = -2.
Proof. intros b x p. apply C92_linear. intros t. unfold tilted, upd. cbn. ring. Qed.


(** C92. Where a residual is quadratic in a parameter, two-sided derivatives are exact, and one-sided ones are off by the curvature times the step. *)
Theorem C92_quadratic : forall fcn b ifree xall x fvec i j a c,
  (forall t, fcn (upd xall (ifree j) (xall (ifree j) + t)) i = fvec i + a * t + c * (t * t)) ->
  ((2 <= Z.abs (b_side b (ifree j)))%Z -> fdjac2_b fcn b ifree xall x fvec i j = a) /\
  ((Z.abs (b_side b (ifree j)) <= 1)%Z -> fdjac2_b fcn b ifree xall x fvec i j = a + c * fd_step_b b ifree x j).
Proof. exact @quadratic_sides. Qed.
Print Assumptions C92_quadratic.
Example C92_quadratic_nonvacuous : forall (p : vec) t, (fun (q : vec) (_ : nat) => q 0%nat * q 0%nat) (upd p 0 (p 0%nat + t)) 0%nat = p 0%nat * p 0%nat + 2 * p 0%nat * t + 1 * (t * t).
Proof. intros p t. unfold upd. cbn. ring. Qed.


(** C92. Refuted: derivatives evaluate the function only where the limits allow. The lower limit is not looked at. *)
Theorem C92_lower_refuted : exists b ifree x j, b_ql b j = 1%Z /\ b_qu b j = 1%Z /\ b_l b j < x j < b_u b j /\
  x j + fd_step_b b ifree x j < b_l b j.
Proof. exact @beyond_lower. Qed.
Print Assumptions C92_lower_refuted.

