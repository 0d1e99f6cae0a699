(** Vocabulary for the Stokes I theorems. The record FitResult is the return
    type of the API and comes from the model; nothing else does. *)
From Coq Require Import Reals List Arith ZArith Bool.
Set Warnings "-ambiguous-paths".
From Coquelicot Require Import Coquelicot.
From Verif Require Import PyRes CBase StokesI_Model.
Import ListNotations.
Local Open Scope R_scope.

(** Polynomial in the frequency ratio / in its decimal logarithm. *)
Definition lin_model (p : list R) (ref f : R) : R :=
  rsum (map (fun i => nth i p 0 * (f / ref) ^ (5 - i)) (seq 0 6)).
Definition log_model (p : list R) (ref f : R) : R :=
  let L := ln (f / ref) / ln 10 in
  nth 5 p 0 * Rpower 10 (rsum (map (fun i => nth i p 0 * L ^ (5 - i)) (seq 0 5))).

Definition model_at (fr : FitResult) (f : R) : R :=
  match fit_function fr with
  | Log => log_model (params fr) (ref_freq fr) f
  | _ => lin_model (params fr) (ref_freq fr) f
  end.

(** A fit that succeeded: six parameters, a covariance matrix, a known model. *)
Definition good_fit (fr : FitResult) : Prop :=
  length (params fr) = 6%nat /\ (exists cov, pcov fr = Some cov) /\ fit_function fr <> OtherFun /\ 0 < ref_freq fr.

(** First-order propagation of a covariance matrix along a gradient. *)
Definition prop_var (J : nat -> R) (cov : nat -> nat -> R) : R :=
  rsum (map (fun k => rsum (map (fun l => J k * J l * cov k l) (seq 0 6))) (seq 0 6)).

(** [J] is the gradient of [F] at [p] (6 parameters). *)
Definition gradient (F : list R -> R) (p : list R) (J : nat -> R) : Prop :=
  forall k, (k < 6)%nat ->
    is_derive (fun t : R => F (firstn k p ++ (nth k p 0 + t) :: skipn (S k) p)) 0 (J k).

Definition symmetric (cov : nat -> nat -> R) : Prop := forall i j, cov i j = cov j i.
(** covariance matrices are positive semidefinite *)
Definition psd (cov : nat -> nat -> R) : Prop := symmetric cov /\ forall J, 0 <= prop_var J cov.

(** The same fit with other parameter values. *)
Definition with_params (fr : FitResult) (p : list R) : FitResult :=
  mk_fit p (fitStatus fr) (chiSq fr) (chiSqRed fr) (aic fr) (polyOrd fr) (ref_freq fr) (dof fr) (pcov fr) (perror fr) (fit_function fr).

(** [F] is the value of parameter [i] after an operation [op] on fits, seen as
    a function of the parameters before it. *)
Definition param_after (op : FitResult -> pyres FitResult) (fr : FitResult) (i : nat) (p : list R) : R :=
  match op (with_params fr p) with POk r => nth i (params r) 0 | PErr => 0 end.

(** The quoted error of parameter [i] after [op] is the standard deviation
    propagated from the covariance of the fit, to first order. *)
Definition error_propagated (op : FitResult -> pyres FitResult) (fr : FitResult) (i : nat) : Prop :=
  forall fr' cov, op fr = POk fr' -> pcov fr = Some cov ->
  exists J, gradient (param_after op fr i) (params fr) J /\ nth i (perror fr') None = Some (sqrt (prop_var J cov)).

(* ----------------------------------------------------------------- fit *)

(** good channels, their mean-lambda^2 frequency, and what the fitter is asked *)
Definition finite_chans (freq : list R) (I dI : list (option R)) : list (R * R * R) :=
  flat_map (fun k => match nth k I None, nth k dI None with
                     | Some i, Some e => [(nth k freq 0, i, e)]
                     | _, _ => [] end) (seq 0 (length freq)).

Definition mean (l : list R) : R := rsum l / INR (length l).

Definition fit_ref (g : list (R * R * R)) : R := 1 / sqrt (mean (map (fun t => 1 / fst (fst t) ^ 2) g)).

(** The fit of order [o]: the polynomial coefficients of degree at most
    min(o,5) are free; all-zero errors mean unit errors. *)
Definition fit_question (g : list (R * R * R)) (o : Z) (ff : fit_fun) : mpin :=
  let y := map (fun t => snd (fst t)) g in
  let dy := map snd g in
  mk_mpin (map (fun t => fst (fst t) / fit_ref g) g) y
    (if forallb (fun d => if Req_EM_T d 0 then true else false) dy then map (fun _ => 1) y else dy)
    (mean y)
    (map (fun i => negb (5 - Z.of_nat i <=? Z.min o 5)%Z) (seq 0 6)) ff.

Definition aic_of (r : mpres) (o : Z) : R := 2 * (IZR o + 1) + mp_fnorm r.

(** [best] is the first order at which the AIC stops improving, within 0..n. *)
Definition first_stop (fits : Z -> pyres mpres) (n best : Z) : Prop :=
  (0 <= best <= n)%Z /\
  (forall o, (1 <= o <= best)%Z -> exists r r', fits o = POk r /\ fits (o - 1)%Z = POk r' /\ aic_of r o < aic_of r' (o - 1)) /\
  ((best < n)%Z -> exists r r', fits (best + 1)%Z = POk r /\ fits best = POk r' /\ aic_of r' best <= aic_of r (best + 1)).

(** Fraction x/m: defined when x is finite and m is not zero. *)
Definition fraction (x : option R) (m : R) (f : option R) : Prop :=
  match f with
  | Some v => exists X, x = Some X /\ m <> 0 /\ v = X / m
  | None => x = None \/ m = 0
  end.

(** Flag bits added to the status of a successful fit. *)
Definition negative_somewhere (m : list R) : Prop := exists v, In v m /\ v < 0.
Definition below_error_somewhere (m : list R) (dI : list (option R)) : Prop :=
  exists k e, (k < length m)%nat /\ nth k dI None = Some e /\ nth k m 0 < e.

Definition bit (P : Prop) (w z : Z) : Prop := (P /\ z = w) \/ (~ P /\ z = 0%Z).
