(** Stokes I models: /repo/RMutils/util_misc.py:411-844 and 896-1001.
    Model only. Floats are exact reals; NaN and inf are [None]. *)
From Coq Require Import Reals List Arith ZArith Bool.
From Verif Require Import PyRes CBase PyList.
Import ListNotations.
Local Open Scope R_scope.

Definition log10 (x : R) : R := ln x / ln 10.

(** FitResult.fit_function; any other string reaches no branch and raises
    UnboundLocalError. *)
Inductive fit_fun := Linear | Log | OtherFun.

(** util_misc.py:411-446 [FitResult]. [pcov] is a 6x6 matrix or None. *)
Record FitResult := mk_fit {
  params : list R; fitStatus : Z; chiSq : R; chiSqRed : option R; aic : R; polyOrd : Z;
  ref_freq : R; dof : Z; pcov : option (nat -> nat -> R); perror : list (option R);
  fit_function : fit_fun }.

(** 960, 983: pad with zeros in front; np.zeros of a negative length raises. *)
Definition pad6 (p : list R) : pyres (list R) :=
  if Nat.ltb 6 (length p) then PErr else POk (repeat 0 (6 - length p) ++ p).

(** 955-974 [poly5] *)
Definition poly5 (p : list R) (x : R) : R :=
  nth 0 p 0 * x ^ 5 + nth 1 p 0 * x ^ 4 + nth 2 p 0 * x ^ 3 + nth 3 p 0 * x ^ 2 + nth 4 p 0 * x + nth 5 p 0.

(** 977-996 [powerlaw_poly5]; only for x > 0 (NaN otherwise, not modelled). *)
Definition powerlaw_poly5 (p : list R) (x : R) : R :=
  let L := log10 x in
  let y := nth 0 p 0 * L ^ 4 + nth 1 p 0 * L ^ 3 + nth 2 p 0 * L ^ 2 + nth 3 p 0 * L + nth 4 p 0 in
  nth 5 p 0 * Rpower x y.

(** 536-554 [calculate_StokesI_model] *)
Definition calculate_StokesI_model (fr : FitResult) (freq : list R) : pyres (list R) :=
  pybind (pad6 (params fr)) (fun p =>
    match fit_function fr with
    | Linear => POk (map (fun f => poly5 p (f / ref_freq fr)) freq)
    | Log => POk (map (fun f => powerlaw_poly5 p (f / ref_freq fr)) freq)
    | OtherFun => PErr
    end).

(** numpy.sqrt: NaN for a negative argument. *)
Definition np_sqrt (x : R) : option R := if Rle_dec 0 x then Some (sqrt x) else None.

Definition omult (a : R) (x : option R) : option R := option_map (Rmult a) x.

(** 557-702 [renormalize_StokesI_model] for a positive frequency ratio; the
    warning of 584-588 has no effect on the result. g = 0 gives NaN for the
    last error. The covariance matrix is passed on unchanged. *)
Definition renormalize_StokesI_model (fr : FitResult) (new_ref : R) : pyres FitResult :=
  let x := new_ref / ref_freq fr in
  match params fr with
  | [a; b; c; d; f; g] =>
    match fit_function fr, pcov fr with
    | Linear, Some cov =>
        POk (mk_fit [a * x ^ 5; b * x ^ 4; c * x ^ 3; d * x ^ 2; f * x; g]
          (fitStatus fr) (chiSq fr) (chiSqRed fr) (aic fr) (polyOrd fr) new_ref (dof fr) (pcov fr)
          [np_sqrt (x ^ 10 * cov 0%nat 0%nat); np_sqrt (x ^ 8 * cov 1%nat 1%nat); np_sqrt (x ^ 6 * cov 2%nat 2%nat);
           np_sqrt (x ^ 4 * cov 3%nat 3%nat); np_sqrt (x ^ 2 * cov 4%nat 4%nat); np_sqrt (cov 5%nat 5%nat)]
          (fit_function fr))
    | Log, Some cov =>
        let l := log10 x in
        let g2 := g * Rpower 10 (a * l ^ 5 + b * l ^ 4 + c * l ^ 3 + d * l ^ 2 + f * l) in
        let v i j := cov i j in
        POk (mk_fit
          [a;
           5 * a * l + b;
           10 * a * l ^ 2 + 4 * b * l + c;
           10 * a * l ^ 3 + 6 * b * l ^ 2 + 3 * c * l + d;
           5 * a * l ^ 4 + 4 * b * l ^ 3 + 3 * c * l ^ 2 + 2 * d * l + f;
           g2]
          (fitStatus fr) (chiSq fr) (chiSqRed fr) (aic fr) (polyOrd fr) new_ref (dof fr) (pcov fr)
          [np_sqrt (v 0%nat 0%nat);
           np_sqrt (25 * l ^ 2 * v 0%nat 0%nat + 10 * l * v 0%nat 1%nat + v 1%nat 1%nat);
           np_sqrt (100 * l ^ 4 * v 0%nat 0%nat + 80 * l ^ 3 * v 0%nat 1%nat + 20 * l ^ 2 * v 0%nat 2%nat
                    + 16 * l ^ 2 * v 1%nat 1%nat + 8 * l * v 1%nat 2%nat + v 2%nat 2%nat);
           np_sqrt (100 * l ^ 6 * v 0%nat 0%nat + 120 * l ^ 5 * v 0%nat 1%nat + 60 * l ^ 4 * v 0%nat 2%nat
                    + 20 * l ^ 3 * v 0%nat 3%nat + 36 * l ^ 4 * v 1%nat 1%nat + 36 * l ^ 3 * v 1%nat 2%nat
                    + 12 * l ^ 2 * v 1%nat 3%nat + 9 * l ^ 2 * v 2%nat 2%nat + 6 * l * v 2%nat 3%nat
                    + v 3%nat 3%nat);
           np_sqrt (25 * l ^ 8 * v 0%nat 0%nat + 40 * l ^ 7 * v 0%nat 1%nat + 30 * l ^ 6 * v 0%nat 2%nat
                    + 20 * l ^ 5 * v 0%nat 3%nat + 10 * l ^ 4 * v 0%nat 4%nat + 16 * l ^ 6 * v 0%nat 5%nat
                    + 24 * l ^ 5 * v 1%nat 2%nat + 16 * l ^ 4 * v 1%nat 3%nat + 8 * l ^ 3 * v 1%nat 4%nat
                    + 9 * l ^ 4 * v 2%nat 2%nat + 12 * l ^ 3 * v 2%nat 3%nat + 6 * l ^ 2 * v 2%nat 4%nat
                    + 4 * l ^ 2 * v 3%nat 3%nat + 4 * l * v 3%nat 4%nat + v 4%nat 4%nat);
           (if Req_EM_T g 0 then None else omult (Rabs g2)
             (np_sqrt (l ^ 10 * v 0%nat 0%nat + 2 * l ^ 9 * v 0%nat 1%nat + 2 * l ^ 8 * v 0%nat 2%nat
                    + 2 * l ^ 7 * v 0%nat 3%nat + 2 * l ^ 6 * v 0%nat 4%nat
                    + 2 * l ^ 5 / g * ln 10 * v 0%nat 5%nat
                    + l ^ 8 * v 1%nat 1%nat + 2 * l ^ 7 * v 1%nat 2%nat + 2 * l ^ 6 * v 1%nat 3%nat
                    + 2 * l ^ 5 * v 1%nat 4%nat + 2 * l ^ 4 / g * ln 10 * v 1%nat 5%nat
                    + l ^ 6 * v 2%nat 2%nat + 2 * l ^ 5 * v 2%nat 3%nat + 2 * l ^ 4 * v 2%nat 4%nat
                    + 2 * l ^ 3 / g * ln 10 * v 2%nat 5%nat
                    + l ^ 4 * v 3%nat 3%nat + 2 * l ^ 3 * v 3%nat 4%nat + 2 * l ^ 2 / g * ln 10 * v 3%nat 5%nat
                    + l ^ 2 * v 4%nat 4%nat + 2 * l / g * ln 10 * v 4%nat 5%nat
                    + 1 / g ^ 2 * v 5%nat 5%nat)))]
          (fit_function fr))
    | _, _ => PErr
    end
  | _ => PErr
  end.

(* ------------------------------------------------------------ the fit *)

(** What mpfit returns (RMutils/mpfit.py, an external algorithm): oracle. *)
Record mpres := mk_mp { mp_params : list R; mp_status : Z; mp_fnorm : R;
                        mp_covar : option (nat -> nat -> R); mp_perror : option (list R) }.

Record mpin := mk_mpin { in_x : list R; in_y : list R; in_dy : list R; in_start : R; in_fixed : list bool; in_fun : fit_fun }.

Definition rmean (l : list R) : R := rsum l / INR (length l).

(** 896-950 [fit_spec_poly5]; [None] dyData does not occur in the callers. The
    data have had their non-finite channels removed, so nanmean is the mean
    (an empty spectrum is handed to mpfit as it is). *)
Definition fit_spec_poly5 (mpfit : mpin -> pyres mpres) (x y dy : list R) (order : Z) (ff : fit_fun) : pyres mpres :=
  let order := if (order <? 0)%Z then Z.abs order else order in
  let order := if (5 <? order)%Z then 5%Z else order in
  let dy := if forallb (fun d => if Req_EM_T d 0 then true else false) dy then map (fun _ => 1) y else dy in
  let fixed := map (fun i => (order <? 6 - Z.of_nat i - 1)%Z) (seq 0 6) in
  match ff with
  | OtherFun => PErr           (* errFn is unbound *)
  | _ => mpfit (mk_mpin x y dy (rmean y) fixed ff)
  end.

(** 489-512: dynamic order selection. [rem] = highest_order + 1 - current. *)
Fixpoint order_loop (fit : Z -> pyres mpres) (rem : nat) (current : Z) (mp : mpres) (old_aic : R)
    : pyres (mpres * R * Z) :=
  match rem with
  | O => POk (mp, old_aic, current)
  | S rem' =>
      pybind (fit current) (fun new_mp =>
        let new_aic := 2 * (IZR current + 1) + mp_fnorm new_mp in
        if Rlt_dec new_aic old_aic
        then order_loop fit rem' (current + 1) new_mp new_aic
        else POk (mp, old_aic, current))
  end.

(** channels where I and dI are both finite: (freq, I, dI) *)
Definition good_chans (freq : list R) (I dI : list (option R)) : list (R * R * R) :=
  flat_map (fun x => match x with (f, (Some i, Some e)) => [(f, i, e)] | _ => [] end)
           (combine freq (combine I dI)).

(** 449-533 [fit_StokesI_model] for a spectrum with a good channel. With none,
    the reference frequency and the constant term are NaN: see [all_nan_fit]. *)
Definition fit_StokesI_model (mpfit : mpin -> pyres mpres) (freq : list R) (I dI : list (option R))
    (polyOrd0 : Z) (ff : fit_fun) : pyres FitResult :=
  let g := good_chans freq I dI in
  match g with
  | [] => PErr
  | _ =>
    let fs := map (fun t => fst (fst t)) g in
    let ref := 1 / sqrt (rmean (map (fun f => 1 / f ^ 2) fs)) in
    let fit o := fit_spec_poly5 mpfit (map (fun f => f / ref) fs) (map (fun t => snd (fst t)) g)
                                (map (fun t => snd t) g) o ff in
    let sel : pyres (mpres * R * Z) :=
      if (polyOrd0 <? 0)%Z then
        pybind (fit 0%Z) (fun mp =>
        pybind (order_loop fit (Z.to_nat (Z.abs polyOrd0)) 1 mp (2 + mp_fnorm mp)) (fun r =>
          let '(mp, a, cur) := r in POk (mp, a, (cur - 1)%Z)))
      else pybind (fit polyOrd0) (fun mp => POk (mp, 2 * (IZR polyOrd0 + 1) + mp_fnorm mp, polyOrd0)) in
    pybind sel (fun r =>
      let '(mp, a, po) := r in
      let df := (Z.of_nat (length freq) - po - 1)%Z in
      POk (mk_fit (mp_params mp) (Z.abs (mp_status mp)) (mp_fnorm mp)
             (if (df =? 0)%Z then None else Some (mp_fnorm mp / IZR df)) a po ref df (mp_covar mp)
             (match mp_perror mp with Some e => map Some e | None => map (fun _ => Some 0) (mp_params mp) end) ff))
  end.

(** 449-533 with no good channel. nanmean of nothing is NaN (471, 913) and mpfit
    returns its starting values, with fnorm = -1.0, for fewer data than free
    parameters (mpfit.py:1058-1060): five zeros and NaN about the reference
    frequency NaN, no exception. But 524 divides two Python numbers. *)
Definition all_nan_fit (freq : list R) (I dI : list (option R)) (polyOrd0 : Z) (ff : fit_fun) : bool :=
  match good_chans freq I dI, ff with
  | [], OtherFun => false
  | [], _ => negb (Z.of_nat (length freq) - Z.max polyOrd0 0 - 1 =? 0)%Z
  | _, _ => false
  end.

(* ------------------------------------------------------------ fractions *)

(** x / y for floats with non-finite results turned into NaN (820-821, 842). *)
Definition div_or_nan (x : option R) (y : R) : option R :=
  match x with
  | Some v => if Req_EM_T y 0 then None else Some (v / y)
  | None => None
  end.

Definition unity_fit (status : Z) (n : nat) (po : Z) (ff : fit_fun) : FitResult :=
  mk_fit [0; 0; 0; 0; 0; 1] status 0 (Some 0) 0 po 1 (Z.of_nat n - po - 1) (Some (fun _ _ => 0))
         (repeat (Some 0) 6) ff.

Definition with_status (fr : FitResult) (s : Z) : FitResult :=
  mk_fit (params fr) s (chiSq fr) (chiSqRed fr) (aic fr) (polyOrd fr) (ref_freq fr) (dof fr) (pcov fr) (perror fr) (fit_function fr).

(** 706-844 [create_frac_spectra]; [modI = Some m] is a model passed by the
    caller, taken to be finite. NaN in dI compares false with the model. None:
    the model and so every fraction and error is NaN. *)
Definition create_frac_spectra (mpfit : mpin -> pyres mpres) (freq : list R) (I Q U dI dQ dU : list (option R))
    (polyOrd0 : Z) (ff : fit_fun) (modI : option (list R))
    : option (list R * list (option R) * list (option R) * list (option R) * list (option R) * FitResult) :=
  if match modI with None => negb (Nat.eqb (length freq) 0) && all_nan_fit freq I dI polyOrd0 ff | Some _ => false end then None
  else
  let '(IMod, fr) :=
    match modI with
    | Some m => (m, unity_fit 0 (length freq) polyOrd0 ff)
    | None =>
      match pybind (fit_StokesI_model mpfit freq I dI polyOrd0 ff) (fun fr =>
            pybind (calculate_StokesI_model fr freq) (fun m =>
              match m with
              | [] => PErr                              (* min of an empty array *)
              | _ =>
                let fr := if existsb (fun v => Rltb v 0) m then with_status fr (fitStatus fr + 128) else fr in
                let low := existsb (fun ve => match snd ve with Some e => Rltb (fst ve) e | None => false end) (combine m dI) in
                let fr := if low then with_status fr (fitStatus fr + 64) else fr in
                POk (m, fr)
              end)) with
      | POk r => r
      | PErr => (map (fun _ => 1) I, unity_fit 9 (length freq) polyOrd0 ff)
      end
    end in
  let frac x := map (fun xm => div_or_nan (fst xm) (snd xm)) (combine x IMod) in
  Some (IMod, frac Q, frac U, frac dQ, frac dU, fr).

