(** The least-squares fitter of /repo/RMutils/mpfit.py with what RM-Tools itself
    does not use: limits, bounds on the steps, increments and sides of the
    derivatives, keywords, and the checks before the fit. The algebra is that of
    Mp_Model. Not modelled: tied parameters, damping, analytical derivatives,
    rescale/diag, nprint and iterfunct other than the defaults, user functions
    that return a negative status. Model only.

    Floats are exact reals; arrays are functions of their indices, as in
    Mp_Model; loops take a number of rounds after which the model gives up. *)
From Coq Require Import Reals List Arith ZArith Bool.
From Verif Require Import PyRes CBase PyList Mp_Model.
Import ListNotations.
Local Open Scope R_scope.

(** a starting value as the caller wrote it *)
Inductive value := VInt (z : Z) | VFloat (x : R).
Definition val_R (v : value) : R := match v with VInt z => IZR z | VFloat x => x end.
Definition is_int (v : value) : bool := match v with VInt _ => true | VFloat _ => false end.

(** one dictionary of PARINFO; [None]: the key is absent *)
Record entry := mk_entry { e_value : option value; e_fixed : option Z; e_limited : option (Z * Z);
                           e_limits : option (R * R); e_step : option R; e_relstep : option R;
                           e_side : option Z; e_maxstep : option R }.

(** keywords, 622-627 *)
Record keywords := mk_kw { k_ftol : R; k_xtol : R; k_gtol : R; k_maxiter : Z; k_factor : R }.
Definition kw_default : keywords := mk_kw ftol xtol gtol (Z.of_nat maxiter) factor.

(** the texts of errmsg, in the order of the checks *)
Inductive message :=
| M_must_pass      (* 901-903 must pass parameters in P or PARINFO *)
| M_must_agree     (* 914-916 number of elements in PARINFO and P must agree *)
| M_no_free        (* 977-979 no free parameters *)
| M_not_within     (* 990-995 parameters are not within PARINFO limits *)
| M_inconsistent   (* 996-1002 PARINFO parameter limits are not consistent *)
| M_keywords       (* 1024-1033 input keywords are inconsistent *)
| M_few_data.      (* 1061-1063 number of parameters must not exceed data *)

(** [Raised]: an exception leaves the constructor *)
Inductive outcome := Refused (m : message) | Raised | Ended (o : mpout).

(** 1542-1566 [parinfo] for a key with a default *)
Definition parinfo {A} (ps : option (list entry)) (key : entry -> option A) (default : A) (n : nat) : list A :=
  match ps with
  | None => repeat default n
  | Some l => map (fun e => match key e with Some v => v | None => default end) l
  end.

(** 920-931: the starting values; a missing one makes an array of objects,
    which float() refuses, and numpy.float exists in numpy before 1.24 only *)
Fixpoint all_some {A} (l : list (option A)) : option (list A) :=
  match l with
  | [] => Some []
  | None :: _ => None
  | Some x :: l' => match all_some l' with Some r => Some (x :: r) | None => None end
  end.

Definition start_array (old_numpy : bool) (vs : list (option value)) : pyres (list R) :=
  match all_some vs with
  | None => PErr
  | Some l =>
      if forallb is_int l && negb (Nat.eqb (length l) 0) && negb old_numpy then PErr else POk (map val_R l)
  end.

(** numpy: bool & int is the last bit of the int *)
Definition bit (q : Z) : bool := Z.odd q.
Definition nz (q : Z) : bool := negb (Z.eqb q 0).

(** limits of the free parameters, 1004-1013, and the bounds on the steps of all
    of them *)
Record bounds := mk_bounds { b_ql : nat -> Z; b_qu : nat -> Z; b_l : vec; b_u : vec; b_max : list R;
                             b_step : vec; b_rel : vec; b_side : nat -> Z }.

(** 1007-1010 *)
Definition any_lim (n : nat) (b : bounds) : bool := existsb (fun j => nz (b_qu b j) || nz (b_ql b j)) (seq 0 n).
(** 959-969 *)
Definition any_max (b : bounds) : bool := existsb (fun s => negb (is_zero s)) (b_max b).

(** 1591-1703 [fdjac2] *)
Definition fd_step_b (b : bounds) (ifree : nat -> nat) (x : vec) (j : nat) : R :=
  let h := sqrt machep * Rabs (x j) in
  let h := if Rlt_dec 0 (b_step b (ifree j)) then b_step b (ifree j) else h in
  let h := if Rlt_dec 0 (b_rel b (ifree j)) then Rabs (b_rel b (ifree j) * x j) else h in
  let h := if Req_EM_T h 0 then sqrt machep else h in
  if Z.eqb (b_side b (ifree j)) (-1) || (nz (b_qu b j) && Rltb (b_u b j - h) (x j)) then - h else h.

Definition fdjac2_b (fcn : vec -> vec) (b : bounds) (ifree : nat -> nat) (xall x fvec : vec) : mat :=
  fun i j =>
    let h := fd_step_b b ifree x j in
    let fp := fcn (upd xall (ifree j) (xall (ifree j) + h)) in
    if Z.leb (Z.abs (b_side b (ifree j))) 1 then (fp i - fvec i) / h
    else (fp i - fcn (upd xall (ifree j) (xall (ifree j) - h)) i) / (2 * h).

(** 1134-1153: parameters at a limit *)
Definition low_peg (b : bounds) (x : vec) (j : nat) : bool := bit (b_ql b j) && is_zero (x j - b_l b j).
Definition up_peg (b : bounds) (x : vec) (j : nat) : bool := bit (b_qu b j) && is_zero (x j - b_u b j).

Definition peg_jac (m n : nat) (b : bounds) (x fvec : vec) (fjac : mat) : mat :=
  if any_lim n b then
    let fjac := fun i j => if low_peg b x j && Rltb 0 (ssum 0 m (fun k => fvec k * fjac k j)) then 0 else fjac i j in
    fun i j => if up_peg b x j && Rltb (ssum 0 m (fun k => fvec k * fjac k j)) 0 then 0 else fjac i j
  else fjac.

(** numpy.max, numpy.min, numpy.clip *)
Definition vmax (n : nat) (v : vec) : R := fold_left Rmax (map v (seq 1 (n - 1))) (v 0%nat).
Definition vmin (n : nat) (v : vec) : R := fold_left Rmin (map v (seq 1 (n - 1))) (v 0%nat).
Definition clip (a lo hi : R) : R := Rmin (Rmax a lo) hi.

(** 1248-1251: hold the steps of pegged parameters *)
Definition hold (n : nat) (b : bounds) (x wa1 : vec) : vec :=
  let mx := vmax n wa1 in
  let wa1 := fun j => if low_peg b x j then clip (wa1 j) 0 mx else wa1 j in
  let mn := vmin n wa1 in
  fun j => if up_peg b x j then clip (wa1 j) mn 0 else wa1 j.

(** 1253-1265: how much of the step can be taken *)
Definition shorten (n : nat) (b : bounds) (x wa1 : vec) : R :=
  let big j := Rltb machep (Rabs (wa1 j)) in
  let whl := filter (fun j => big j && bit (b_ql b j) && Rltb (x j + wa1 j) (b_l b j)) (seq 0 n) in
  let alpha := fold_left Rmin (map (fun j => (b_l b j - x j) / wa1 j) whl) 1 in
  let whu := filter (fun j => big j && bit (b_qu b j) && Rltb (b_u b j) (x j + wa1 j)) (seq 0 n) in
  fold_left Rmin (map (fun j => (b_u b j - x j) / wa1 j) whu) alpha.

(** 1267-1277. The indices are those of all parameters, the array has the free
    ones: an index out of range raises. A bound of zero behind the index makes
    the quotient infinite, or not a number if the step is zero. *)
Definition bound_step (n : nat) (b : bounds) (ifree : nat -> nat) (wa1 : vec) (alpha : R) : pyres R :=
  let nwa1 := fun j => wa1 j * alpha in
  let whmax := filter (fun k => Rltb 0 (nth k (b_max b) 0)) (seq 0 (length (b_max b))) in
  let mx := fun k => nth (ifree k) (b_max b) 0 in
  match whmax with
  | [] => POk alpha
  | k0 :: ks =>
      if existsb (fun k => Nat.leb n k) whmax then PErr
      else if existsb (fun k => is_zero (mx k) && is_zero (nwa1 k)) whmax then POk alpha
      else if existsb (fun k => is_zero (mx k)) whmax then POk 0
      else
        let q := fun k => Rabs (nwa1 k) / Rabs (mx k) in
        let mrat := fold_left Rmax (map q ks) (q k0) in
        if Rlt_dec 1 mrat then POk (alpha / mrat) else POk alpha
  end.

(** 1283-1296: exactly on the limits *)
Definition sgn (a : R) : R := if Rle_dec 0 a then 1 else -1.
Definition snap (b : bounds) (wa2 : vec) : vec := fun j =>
  let u := b_u b j in let l := b_l b j in
  let u1 := u * (1 - sgn u * machep) - (if Req_EM_T u 0 then machep else 0) in
  let l1 := l * (1 + sgn l * machep) + (if Req_EM_T l 0 then machep else 0) in
  let y := if nz (b_qu b j) && Rleb u1 (wa2 j) then u else wa2 j in
  if nz (b_ql b j) && Rleb y l1 then l else y.

(** 1231-1296: alpha, wa1 and wa2 *)
Definition take_step (n : nat) (b : bounds) (ifree : nat -> nat) (x wa1 : vec) : pyres (R * vec * vec) :=
  if negb (any_lim n b) && negb (any_max b) then POk (1, wa1, fun i => x i + wa1 i)
  else
    let wa1 := if any_lim n b then hold n b x wa1 else wa1 in
    let alpha := if any_lim n b then shorten n b x wa1 else 1 in
    match (if any_max b then bound_step n b ifree wa1 alpha else POk alpha) with
    | PErr => PErr
    | POk alpha => POk (alpha, fun i => wa1 i * alpha, snap b (fun i => x i + wa1 i * alpha))
    end.

(** 1225-1402, as lm_try of Mp_Model *)
Definition lm_try_b (kw : keywords) (fcn : vec -> vec) (b : bounds) (ifree : nat -> nat) (xall : vec) (m n : nat)
    (ipvt : nat -> nat) (diag qtf : vec) (gnorm : R) (st : lm) : pyres (lm * Z * bool) :=
  let '(r, par, p) := lmpar n (s_r st) ipvt diag qtf (s_delta st) (s_par st) in
  match take_step n b ifree (s_x st) (fun i => - p i) with
  | PErr => PErr
  | POk (alpha, wa1, wa2) =>
  let pnorm := enorm 0 n (fun i => diag i * wa1 i) in
  let delta := if Nat.eqb (s_niter st) 1 then Rmin (s_delta st) pnorm else s_delta st in
  let wa4 := fcn (place n ifree xall wa2) in
  let fnorm1 := enorm 0 m wa4 in
  let fnorm := s_fnorm st in
  let actred := if Rlt_dec (1 / 10 * fnorm1) fnorm then - (fnorm1 / fnorm) ^ 2 + 1 else -1 in
  let wa3 := fold_left (fun w j => let w := upd w j 0 in
                          fun i => if Nat.leb i j then w i + r i j * wa1 (ipvt j) else w i)
                       (seq 0 n) (fun i => diag i * wa1 i) in
  let temp1 := enorm 0 n (fun i => alpha * wa3 i) / fnorm in
  let temp2 := sqrt (alpha * par) * pnorm / fnorm in
  let prered := temp1 * temp1 + temp2 * temp2 / (5 / 10) in
  let dirder := - (temp1 * temp1 + temp2 * temp2) in
  let ratio := if Req_EM_T prered 0 then 0 else actred / prered in
  let '(delta, par) :=
    if Rle_dec ratio (25 / 100) then
      let temp := if Rle_dec 0 actred then 5 / 10 else 5 / 10 * dirder / (dirder + 5 / 10 * actred) in
      let temp := if Rleb fnorm (1 / 10 * fnorm1) || Rltb temp (1 / 10) then 1 / 10 else temp in
      (temp * Rmin delta (pnorm / (1 / 10)), par / temp)
    else if is_zero par || Rleb (75 / 100) ratio then (pnorm / (5 / 10), 5 / 10 * par)
    else (delta, par) in
  let good := Rleb (1 / 10000) ratio in
  let st' :=
    if good then mk_lm wa2 wa4 fnorm1 fnorm1 (enorm 0 n (fun i => diag i * wa2 i)) delta par (S (s_niter st)) r
    else mk_lm (s_x st) (s_fvec st) fnorm fnorm1 (s_xnorm st) delta par (s_niter st) r in
  let small t := Rleb (Rabs actred) t && Rleb prered t && Rleb (5 / 10 * ratio) 1 in
  let status := 0%Z in
  let status := if small (k_ftol kw) then 1%Z else status in
  let status := if Rle_dec delta (k_xtol kw * s_xnorm st') then 2%Z else status in
  let status := if small (k_ftol kw) && Z.eqb status 2 then 3%Z else status in
  if negb (Z.eqb status 0) then POk (st', status, good)
  else
    let status := if Z.leb (k_maxiter kw) (Z.of_nat (s_niter st')) then 5%Z else status in
    let status := if small machep then 6%Z else status in
    let status := if Rle_dec delta (machep * s_xnorm st') then 7%Z else status in
    let status := if Rle_dec gnorm machep then 8%Z else status in
    POk (st', status, good)
  end.

Fixpoint inner_b (fuel : nat) (kw : keywords) (fcn : vec -> vec) (b : bounds) (ifree : nat -> nat) (xall : vec)
    (m n : nat) (ipvt : nat -> nat) (diag qtf : vec) (gnorm : R) (st : lm) : option (pyres (lm * Z)) :=
  match fuel with
  | O => None
  | S f =>
      match lm_try_b kw fcn b ifree xall m n ipvt diag qtf gnorm st with
      | PErr => Some PErr
      | POk (st', status, good) =>
          if negb (Z.eqb status 0) then Some (POk (st', status))
          else if good then Some (POk (st', 0%Z))
          else inner_b f kw fcn b ifree xall m n ipvt diag qtf gnorm st'
      end
  end.

(** 1073-1417 *)
Fixpoint outer_b (fuel : nat) (kw : keywords) (fcn : vec -> vec) (b : bounds) (ifree : nat -> nat) (xall : vec)
    (m n : nat) (diag : vec) (st : lm) : option (pyres (lm * Z * (nat -> nat))) :=
  match fuel with
  | O => None
  | S f =>
      let params := place n ifree xall (s_x st) in
      let fjac := peg_jac m n b (s_x st) (s_fvec st) (fdjac2_b fcn b ifree params (s_x st) (s_fvec st)) in
      let q := qrfac m n fjac in
      let acn := acnorm m fjac in
      let first := Nat.eqb (s_niter st) 1 in
      let diag := if first then fun j => if Req_EM_T (acn j) 0 then 1 else acn j else diag in
      let xnorm := if first then enorm 0 n (fun j => diag j * s_x st j) else s_xnorm st in
      let delta := if first then if Req_EM_T (k_factor kw * xnorm) 0 then k_factor kw else k_factor kw * xnorm
                   else s_delta st in
      let '(r, qtf) := r_qtf m n q (s_fvec st) in
      let st := mk_lm (s_x st) (s_fvec st) (s_fnorm st) (s_fnorm1 st) xnorm delta (s_par st) (s_niter st) r in
      let gnorm := grad_norm n r qtf (q_ipvt q) acn (s_fnorm st) in
      if Rle_dec gnorm (k_gtol kw) then Some (POk (st, 4%Z, q_ipvt q))
      else if Z.eqb (k_maxiter kw) 0 then Some (POk (st, 5%Z, q_ipvt q))
      else
        let diag := fun j => Rmax (acn j) (diag j) in
        match inner_b f kw fcn b ifree xall m n (q_ipvt q) diag qtf gnorm st with
        | None => None
        | Some PErr => Some PErr
        | Some (POk (st, status)) =>
            if negb (Z.eqb status 0) then Some (POk (st, status, q_ipvt q))
            else outer_b f kw fcn b ifree xall m n diag st
        end
  end.

(** 1419-1467: what is reported *)
Definition report (fcn : vec -> vec) (ifree : nat -> nat) (xall : vec) (m n : nat) (st : lm) (status : Z)
    (ipvt : nat -> nat) : mpout :=
  let params := place n ifree xall (s_x st) in
  let fnorm := enorm 0 m (fcn params) in
  let fnorm := Rmax fnorm (s_fnorm1 st) ^ 2 in
  let cv := calc_covar n (s_r st) ipvt in
  let inv := fun i => first_from (fun j => Nat.eqb (ifree j) i) 0 n in
  let covar := fun a b => if Nat.ltb (inv a) n && Nat.ltb (inv b) n then cv (inv a) (inv b) else 0 in
  let perror := fun a => if Rle_dec 0 (covar a a) then sqrt (covar a a) else 0 in
  mk_mpout params status fnorm (s_niter st) (Some covar) (Some perror).

(** 946-952, 971-976: the parameters not fixed *)
Definition free_of (ps : option (list entry)) (npar : nat) : list nat :=
  filter (fun i => negb (Z.eqb (nth i (parinfo ps e_fixed 0%Z npar) 0%Z) 1)) (seq 0 npar).

(** 896-1467 [__init__] for m data *)
Definition fit_values (fuel : nat) (kw : keywords) (fcn : vec -> vec) (m : nat) (vals : list R)
    (ps : option (list entry)) : option outcome :=
  let npar := length vals in
  let xall : vec := fun i => nth i vals 0 in
  let free := free_of ps npar in
  let n := length free in
  let ifree := fun j => nth j free 0%nat in
  let fixed := fun i => Z.eqb (nth i (parinfo ps e_fixed 0%Z npar) 0%Z) 1 in
  let limited := fun i => nth i (parinfo ps e_limited (0, 0)%Z npar) (0, 0)%Z in
  let limits := fun i => nth i (parinfo ps e_limits (0, 0) npar) (0, 0) in
  match free with
  | [] => Some (Refused M_no_free)
  | _ =>
    if existsb (fun i => (bit (fst (limited i)) && Rltb (xall i) (fst (limits i)))
                         || (bit (snd (limited i)) && Rltb (snd (limits i)) (xall i))) (seq 0 npar)
    then Some (Refused M_not_within)
    else if existsb (fun i => bit (fst (limited i)) && bit (snd (limited i))
                              && Rleb (snd (limits i)) (fst (limits i)) && negb (fixed i)) (seq 0 npar)
    then Some (Refused M_inconsistent)
    else if Rleb (k_ftol kw) 0 || Rleb (k_xtol kw) 0 || Rleb (k_gtol kw) 0 || Z.ltb (k_maxiter kw) 0
            || Rleb (k_factor kw) 0
    then Some (Refused M_keywords)
    else if Nat.ltb m n then Some (Refused M_few_data)
    else
      let at_ {A} (l : list A) d := fun i => nth i l d in
      let b := mk_bounds (fun j => fst (limited (ifree j))) (fun j => snd (limited (ifree j)))
                 (fun j => fst (limits (ifree j))) (fun j => snd (limits (ifree j)))
                 (parinfo ps e_maxstep 0 npar) (at_ (parinfo ps e_step 0 npar) 0)
                 (at_ (parinfo ps e_relstep 0 npar) 0) (at_ (parinfo ps e_side 0%Z npar) 0%Z) in
      let fvec := fcn xall in
      let st := mk_lm (fun j => xall (ifree j)) fvec (enorm 0 m fvec) (-1) 0 0 0 1 (fun _ _ => 0) in
      match outer_b fuel kw fcn b ifree xall m n (fun _ => 0) st with
      | None => None
      | Some PErr => Some Raised
      | Some (POk (st, status, ipvt)) => Some (Ended (report fcn ifree xall m n st status ipvt))
      end
  end.

Definition mpfit_b (fuel : nat) (old_numpy : bool) (kw : keywords) (fcn : vec -> vec) (m : nat)
    (xall : option (list value)) (ps : option (list entry)) : option outcome :=
  match xall, ps with
  | None, None => Some (Refused M_must_pass)
  | _, Some [] => Some Raised
  | _, _ =>
    let agree := match xall, ps with Some x, Some p => Nat.eqb (length x) (length p) | _, _ => true end in
    if negb agree then Some (Refused M_must_agree)
    else
      let vs := match xall, ps with
                | Some x, _ => map Some x
                | None, Some p => map e_value p
                | None, None => []
                end in
      match start_array old_numpy vs with
      | PErr => Some Raised
      | POk [] => Some Raised
      | POk vals => fit_values fuel kw fcn m vals ps
      end
  end.
