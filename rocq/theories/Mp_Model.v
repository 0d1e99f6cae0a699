(** The least-squares fitter, /repo/RMutils/mpfit.py, as RM-Tools calls it
    (util_misc.py:947, util_RM.py:863): parameters with the keys "value" and
    "fixed" only, quiet=True and every other keyword at its default. So there
    are no limits, no tied parameters, no step bounds and no damping; the
    branches for them (950-1010, 1117-1134, 1205-1270) are not entered and not
    modelled. The user function returns status 0. Model only.

    Floats are exact reals, so the test for over- and underflow (1363-1370)
    never succeeds. A numpy array of known length is a function of its indices;
    entries outside its length are never read. BLAS nrm2 is the Euclidean norm.
    While-loops take a number of rounds after which the model gives up (None). *)
From Coq Require Import Reals List Arith ZArith Bool.
From Verif Require Import PyRes CBase PyList.
Import ListNotations.
Local Open Scope R_scope.

Definition vec := nat -> R.
Definition mat := nat -> nat -> R.

(** sum of f over range(lo, hi) *)
Definition ssum (lo hi : nat) (f : nat -> R) : R := rsum (map f (seq lo (hi - lo))).

(** 1587-1589 [enorm] of v[lo:hi] *)
Definition enorm (lo hi : nat) (v : vec) : R := sqrt (ssum lo hi (fun i => v i * v i)).

Definition upd {A} (v : nat -> A) (i : nat) (x : A) : nat -> A := fun k => if Nat.eqb k i then x else v k.
Definition upd2 (a : mat) (i j : nat) (x : R) : mat :=
  fun r c => if Nat.eqb r i && Nat.eqb c j then x else a r c.

(** 2425-2433 [machar] for double precision *)
Definition machep : R := / 2 ^ 52.
Definition dwarf : R := / 2 ^ 1022.

(** keyword defaults, 622-627 *)
Definition ftol : R := / 10 ^ 10.
Definition xtol : R := / 10 ^ 10.
Definition gtol : R := / 10 ^ 10.
Definition maxiter : nat := 200.
Definition factor : R := 100.

(* ------------------------------------------------------------ qrfac, 1836-1914 *)

Record qr := mk_qr { q_a : mat; q_ipvt : nat -> nat; q_rdiag : vec; q_wa : vec }.

(** 1860-1865: the first index of lo..hi-1 where v is largest *)
Definition first_max (lo hi : nat) (v : vec) : nat :=
  fold_left (fun k i => if Rlt_dec (v k) (v i) then i else k) (seq (S lo) (hi - S lo)) lo.

(** 1857-1876 *)
Definition pivot_step (n j : nat) (st : qr) : qr :=
  let k := first_max j n (q_rdiag st) in
  if Nat.eqb k j then st
  else mk_qr (q_a st) (upd (upd (q_ipvt st) j (q_ipvt st k)) k (q_ipvt st j))
             (upd (q_rdiag st) k (q_rdiag st j)) (upd (q_wa st) k (q_wa st j)).

(** 1897-1912: column k; [ajj] is the transformation, column lj of the matrix *)
Definition qr_col (m j lj : nat) (ajj : vec) (st : qr) (k : nat) : qr :=
  let a := q_a st in
  let lk := q_ipvt st k in
  if Req_EM_T (a j lj) 0 then st
  else
    let d := ssum j m (fun i => a i lk * ajj i) in
    let a' := fun i c => if Nat.eqb c lk && Nat.leb j i then a i lk - ajj i * d / a j lj else a i c in
    if Req_EM_T (q_rdiag st k) 0 then mk_qr a' (q_ipvt st) (q_rdiag st) (q_wa st)
    else
      let temp := a' j lk / q_rdiag st k in
      let rd := q_rdiag st k * sqrt (Rmax (1 - temp ^ 2) 0) in
      let temp := rd / q_wa st k in
      if Rle_dec (5 / 100 * temp * temp) machep then
        let e := enorm (S j) m (fun i => a' i lk) in
        mk_qr a' (q_ipvt st) (upd (q_rdiag st) k e) (upd (q_wa st) k e)
      else mk_qr a' (q_ipvt st) (upd (q_rdiag st) k rd) (q_wa st).

(** 1856-1913 *)
Fixpoint qr_loop (m n : nat) (js : list nat) (st : qr) : qr :=
  match js with
  | [] => st
  | j :: js' =>
      let st := pivot_step n j st in
      let lj := q_ipvt st j in
      let nrm := enorm j m (fun i => q_a st i lj) in
      if Req_EM_T nrm 0 then st
      else
        let nrm := if Rlt_dec (q_a st j lj) 0 then - nrm else nrm in
        let ajj := fun i => q_a st i lj / nrm + (if Nat.eqb i j then 1 else 0) in
        let a' := fun i c => if Nat.eqb c lj && Nat.leb j i then ajj i else q_a st i c in
        let st := fold_left (qr_col m j lj ajj) (seq (S j) (n - S j))
                            (mk_qr a' (q_ipvt st) (q_rdiag st) (q_wa st)) in
        qr_loop m n js' (mk_qr (q_a st) (q_ipvt st) (upd (q_rdiag st) j (- nrm)) (q_wa st))
  end.

(** 1845-1855: column norms *)
Definition acnorm (m : nat) (a : mat) : vec := fun j => enorm 0 m (fun i => a i j).

Definition qrfac (m n : nat) (a : mat) : qr :=
  qr_loop m n (seq 0 (Nat.min m n)) (mk_qr a (fun k => k) (acnorm m a) (acnorm m a)).

(* ------------------------------------------------------------ 1151-1174 *)

(** 1153-1163: (q transpose) * fvec; the state is the matrix and the vector *)
Definition qtf_step (m : nat) (ipvt : nat -> nat) (rdiag : vec) (s : mat * vec) (j : nat) : mat * vec :=
  let '(a, w) := s in
  let lj := ipvt j in
  let t := a j lj in
  let w' := if Req_EM_T t 0 then w
            else fun i => if Nat.leb j i then w i - a i lj * ssum j m (fun k => a k lj * w k) / t else w i in
  (upd2 a j lj (rdiag j), w').

(** the triangle of R with its columns in the order of the pivots (1164-1170),
    and the first n components of (q transpose) * fvec. Only wa4[j] can be
    stored in qtf[j]: later rounds leave it alone. *)
Definition r_qtf (m n : nat) (st : qr) (fvec : vec) : mat * vec :=
  let '(a, w) := fold_left (qtf_step m (q_ipvt st) (q_rdiag st)) (seq 0 n) (q_a st, fvec) in
  (fun i c => a i (q_ipvt st c), w).

(** 1179-1187: the scaled gradient *)
Definition grad_norm (n : nat) (r : mat) (qtf : vec) (ipvt : nat -> nat) (acn : vec) (fnorm : R) : R :=
  if Req_EM_T fnorm 0 then 0
  else fold_left (fun g j =>
         let l := ipvt j in
         if Req_EM_T (acn l) 0 then g
         else Rmax g (Rabs (ssum 0 (j + 1) (fun i => r i j * qtf i) / fnorm / acn l))) (seq 0 n) 0.

(* ------------------------------------------------------------ qrsolv, 1994-2072 *)

(** 2031-2041 *)
Definition rotation (rkk sk : R) : R * R :=
  if Rlt_dec (Rabs rkk) (Rabs sk) then
    let cotan := rkk / sk in
    let sine := 5 / 10 / sqrt (25 / 100 + 25 / 100 * cotan * cotan) in
    (sine * cotan, sine)
  else
    let tang := sk / rkk in
    let cosine := 5 / 10 / sqrt (25 / 100 + 25 / 100 * tang * tang) in
    (cosine, cosine * tang).

(** 2028-2056 *)
Fixpoint givens (n : nat) (ks : list nat) (r : mat) (sd wa : vec) (q : R) : mat * vec * vec :=
  match ks with
  | [] => (r, sd, wa)
  | k :: ks' =>
      if Req_EM_T (sd k) 0 then (r, sd, wa)
      else
        let '(c, s) := rotation (r k k) (sd k) in
        let r' := fun i cc => if Nat.eqb cc k then
                                if Nat.eqb i k then c * r k k + s * sd k
                                else if Nat.ltb k i && Nat.ltb i n then c * r i k + s * sd i else r i cc
                              else r i cc in
        let sd' := fun i => if Nat.ltb k i && Nat.ltb i n then - s * r i k + c * sd i else sd i in
        givens n ks' r' sd' (upd wa k (c * wa k + s * q)) (- s * wa k + c * q)
  end.

(** 2014-2058 *)
Fixpoint qrsolv_loop (n : nat) (ipvt : nat -> nat) (diag x : vec) (js : list nat) (r : mat) (sd wa : vec)
    : mat * vec * vec :=
  match js with
  | [] => (r, sd, wa)
  | j :: js' =>
      let l := ipvt j in
      if Req_EM_T (diag l) 0 then (r, sd, wa)
      else
        let sd0 := fun i => if Nat.eqb i j then diag l else if Nat.ltb j i then 0 else sd i in
        let '(r1, sd1, wa1) := givens n (seq j (n - j)) r sd0 wa 0 in
        qrsolv_loop n ipvt diag x js' (upd2 r1 j j (x j)) (upd sd1 j (r1 j j)) wa1
  end.

(** the first index below n where p holds, n if there is none *)
Fixpoint first_from (p : nat -> bool) (i k : nat) : nat :=
  match k with O => i | S k' => if p i then i else first_from p (S i) k' end.
Definition is_zero (x : R) : bool := if Req_EM_T x 0 then true else false.

(** 2068-2071, in the order nsing-1, ..., 0; the entries from nsing on are zero *)
Definition back_subst (nsing : nat) (r : mat) (sd wa : vec) : vec :=
  fold_left (fun w j => upd w j ((w j - ssum (j + 1) nsing (fun i => r i j * w i)) / sd j)) (rev (seq 0 nsing)) wa.

(** x[ipvt] = wa *)
Definition scatter (n : nat) (ipvt : nat -> nat) (wa x : vec) : vec :=
  fold_left (fun x j => upd x (ipvt j) (wa j)) (seq 0 n) x.

Definition qrsolv (n : nat) (r : mat) (ipvt : nat -> nat) (diag qtb sdiag : vec) : mat * vec * vec :=
  let r0 := fun i c => if Nat.leb c i && Nat.ltb i n then r c i else r i c in   (* 2004-2005 *)
  let x := fun i => r0 i i in
  let '(r1, sd, wa) := qrsolv_loop n ipvt diag x (seq 0 n) r0 sdiag qtb in
  let nsing := first_from (fun i => is_zero (sd i)) 0 n in
  let wa := fun i => if Nat.leb nsing i then 0 else wa i in
  let wa := back_subst nsing r1 sd wa in
  (r1, scatter n ipvt wa x, sd).

(* ------------------------------------------------------------ lmpar, 2164-2278 *)

Definition max_abs_diag (n : nat) (r : mat) : R :=
  fold_left (fun v j => Rmax v (Rabs (r j j))) (seq 0 n) 0.

(** 2180-2185: solve r z = wa for the leading nsing columns *)
Definition solve_upper (nsing : nat) (r : mat) (wa : vec) : vec :=
  fold_left (fun w j => let v := w j / r j j in
                        fun i => if Nat.eqb i j then v else if Nat.ltb i j then w i - r i j * v else w i)
            (rev (seq 0 nsing)) wa.

(** 2204-2209: solve (r transpose) z = wa *)
Definition solve_lower_r (n : nat) (r : mat) (wa : vec) : vec :=
  fold_left (fun w j => upd w j ((w j - ssum 0 j (fun i => r i j * w i)) / r j j)) (seq 0 n) wa.

(** 2254-2258: solve (s transpose) z = wa; s is below the diagonal of r *)
Definition solve_lower_s (n : nat) (r : mat) (sd wa : vec) : vec :=
  fold_left (fun w j => let v := w j / sd j in
                        fun i => if Nat.eqb i j then v else if Nat.ltb j i && Nat.ltb i n then w i - r i j * v else w i)
            (seq 0 n) wa.

(** 2231-2274; [k] = 10 - iter *)
Fixpoint lmpar_loop (n : nat) (ipvt : nat -> nat) (diag qtb : vec) (delta : R) (k : nat)
    (r : mat) (sdiag : vec) (fp parl paru par : R) : mat * R * vec :=
  let par := if Req_EM_T par 0 then Rmax dwarf (paru * (1 / 1000)) else par in
  let t := sqrt par in
  let '(r, x, sdiag) := qrsolv n r ipvt (fun i => t * diag i) qtb sdiag in
  let wa2 := fun i => diag i * x i in
  let dxnorm := enorm 0 n wa2 in
  let temp := fp in
  let fp := dxnorm - delta in
  let stop := Rleb (Rabs fp) (1 / 10 * delta) || (is_zero parl && Rleb fp temp && Rltb temp 0) in
  match k with
  | O => (r, par, x)
  | S k' =>
      if stop then (r, par, x)
      else
        let wa1 := solve_lower_s n r sdiag (fun j => diag (ipvt j) * wa2 (ipvt j) / dxnorm) in
        let temp := enorm 0 n wa1 in
        let parc := fp / delta / temp / temp in
        let parl := if Rlt_dec 0 fp then Rmax parl par else parl in
        let paru := if Rlt_dec fp 0 then Rmin paru par else paru in
        lmpar_loop n ipvt diag qtb delta k' r sdiag fp parl paru (Rmax parl (par + parc))
  end.

(** 2164-2278 [lmpar]. The x and sdiag handed in by the caller are overwritten
    before they are read, and the sdiag handed back is not read (1200-1203), so
    they are not arguments here; [fun _ => 0] stands for the former. *)
Definition lmpar (n : nat) (r : mat) (ipvt : nat -> nat) (diag qtb : vec) (delta par : R) : mat * R * vec :=
  let rthresh := max_abs_diag n r * machep in
  let nsing := first_from (fun i => Rltb (Rabs (r i i)) rthresh) 0 n in
  let wa1 := solve_upper nsing r (fun i => if Nat.leb nsing i then 0 else qtb i) in
  let x := scatter n ipvt wa1 (fun _ => 0) in
  let wa2 := fun i => diag i * x i in
  let dxnorm := enorm 0 n wa2 in
  let fp := dxnorm - delta in
  if Rle_dec fp (1 / 10 * delta) then (r, 0, x)
  else
    let parl := if Nat.leb n nsing then
                  let w := solve_lower_r n r (fun j => diag (ipvt j) * wa2 (ipvt j) / dxnorm) in
                  let temp := enorm 0 n w in fp / delta / temp / temp
                else 0 in
    let gnorm := enorm 0 n (fun j => ssum 0 (j + 1) (fun i => r i j * qtb i) / diag (ipvt j)) in
    let paru := if Req_EM_T (gnorm / delta) 0 then dwarf / Rmin delta (1 / 10) else gnorm / delta in
    let par := Rmin (Rmax par parl) paru in
    let par := if Req_EM_T par 0 then gnorm / dxnorm else par in
    lmpar_loop n ipvt diag qtb delta 9 r (fun _ => 0) fp parl paru par.

(* ------------------------------------------------------------ calc_covar, 2360-2422 *)

(** 2381-2388, column k *)
Definition cov_inv_col (k : nat) (r : mat) : mat :=
  let r := upd2 r k k (1 / r k k) in
  fold_left (fun r j => let temp := r k k * r j k in
                        let r1 := upd2 r j k 0 in
                        fun i c => if Nat.eqb c k && Nat.leb i j then r1 i k - temp * r1 i j else r1 i c)
            (seq 0 k) r.

(** 2377-2389: the number of columns handled is l + 1 *)
Fixpoint cov_inv (tolr : R) (ks : list nat) (r : mat) (done : nat) : mat * nat :=
  match ks with
  | [] => (r, done)
  | k :: ks' => if Rle_dec (Rabs (r k k)) tolr then (r, done)
                else cov_inv tolr ks' (cov_inv_col k r) (S done)
  end.

(** 2393-2399, column k *)
Definition cov_mul_col (r : mat) (k : nat) : mat :=
  let r := fold_left (fun r j => let temp := r j k in
                        fun i c => if Nat.eqb c j && Nat.leb i j then r i j + temp * r i k else r i c)
                     (seq 0 k) r in
  let temp := r k k in
  fun i c => if Nat.eqb c k && Nat.leb i k then temp * r i k else r i c.

(** 2404-2414, one pair i <= j *)
Definition cov_place (ipvt : nat -> nat) (done j : nat) (r : mat) (i : nat) : mat :=
  let jj := ipvt j in
  let r := if Nat.leb done j then upd2 r i j 0 else r in
  let ii := ipvt i in
  let r := if Nat.ltb jj ii then upd2 r ii jj (r i j) else r in
  if Nat.ltb ii jj then upd2 r jj ii (r i j) else r.

Definition calc_covar (n : nat) (rr : mat) (ipvt : nat -> nat) : mat :=
  let '(r, done) := cov_inv (/ 10 ^ 14 * Rabs (rr 0%nat 0%nat)) (seq 0 n) rr 0 in
  let r := fold_left cov_mul_col (seq 0 done) r in
  let '(r, wa) := fold_left (fun s j => let '(r, wa) := s in
                     let r := fold_left (cov_place ipvt done j) (seq 0 (j + 1)) r in
                     (r, upd wa (ipvt j) (r j j))) (seq 0 n) (r, fun _ => r 0%nat 0%nat) in
  fold_left (fun r j => upd2 (fun i c => if Nat.eqb c j && Nat.leb i j then r j i else r i c) j j (wa j)) (seq 0 n) r.

(* ------------------------------------------------------------ the driver, 916-1466 *)

(** What the class holds at the end; [None]: attribute None. *)
Record mpout := mk_mpout { o_params : vec; o_status : Z; o_fnorm : R; o_niter : nat; o_covar : option mat;
                           o_perror : option vec }.

(** 1595-1665 [fdjac2] with step, relstep and mpside at their defaults *)
Definition fd_step (x : R) : R :=
  let h := sqrt machep * Rabs x in if Req_EM_T h 0 then sqrt machep else h.

Definition fdjac2 (fcn : vec -> vec) (ifree : nat -> nat) (xall : vec) (x fvec : vec) : mat :=
  fun i j => let h := fd_step (x j) in
             (fcn (upd xall (ifree j) (xall (ifree j) + h)) i - fvec i) / h.

(** state of the loops: x, fvec, self.fnorm, fnorm1, xnorm, delta, par, self.niter, fjac *)
Record lm := mk_lm { s_x : vec; s_fvec : vec; s_fnorm : R; s_fnorm1 : R; s_xnorm : R; s_delta : R; s_par : R;
                     s_niter : nat; s_r : mat }.

(** self.params[ifree] = x over the starting values *)
Definition place (n : nat) (ifree : nat -> nat) (xall x : vec) : vec :=
  fold_left (fun p j => upd p (ifree j) (x j)) (seq 0 n) xall.

(** 1197-1361: one round of the inner loop: the new state, self.status and
    whether the step was taken *)
Definition lm_try (fcn : vec -> vec) (ifree : nat -> nat) (xall : vec) (m n : nat) (ipvt : nat -> nat)
    (diag qtf : vec) (gnorm : R) (st : lm) : lm * Z * bool :=
  let '(r, par, p) := lmpar n (s_r st) ipvt diag qtf (s_delta st) (s_par st) in
  let wa1 := fun i => - p i in
  let wa2 := fun i => s_x st i + wa1 i in
  let pnorm := enorm 0 n (fun i => diag i * wa1 i) in
  let delta := if Nat.eqb (s_niter st) 1 then Rmin (s_delta st) pnorm else s_delta st in
  let wa4 := fcn (place n ifree xall wa2) in
  let fnorm1 := enorm 0 m wa4 in
  let fnorm := s_fnorm st in
  let actred := if Rlt_dec (1 / 10 * fnorm1) fnorm then - (fnorm1 / fnorm) ^ 2 + 1 else -1 in
  let wa3 := fold_left (fun w j => let w := upd w j 0 in
                          fun i => if Nat.leb i j then w i + r i j * wa1 (ipvt j) else w i)
                       (seq 0 n) (fun i => diag i * wa1 i) in
  let temp1 := enorm 0 n wa3 / fnorm in
  let temp2 := sqrt par * pnorm / fnorm in
  let prered := temp1 * temp1 + temp2 * temp2 / (5 / 10) in
  let dirder := - (temp1 * temp1 + temp2 * temp2) in
  let ratio := if Req_EM_T prered 0 then 0 else actred / prered in
  let '(delta, par) :=
    if Rle_dec ratio (25 / 100) then
      let temp := if Rle_dec 0 actred then 5 / 10 else 5 / 10 * dirder / (dirder + 5 / 10 * actred) in
      let temp := if Rleb fnorm (1 / 10 * fnorm1) || Rltb temp (1 / 10) then 1 / 10 else temp in
      (temp * Rmin delta (pnorm / (1 / 10)), par / temp)
    else if is_zero par || Rleb (75 / 100) ratio then (pnorm / (5 / 10), 5 / 10 * par)
    else (delta, par) in
  let good := Rleb (1 / 10000) ratio in
  let st' :=
    if good then mk_lm wa2 wa4 fnorm1 fnorm1 (enorm 0 n (fun i => diag i * wa2 i)) delta par (S (s_niter st)) r
    else mk_lm (s_x st) (s_fvec st) fnorm fnorm1 (s_xnorm st) delta par (s_niter st) r in
  let small t := Rleb (Rabs actred) t && Rleb prered t && Rleb (5 / 10 * ratio) 1 in
  let status := 0%Z in
  let status := if small ftol then 1%Z else status in
  let status := if Rle_dec delta (xtol * s_xnorm st') then 2%Z else status in
  let status := if small ftol && Z.eqb status 2 then 3%Z else status in
  if negb (Z.eqb status 0) then (st', status, good)
  else
    let status := if Nat.leb maxiter (s_niter st') then 5%Z else status in
    let status := if small machep then 6%Z else status in
    let status := if Rle_dec delta (machep * s_xnorm st') then 7%Z else status in
    let status := if Rle_dec gnorm machep then 8%Z else status in
    (st', status, good).

(** 1196-1370 *)
Fixpoint inner (fuel : nat) (fcn : vec -> vec) (ifree : nat -> nat) (xall : vec) (m n : nat) (ipvt : nat -> nat)
    (diag qtf : vec) (gnorm : R) (st : lm) : option (lm * Z) :=
  match fuel with
  | O => None
  | S f =>
      let '(st', status, good) := lm_try fcn ifree xall m n ipvt diag qtf gnorm st in
      if negb (Z.eqb status 0) then Some (st', status)
      else if good then Some (st', 0%Z)
      else inner f fcn ifree xall m n ipvt diag qtf gnorm st'
  end.

(** 1079-1377: the outer loop; the state at the end, self.status and ipvt *)
Fixpoint outer (fuel : nat) (fcn : vec -> vec) (ifree : nat -> nat) (xall : vec) (m n : nat) (diag : vec) (st : lm)
    : option (lm * Z * (nat -> nat)) :=
  match fuel with
  | O => None
  | S f =>
      let params := place n ifree xall (s_x st) in
      let fjac := fdjac2 fcn ifree params (s_x st) (s_fvec st) in
      let q := qrfac m n fjac in
      let acn := acnorm m fjac in
      let first := Nat.eqb (s_niter st) 1 in
      let diag := if first then fun j => if Req_EM_T (acn j) 0 then 1 else acn j else diag in
      let xnorm := if first then enorm 0 n (fun j => diag j * s_x st j) else s_xnorm st in
      let delta := if first then if Req_EM_T (factor * xnorm) 0 then factor else factor * xnorm else s_delta st in
      let '(r, qtf) := r_qtf m n q (s_fvec st) in
      let st := mk_lm (s_x st) (s_fvec st) (s_fnorm st) (s_fnorm1 st) xnorm delta (s_par st) (s_niter st) r in
      let gnorm := grad_norm n r qtf (q_ipvt q) acn (s_fnorm st) in
      if Rle_dec gnorm gtol then Some (st, 4%Z, q_ipvt q)
      else
        let diag := fun j => Rmax (acn j) (diag j) in
        match inner f fcn ifree xall m n (q_ipvt q) diag qtf gnorm st with
        | None => None
        | Some (st, status) =>
            if negb (Z.eqb status 0) then Some (st, status, q_ipvt q)
            else outer f fcn ifree xall m n diag st
        end
  end.

(** 916-1466. [npar] starting values [xall], [free] the indices not fixed, [m]
    data. With no free parameter the attribute params is None (977-979): that
    is [PErr], the callers index it. *)
Definition mpfit (fuel : nat) (fcn : vec -> vec) (npar m : nat) (free : list nat) (xall : vec) : option (pyres mpout) :=
  let n := length free in
  let ifree := fun j => nth j free 0%nat in
  match free with
  | [] => Some PErr
  | _ =>
    let x := fun j => xall (ifree j) in
    let fvec := fcn xall in
    if Nat.ltb m n then Some (POk (mk_mpout xall 0 (-1) 0 None None))
    else
      let st := mk_lm x fvec (enorm 0 m fvec) (-1) 0 0 0 1 (fun _ _ => 0) in
      match outer fuel fcn ifree xall m n (fun _ => 0) st with
      | None => None
      | Some (st, status, ipvt) =>
          let params := place n ifree xall (s_x st) in
          let fnorm := enorm 0 m (fcn params) in
          let fnorm := Rmax fnorm (s_fnorm1 st) ^ 2 in
          let cv := calc_covar n (s_r st) ipvt in
          let inv := fun i => first_from (fun j => Nat.eqb (ifree j) i) 0 n in
          let covar := fun a b => if Nat.ltb (inv a) n && Nat.ltb (inv b) n then cv (inv a) (inv b) else 0 in
          let perror := fun a => if Rle_dec 0 (covar a a) then sqrt (covar a a) else 0 in
          Some (POk (mk_mpout params status fnorm (s_niter st) (Some covar) (Some perror)))
      end
  end.
