(** Numbers behind the figures: RMutils/util_plotTk.py:125-143, 784-791, 846-858,
    2196-2228, RMutils/normalize.py:15-158, RMutils/util_misc.py:1078-1113 and
    RMutils/util_plotFITS.py:141-176. Model only. NaN (and a masked value) is None;
    infinities do not occur. *)
From Coq Require Import Reals List Arith ZArith Bool Ascii String.
From Verif Require Import PyRes PyStr PyList NdArray NdIndex CBase Synth_Model Measure_Model StokesI_Model Icube_Model.
Import ListNotations.
Local Notation length := List.length.
Local Open Scope R_scope.

(* ------------------------------------------------------------ util_plotTk *)

(** 125-143 [filter_range_indx]; + and += of boolean arrays are "or" *)
Definition filter_range_indx (a : list (option R)) (dataMin dataMax : option R) (filterNans : bool) : list bool :=
  let nan x := if filterNans then false else negb (is_some x) in
  let ge x lo := match x with Some v => Rleb lo v | None => false end in
  let le x hi := match x with Some v => Rleb v hi | None => false end in
  map (fun x =>
    let i1 := match dataMin with None => true | Some lo => ge x lo || nan x end in
    let i2 := match dataMax with None => true | Some hi => le x hi || nan x end in
    negb i1 || negb i2) a.

(** 785: indices where the next sample is further than the threshold; a
    difference with NaN is NaN and no jump *)
Definition jumps (dat : list (option R)) (lo hi thresh : R) : list nat :=
  filter (fun i => match nth i dat None, nth (S i) dat None with
                   | Some x, Some y => Rltb ((hi - lo) * thresh) (Rabs (y - x))
                   | _, _ => false
                   end) (seq 0 (length dat - 1)).
(** 784-791 [unwrap_lines]: the slices [start, stop) *)
Fixpoint cuts (lasti n : nat) (jump : list nat) : list (nat * nat) :=
  match jump with
  | [] => [(lasti, n)]
  | i :: t => (lasti, (i + 1)%nat) :: cuts (i + 1) n t
  end.
Definition unwrap_lines (dat : list (option R)) (lo hi thresh : R) : list (nat * nat) := cuts 0 (length dat) (jumps dat lo hi thresh).

(** 846-858 [gauss]; a width of zero divides by zero and gives NaN or zero, here None *)
Definition gauss_curve (a b w x : R) : option R :=
  let gfactor := 2 * sqrt (2 * ln 2) in
  let sg := w / gfactor in
  if Req_EM_T (2 * sg ^ 2) 0 then None else Some (a * exp (- (x - b) ^ 2 / (2 * sg ^ 2))).

(** 2212-2220, the loop; [fuel] covers the turns *)
Fixpoint hist_loop (fuel : nat) (bins n : list R) (i j : nat) : list (R * R) :=
  match fuel with
  | O => []
  | S fuel =>
      if (i <? length bins)%nat then
        (if (j <? length n)%nat then [(nth i bins 0, nth j n 0)] else []) ++
        (if (i =? j)%nat then hist_loop fuel bins n (S i) j else hist_loop fuel bins n i (S j))
      else []
  end.
(** 2196-2228 [mk_hist_poly]. bins[0] of an empty array raises. *)
Definition mk_hist_poly (bins n : list R) (logScaleY : bool) (zeroPt : R) (addZeroPt : bool) : pyres (list (R * R)) :=
  let n := if logScaleY then map (fun v => if Rle_dec v 0 then zeroPt else v) n else n in
  let z := if logScaleY then zeroPt else 0 in
  let body := hist_loop (2 * length bins + 2) bins n 0 0 in
  if addZeroPt then
    match bins with
    | [] => PErr
    | b0 :: _ => let b1 := last bins 0 in POk ([(b0, z)] ++ body ++ [(b1, z); (b0, z)])
    end
  else POk body.

(* -------------------------------------------------------------- normalize *)

Inductive stretch := SLinear | SLog | SSqrt | SArcsinh | SPower | SOther.
(** 51-62: the midpoint; [vmid] given without limits is a TypeError, with equal
    limits a ZeroDivisionError *)
Definition midpoint (st : stretch) (vmid vmin vmax : option R) : pyres (option R) :=
  match vmid with
  | None => POk (match st with SLog => Some (5 / 100) | SArcsinh => Some (- (33 / 1000)) | _ => None end)
  | Some v => match vmin, vmax with
              | Some lo, Some hi => if Req_EM_T (hi - lo) 0 then PErr else POk (Some ((v - lo) / (hi - lo)))
              | _, _ => PErr
              end
  end.

(** numpy.ma.power: masked if the result is not finite *)
Definition ma_power (x e : R) : option R :=
  if Rlt_dec 0 x then Some (Rpower x e)
  else if Req_EM_T x 0 then (if Rlt_dec 0 e then Some 0 else if Req_EM_T e 0 then Some 1 else None)
  else if Req_EM_T e (IZR (Int_part e)) then Some (powerRZ x (Int_part e)) else None.
(** numpy.ma.log10, sqrt and division: masked outside the domain *)
Definition ma_log10 (x : R) : option R := if Rlt_dec 0 x then Some (log10 x) else None.
Definition ma_sqrt (x : R) : option R := if Rle_dec 0 x then Some (sqrt x) else None.
Definition ma_div (x y : option R) : option R :=
  match x, y with Some a, Some b => if Req_EM_T b 0 then None else Some (a / b) | _, _ => None end.
Definition omap {A B} (f : A -> option B) (x : option A) : option B := match x with Some a => f a | None => None end.

(** 96-118; [mid] and [exponent] are None if not set, which raises. They are Python
    floats: 1.0 / 0.0 raises. *)
Definition stretched (st : stretch) (mid exponent : option R) (r : R) : pyres (option R) :=
  match st, mid, exponent with
  | SLinear, _, _ => POk (Some r)
  | SLog, Some m, _ => if Req_EM_T m 0 then PErr else POk (ma_div (omap ma_log10 (option_map (fun q => q + 1) (ma_div (Some r) (Some m))))
                                   (omap ma_log10 (option_map (fun q => q + 1) (ma_div (Some 1) (Some m)))))
  | SSqrt, _, _ => POk (ma_sqrt r)
  | SArcsinh, Some m, _ => if Req_EM_T m 0 then PErr else POk (ma_div (option_map arcsinh (ma_div (Some r) (Some m))) (option_map arcsinh (ma_div (Some 1) (Some m))))
  | SPower, _, Some e => POk (ma_power r e)
  | _, _, _ => PErr
  end.
(** 64-121 [__call__] on a list, with both limits set: matplotlib's autoscale then
    does nothing. The code calls matplotlib.cbook.iterable and numpy.float, which
    later versions of these packages do not have. *)
Definition normalize (st : stretch) (mid exponent : option R) (vmin vmax : R) (clip : bool) (val : list (option R)) : pyres (list (option R)) :=
  if Rlt_dec vmax vmin then PErr
  else if Req_EM_T vmin vmax then POk (map (option_map (fun _ => 0)) val)
  else
    let c v := if clip then Rmin (Rmax v vmin) vmax else v in
    match stretched st mid exponent 0 with
    | PErr => PErr
    | POk _ => POk (map (omap (fun v => match stretched st mid exponent ((c v - vmin) * (1 / (vmax - vmin))) with POk r => r | PErr => None end)) val)
    end.

(** 123-158 [inverse] of one value *)
Definition inverse (st : stretch) (mid exponent : option R) (vmin vmax v : R) : pyres (option R) :=
  let back r := option_map (fun r => vmin + r * (vmax - vmin)) r in
  match st, mid, exponent with
  | SLinear, _, _ => POk (back (Some v))
  | SLog, Some m, _ => if Req_EM_T m 0 then PErr else POk (back (omap (fun l => Some (m * (Rpower 10 (v * l) - 1))) (omap (fun q => ma_log10 (q + 1)) (ma_div (Some 1) (Some m)))))
  | SSqrt, _, _ => POk (back (Some (v * v)))
  | SArcsinh, Some m, _ => if Req_EM_T m 0 then PErr else POk (back (omap (fun q => Some (m * sinh (v * arcsinh q))) (ma_div (Some 1) (Some m))))
  | SPower, _, Some e => if Req_EM_T e 0 then PErr else POk (back (ma_power v (1 / e)))
  | _, _, _ => PErr
  end.

(* -------------------------------------------------------------- util_misc *)

Record stats := mk_stats { npix : nat; stdev : R; mean_ : R; med : R; max_ : R; min_ : R; centmax : list nat; madfm : R; success : bool }.
(** 1078-1113 [calc_stats]. The position of the maximum is (0.0, 0.0) without
    success. The assignment of npix at 1102 is a comparison. *)
Definition calc_stats (a : nd (option R)) (maskzero : bool) : stats :=
  let v := map (omap (fun x => if maskzero then (if Req_EM_T x 0 then None else Some x) else Some x)) (flat a) in
  let g := somes v in
  let z := mk_stats (length g) 0 0 0 0 0 [0; 0]%nat 0 false in
  if (2 <=? length g)%nat then
    let m := rmean g in
    let lt x y := match x, y with None, Some _ => true | Some p, Some q => Rltb p q | _, _ => false end in
    match median g, MAD v, argmax lt v with
    | Some d, Some q, Some i => mk_stats (length g) (sqrt (rmean (map (fun x => (x - m) ^ 2) g))) m d
        (fold_right Rmax (nth 0 g 0) g) (fold_right Rmin (nth 0 g 0) g) (unravel (shape a) i) q true
    | _, _, _ => z
    end
  else z.

(* ----------------------------------------------------------- util_plotFITS *)

(** 147-150: first and last row or column of the sample of an axis of length n *)
Definition box (n : nat) (frac : R) : Z * Z := (py_int (INR n / 2 - INR n * frac / 2 + 1), py_int (INR n / 2 + INR n * frac / 2 + 1)).

(** 152-173: limits and stretch; None for a limit is left to matplotlib. [st]: None
    for "auto". A limit that is not set is an UnboundLocalError. *)
Definition colour_limits (mx mad : R) (st : option stretch) (zMin zMax : option R) : pyres (option R * option R * stretch) :=
  if Req_EM_T mad 0 then PErr
  else
    let sigma := Rabs (mx / mad) in
    let auto := match st with
                | Some t => (None, t)
                | None => if Rle_dec sigma 20 then (Some (mad * - (15 / 10), mad * 10), SLinear)
                          else if Rlt_dec 20 sigma then (Some (mad * - 3, mad * 40), SLinear)
                          else if Rlt_dec 500 sigma then (Some (mad * - 7, mad * 200), SSqrt)
                          else (None, SOther)
                end in
    match zMax with
    | Some z => POk (zMin, Some (if Rlt_dec z mx then mx else z), snd auto)
    | None => match fst auto with Some (lo, hi) => POk (Some lo, Some hi, snd auto) | None => PErr end
    end.
