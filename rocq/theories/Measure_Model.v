(** Model of the measurements made on a Faraday spectrum: calc_mom2_FDF,
    calc_parabola_vertex, MAD (RMutils/util_misc.py), measure_FDF_parms,
    cdf_percentile and calc_sigma_add (RMutils/util_RM.py).

    A number that is not finite (NaN, +-inf) is [None]. Comparisons with such a
    number are false, as for NaN. Where the code could hold an infinity rather
    than NaN this makes no difference to what it returns: see the comments. *)
From Coq Require Import Reals List Arith ZArith Bool.
Set Warnings "-ambiguous-paths".
From Coquelicot Require Import Coquelicot.
From Verif Require Import CBase PyRes PyList Interp_Model Synth_Model Setup_Model.
Import ListNotations.
Local Open Scope R_scope.

(** ** Float arithmetic with one value for "not finite" *)
Definition o2 (f : R -> R -> R) (a b : option R) : option R :=
  match a, b with Some x, Some y => Some (f x y) | _, _ => None end.
Definition oadd := o2 Rplus.
Definition osub := o2 Rminus.
Definition omul := o2 Rmult.
Definition odiv (a b : option R) : option R :=
  match a, b with Some x, Some y => if Req_EM_T y 0 then None else Some (x / y) | _, _ => None end.
Definition osqrt (a : option R) : option R :=
  match a with Some x => if Rle_dec 0 x then Some (sqrt x) else None | None => None end.
(** a >= b, a > b *)
Definition oge (a b : option R) : bool := match a, b with Some x, Some y => Rleb y x | _, _ => false end.
Definition ogt (a b : option R) : bool := match a, b with Some x, Some y => Rltb y x | _, _ => false end.

Definition somes {A} (l : list (option A)) : list A := flat_map (fun x => match x with Some v => [v] | None => [] end) l.

(** a % b for b > 0 (numpy: sign of the divisor) *)
Definition fmod (a b : R) : R := a - b * IZR (Rfloor (a / b)).

Definition degrees (x : R) : R := x * 180 / PI.
Definition radians (x : R) : R := x * PI / 180.

(** numpy.arctan2 *)
Definition arctan2 (y x : R) : R :=
  if Rlt_dec 0 x then atan (y / x)
  else if Rlt_dec x 0 then (if Rle_dec 0 y then atan (y / x) + PI else atan (y / x) - PI)
  else if Rlt_dec 0 y then PI / 2 else if Rlt_dec y 0 then - (PI / 2) else 0.

(** ** Median and MAD *)

(** sorted(l) *)
Fixpoint rinsert (x : R) (l : list R) : list R :=
  match l with [] => [x] | y :: t => if Rle_dec x y then x :: l else y :: rinsert x t end.
Definition rsort (l : list R) : list R := fold_right rinsert [] l.

(** numpy.ma.median of the unmasked elements: the mean of the two middle
    elements if their number is even; masked (None) if there is none *)
Definition median (l : list R) : option R :=
  match l with
  | [] => None
  | _ => let v := rsort l in let n := length l in
         Some (if Nat.even n then (nth (n / 2 - 1) v 0 + nth (n / 2) v 0) / 2 else nth (n / 2) v 0)
  end.

(** util_misc.py:1055-1074 [MAD] for a one-dimensional array, c = 0.6745 *)
Definition MAD (a : list (option R)) : option R :=
  let v := somes a in
  match median v with
  | None => None
  | Some d => median (map (fun x => Rabs (x - d) / (6745 / 10000)) v)
  end.

(** ** Moments and the parabola *)

(** util_misc.py:372-382 [calc_mom2_FDF] *)
Definition calc_mom2_FDF (FDF : list C) (phi : list R) : option R :=
  let K := rsum (map Cmod FDF) in
  let phiMean := odiv (Some (rsum (map (fun fp => snd fp * Cmod (fst fp)) (combine FDF phi)))) (Some K) in
  match phiMean with
  | None => None
  | Some m => osqrt (odiv (Some (rsum (map (fun fp => (snd fp - m) ^ 2 * Cmod (fst fp)) (combine FDF phi)))) (Some K))
  end.

(** util_misc.py:386-408 [calc_parabola_vertex] for finite arguments. A division
    by zero (deltax, yscale, D or A) makes both results non-finite: with A = 0
    and B <> 0 they are infinite, with A = B = 0 they are NaN. *)
Definition calc_parabola_vertex (x1 y1 x2 y2 x3 y3 : R) : option (R * R) :=
  let midpoint := x2 in
  let deltax := x2 - x3 in
  let yscale := y2 in
  if Req_EM_T deltax 0 then None
  else if Req_EM_T yscale 0 then None
  else
    let x1 := (x1 - midpoint) / deltax in
    let x3 := (x3 - midpoint) / deltax in
    let x2 := (x2 - midpoint) / deltax in
    let y1 := y1 / yscale in
    let y2 := y2 / yscale in
    let y3 := y3 / yscale in
    let D := (x1 - x2) * (x1 - x3) * (x2 - x3) in
    if Req_EM_T D 0 then None
    else
      let A := (x3 * (y2 - y1) + x2 * (y1 - y3) + x1 * (y3 - y2)) / D in
      let B := (x3 * x3 * (y1 - y2) + x2 * x2 * (y3 - y1) + x1 * x1 * (y2 - y3)) / D in
      let C := (x2 * x3 * (x2 - x3) * y1 + x3 * x1 * (x3 - x1) * y2 + x1 * x2 * (x1 - x2) * y3) / D in
      if Req_EM_T A 0 then None
      else
        let xv := - B / (2 * A) in
        let yv := C - B * B / (4 * A) in
        Some (xv * deltax + midpoint, yv * yscale).

(** ** measure_FDF_parms *)

(** numpy.nanargmax: the first maximum among the finite elements; ValueError if
    there is none *)
Definition nanargmax (l : list (option R)) : pyres nat :=
  match argmax (fun a b : option R => match a, b with
                                      | None, Some _ => true
                                      | Some x, Some y => Rltb x y
                                      | _, None => false
                                      end) l with
  | None => PErr
  | Some i => match nth i l None with Some _ => POk i | None => PErr end
  end.

(** ceil of a real *)
Definition Rceil (x : R) : Z := (- Rfloor (- x))%Z.

(** numpy.interp of ordinates that may be NaN, at x (increasing xp) *)
Fixpoint interp_from_o (x : R) (pts : list (R * option R)) : option R :=
  match pts with
  | [] => None
  | [(_, y0)] => y0
  | (x0, y0) :: (((x1, y1) :: _) as rest) =>
      if Rlt_dec x x1 then match y0, y1 with Some a, Some b => Some (a + (x - x0) * ((b - a) / (x1 - x0))) | _, _ => None end
      else interp_from_o x rest
  end.
Definition np_interp_o (x : R) (xp : list R) (yp : list (option R)) : option R :=
  match combine xp yp with
  | [] => None
  | (x0, y0) :: rest => if Rlt_dec x x0 then y0 else interp_from_o x ((x0, y0) :: rest)
  end.
Definition np_interp_x (x : option R) (xp : list R) (yp : list (option R)) : option R :=
  match x with Some x => np_interp_o x xp yp | None => None end.

Record parms := mk_parms {
  dFDFcorMAD : option R; phiPeakPIfit : option R; dPhiPeakPIfit : option R; ampPeakPIfit : option R;
  ampPeakPIfitEff : option R; dAmpPeakPIfit : option R; snrPIfit : option R; indxPeakPIfit : option R;
  peakFDFimagFit : option R; peakFDFrealFit : option R; polAngleFit_deg : option R; dPolAngleFit_deg : option R;
  polAngle0Fit_deg : option R; dPolAngle0Fit_deg : option R }.

(** util_RM.py:999-1018: the noise away from the peak channel. [fw = None] or
    dPhi = 0 give an infinite or NaN width: max and min then return 0 and
    len(FDF) (for a width that is not negative). *)
Definition noise_range (fw : option R) (dPhi : R) (idx n : nat) : Z * Z :=
  match odiv fw (Some dPhi) with
  | None => (0, Z.of_nat n)%Z
  | Some q => (Z.max 0 (Z.of_nat idx - Rceil q * 2), Z.min (Z.of_nat n) (Z.of_nat idx + Rceil q * 2))%Z
  end.
Definition corMAD (FDF : list (option C)) (lr : Z * Z) : option R :=
  let n := length FDF in
  let masked := map (fun ix => if in_slice n (fst lr) (snd lr) (fst ix) then None else snd ix) (combine (seq 0 n) FDF) in
  let kept := filter (fun x => match x with Some _ => true | None => false end) masked in
  let of l := MAD (map (option_map fst) l ++ map (option_map snd) l) in
  if Rlt_dec (INR (length kept) / INR n) (3 / 10) then of FDF else of kept.

(** util_RM.py:980-1110 [measure_FDF_parms]. [dFDF = None] is "not given".
    len(FDF) = len(phiArr); lamSqArr_m2 has no NaN. *)
Definition measure_FDF_parms (FDF : list (option C)) (phi : list R) (fw : option R) (dFDF : option (option R))
    (l2 : list R) (lam0 : R) (snrBias : R) : pyres parms :=
  let n := length FDF in
  let absFDF := map (option_map Cmod) FDF in
  pybind (nanargmax (py_slice absFDF 1 (-1))) (fun i0 =>
  let idx := S i0 in
  match rmin_list (np_diff phi) with
  | None => PErr
  | Some dPhi =>
    let cm := corMAD FDF (noise_range fw dPhi idx n) in
    let dF := match dFDF with Some d => d | None => cm end in
    let nG := INR (length l2) in
    let varL := odiv (osub (Some (rsum (map (fun l => l ^ 2) l2))) (odiv (Some (rsum l2 ^ 2)) (Some nG))) (Some (nG - 1)) in
    if (0 <? idx)%nat && (idx <? n - 1)%nat then
      let v := match nth (idx - 1) absFDF None, nth idx absFDF None, nth (idx + 1) absFDF None with
               | Some y1, Some y2, Some y3 => calc_parabola_vertex (nth (idx - 1) phi 0) y1 (nth idx phi 0) y2 (nth (idx + 1) phi 0) y3
               | _, _, _ => None
               end in
      let snr := odiv (option_map snd v) dF in
      let v := match v, rmax_list (map Rabs phi) with
               | Some (p, a), Some m => if Rltb m (Rabs p) then None else Some (p, a)
               | _, _ => None
               end in
      let ph := option_map fst v in
      let amp := option_map snd v in
      let dph := odiv (omul fw dF) (omul (Some 2) amp) in
      let eff := if oge snr (Some snrBias)
                 then osqrt (osub (omul amp amp) (omul (Some (23 / 10)) (omul dF dF))) else amp in
      let ix := np_interp_x ph phi (map (fun k => Some (INR k)) (seq 0 (length phi))) in
      let im := np_interp_x ph phi (map (option_map snd) FDF) in
      let re := np_interp_x ph phi (map (option_map fst) FDF) in
      let ang := match im, re with Some y, Some x => Some (fmod (1 / 2 * degrees (arctan2 y x)) 180) | _, _ => None end in
      let dang := option_map degrees (odiv dF (omul (Some 2) amp)) in
      let ang0 := match ang, ph with Some a, Some p => Some (fmod (degrees (radians a - p * lam0)) 180) | _, _ => None end in
      let dang0 := option_map degrees (osqrt (omul
                     (odiv (omul (omul dF dF) (Some nG)) (omul (Some (4 * (nG - 2))) (omul amp amp)))
                     (oadd (odiv (Some (nG - 1)) (Some nG)) (odiv (Some (lam0 ^ 2)) varL)))) in
      POk (mk_parms cm ph dph amp eff dF snr ix im re ang dang ang0 dang0)
    else POk (mk_parms cm None None None None dF None None None None None None None None)
  end).

(** ** sigma_add *)

(** util_RM.py:1128-1146 [cdf_percentile], q as a fraction *)
Fixpoint first_above (q : R) (i : nat) (p : list R) : option nat :=
  match p with [] => None | a :: t => if Rltb q a then Some i else first_above q (S i) t end.
Definition cdf_percentile (x p : list R) (q : R) : option R :=
  match first_above q 0 p with
  | None => None
  | Some O => Some (nth 0 x 0)
  | Some (S i as j) =>
      let m := odiv (Some (nth j p 0 - nth i p 0)) (Some (nth j x 0 - nth i x 0)) in
      let c := osub (Some (nth j p 0)) (omul m (Some (nth j x 0))) in
      odiv (osub (Some q) c) m
  end.

Fixpoint cumsum (acc : R) (l : list R) : list R :=
  match l with [] => [] | x :: t => (acc + x) :: cumsum (acc + x) t end.

Record sigma_out := mk_sigma { sigmaAdd : option R; dSigmaAddMinus : option R; dSigmaAddPlus : option R;
                               sigmaAddArr : list R; probArr : list R; CPDF : list R }.

(** util_RM.py:1150-1214 [calc_sigma_add] with a given yMed. Data and errors that
    are NaN drop out of every sum. A range of the data that is zero or negative
    makes every curve NaN, hence all results NaN. *)
Definition calc_sigma_add (nData : nat) (y dy : list (option R)) (yMed : R) (nSamp : nat) : pyres sigma_out :=
  let yd := somes (map (fun ab => match ab with (Some a, Some b) => Some (a, b) | _ => None end) (combine y dy)) in
  match rmax_list (map (fun ab => fst ab + snd ab) yd), rmin_list (map (fun ab => fst ab - snd ab) yd) with
  | Some mx, Some mn =>
    let yRng := mx - mn in
    if (nSamp <? 2)%nat then PErr
    else if Rle_dec yRng 0 then POk (mk_sigma None None None [] [] [])
    else pybind (linspace (yRng / INR nSamp) yRng (Z.of_nat nSamp)) (fun sg =>
      let tot s := somes (map (fun d => match d with Some d => Some (d ^ 2 + s ^ 2) | None => None end) dy) in
      let lnsum s := rsum (map (fun t => ln (sqrt t)) (tot s)) in
      let chisq s := rsum (map (fun ab => (fst ab - yMed) ^ 2 / (snd ab ^ 2 + s ^ 2)) yd) in
      let lnProb := map (fun s => - ln s - INR nData * ln (2 * PI) / 2 - lnsum s - chisq s / 2) sg in
      match rmax_list lnProb with
      | None => PErr
      | Some m =>
        let prob := map (fun l => exp (l - m)) lnProb in
        let d0 := nth 1 sg 0 - nth 0 sg 0 in
        let A := rsum (map (fun p => p * d0) prob) in
        let prob := map (fun p => p / A) prob in
        let cp := map (fun c => c / rsum prob) (cumsum 0 prob) in
        let s50 := cdf_percentile sg cp (50 / 100) in
        let s16 := cdf_percentile sg cp (15.72 / 100) in
        let s84 := cdf_percentile sg cp (84.27 / 100) in
        POk (mk_sigma s50 (osub s50 s16) (osub s84 s50) sg prob cp)
      end)
  | _, _ => if (nSamp <? 2)%nat then PErr else POk (mk_sigma None None None [] [] [])
  end.
