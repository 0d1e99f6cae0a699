(** What is drawn in the spectra figures: RMutils/util_plotTk.py:229-1030,
    1613-1712, 1842-1883, 2253-2466, util_RM.py:1114-1125. Model only.
    An axis is what was put on it: points with error bars, lines, bands, and the
    limits set. Colours, labels of axes and tick marks are left out. NaN and
    infinities are None. Arrays of unequal length raise (numpy would also take
    a length of one). *)
From Coq Require Import Reals List Arith ZArith Bool Ascii String.
Set Warnings "-ambiguous-paths".
From Coquelicot Require Import Coquelicot.
From Verif Require Import CBase PyRes PyStr PyList Measure_Model Pl_Model.
Import ListNotations.
Local Notation length := List.length.
Local Open Scope R_scope.

Definition col := list (option R).
Inductive artist :=
| Bars (label : str) (x y : col) (dx dy : option col)
| Line (label : str) (x y : col)
| Steps (label : str) (x y : col)
| Band (x lo hi : col)
| HLine (y : R)
| VLine (x : option R).
Record axes := mk_axes { drawn : list artist; xlim : R * R; ylim : option (R * R) }.

Fixpoint zip2 (f : option R -> option R -> option R) (a b : col) : pyres col :=
  match a, b with
  | [], [] => POk []
  | x :: a, y :: b => pybind (zip2 f a b) (fun r => POk (f x y :: r))
  | _, _ => PErr
  end.
Definition opt2 (f : col -> col -> pyres col) (a b : option col) : pyres (option col) :=
  match a, b with Some a, Some b => pybind (f a b) (fun r => POk (Some r)) | _, _ => POk None end.
(** numpy.sqrt(a ** 2 + b ** 2) *)
Definition hypot (a b : option R) : option R := o2 (fun x y => sqrt (x ^ 2 + y ^ 2)) a b.
Definition ghz (f : col) : col := map (option_map (fun x => x / 1000000000)) f.

(** matplotlib's errorbar: unequal lengths and negative errors raise *)
Definition same_len (x : col) (y : option col) : bool := match y with None => true | Some y => (length x =? length y)%nat end.
Definition no_neg (y : option col) : bool := match y with None => true | Some y => forallb (fun e => match e with Some e => Rleb 0 e | None => true end) y end.
Definition errorbar (label : str) (x y : col) (dx dy : option col) : pyres (list artist) :=
  if same_len x (Some y) && same_len x dx && same_len x dy && no_neg dx && no_neg dy then POk [Bars label x y dx dy] else PErr.
Definition plot (label : str) (x y : col) : pyres (list artist) := if same_len x (Some y) then POk [Line label x y] else PErr.
Definition step (label : str) (x y : col) : pyres (list artist) := if same_len x (Some y) then POk [Steps label x y] else PErr.
Definition plot_opt (label : str) (x : col) (y : option col) : pyres (list artist) := match y with None => POk [] | Some y => plot label x y end.
Definition band (x lo hi : col) : pyres (list artist) := if same_len x (Some lo) && same_len x (Some hi) then POk [Band x lo hi] else PErr.
(** one after the other *)
Fixpoint draws (l : list (pyres (list artist))) : pyres (list artist) :=
  match l with [] => POk [] | x :: t => pybind x (fun a => pybind (draws t) (fun r => POk (a ++ r)%list)) end.

(** numpy.nanmin, numpy.nanmax; a limit that is NaN raises *)
Definition span (l : col) : pyres (R * R) :=
  match somes l with [] => PErr | x :: t => POk (fold_right Rmin x t, fold_right Rmax x t) end.
Definition limits (frac : R) (l : col) : pyres (R * R) :=
  pybind (span l) (fun mm => let '(lo, hi) := mm in let r := hi - lo in POk (lo - r * frac, hi + r * frac)).

(* ------------------------------------------------------------ the spectra *)

(** util_plotTk.py:229-288 *)
Definition plot_I_vs_nu (freq I : col) (dI : option col) (freqHir : option col) (IMod : option col) : pyres axes :=
  let hir := match freqHir with Some h => h | None => freq end in
  pybind (draws [errorbar (s "Stokes I") (ghz freq) I None dI; plot_opt (s "I Model") (ghz hir) IMod]) (fun a =>
  pybind (limits (5 / 100) (ghz freq)) (fun xl => POk (mk_axes a xl None))).

(** util_plotTk.py:292-390 *)
Definition plot_PQU_vs_nu (freq Q U : col) (dQ dU freqHir Qmod Umod : option col) : pyres axes :=
  let hir := match freqHir with Some h => h | None => freq end in
  pybind (zip2 hypot Q U) (fun P =>
  pybind (opt2 (zip2 hypot) dQ dU) (fun dP =>
  pybind (draws [errorbar (s "Stokes Q") (ghz freq) Q None dQ; errorbar (s "Stokes U") (ghz freq) U None dU; errorbar (s "Intensity P") (ghz freq) P None dP;
                 plot_opt (s "Model Q") (ghz hir) Qmod; plot_opt (s "Model U") (ghz hir) Umod;
                 pybind (opt2 (zip2 hypot) Qmod Umod) (plot_opt (s "Model P") (ghz hir)); POk [HLine 0]]) (fun a =>
  pybind (limits (5 / 100) (ghz freq)) (fun xl => POk (mk_axes a xl None))))).

(** numpy.percentile of a column of samples, linear interpolation *)
Definition percentile (q : R) (l : list R) : R :=
  let v := rsort l in
  let h := q / 100 * INR (length l - 1) in
  let k := Z.to_nat (Rfloor h) in
  let g := h - IZR (Rfloor h) in
  nth k v 0 + g * (nth (S k) v (nth k v 0) - nth k v 0).
(** the samples of a posterior as rows of complex numbers over lambda^2: the
    random choice is made by the caller of the model. 16, 50, 84 per cent. *)
Definition column {A} (d : A) (rows : list (list A)) (j : nat) : list A := map (fun r => nth j r d) rows.
Definition bands (f : C -> R) (n : nat) (rows : list (list C)) (q : R) : col :=
  map (fun j => Some (percentile q (map f (column (RtoC 0) rows j)))) (seq 0 n).

(** float(nanmedian(x)); None has no median, and all masked is NaN *)
Definition med_err (d : option col) : pyres (option R) := match d with None => PErr | Some d => POk (median (somes d)) end.
(** util_plotTk.py:434-594. [samples]: the model at 1000 points of the posterior. *)
Definition plot_pqu_vs_lamsq (l2 q u : col) (p0 : option col) (dq du dp0 : option col) (l2Hir qMod uMod : option col) (samples : option (list (list C))) : pyres axes :=
  let hir := match l2Hir with Some h => h | None => l2 end in
  pybind (match p0 with Some p => POk p | None => zip2 hypot q u end) (fun p =>
  pybind (match dp0 with Some d => POk (Some d) | None => opt2 (zip2 hypot) dq du end) (fun dp =>
  pybind (draws [errorbar (s "Stokes q") l2 q None dq; errorbar (s "Stokes u") l2 u None du; errorbar (s "Intensity p") l2 p None dp;
                 plot_opt (s "Model q") hir qMod; plot_opt (s "Model u") hir uMod; pybind (opt2 (zip2 hypot) qMod uMod) (plot_opt (s "Model p") hir);
                 match samples with
                 | None => POk []
                 | Some rows =>
                     let n := length hir in
                     draws [plot [] hir (bands Re n rows 50); band hir (bands Re n rows 16) (bands Re n rows 84);
                            plot [] hir (bands Im n rows 50); band hir (bands Im n rows 16) (bands Im n rows 84);
                            match qMod, uMod with Some _, Some _ => draws [plot [] hir (bands Cmod n rows 50); band hir (bands Cmod n rows 16) (bands Cmod n rows 84)] | _, _ => POk [] end]
                 end]) (fun a =>
  pybind (limits (5 / 100) l2) (fun xl =>
  pybind (span p) (fun sp => pybind (span q) (fun sq => pybind (span u) (fun su =>
  let yMax := Rmax (Rmax (snd sp) (snd sq)) (snd su) in
  let yMin := Rmin (Rmin (fst sp) (fst sq)) (fst su) in
  let yRange := yMax - yMin in
  pybind (med_err dp) (fun ep => pybind (med_err dq) (fun eq => pybind (med_err du) (fun eu =>
  match ep, eq, eu with
  | Some ep, Some eq, Some eu =>
      let medErr := Rmax (Rmax ep eq) eu in
      POk (mk_axes (a ++ [HLine 0])%list xl (Some (yMin - 2 * medErr - yRange * (5 / 100), yMax + 2 * medErr + yRange * (10 / 100))))
  | _, _, _ => PErr
  end)))))))))).

(** util_plotTk.py:627-638: angles in degrees *)
Definition psi_deg (u q : R) : R := degrees (arctan2 u q / 2).
Definition dpsi_deg (q u dq du : R) : option R :=
  let p := sqrt (q ^ 2 + u ^ 2) in
  if Req_EM_T (2 * p ^ 2) 0 then None else Some (degrees (sqrt ((q * du) ^ 2 + (u * dq) ^ 2) / (2 * p ^ 2))).
Fixpoint zip4 (q u dq du : col) : pyres col :=
  match q, u, dq, du with
  | [], [], [], [] => POk []
  | q0 :: q, u0 :: u, dq0 :: dq, du0 :: du =>
      pybind (zip4 q u dq du) (fun r => POk (match q0, u0, dq0, du0 with Some a, Some b, Some c, Some d => dpsi_deg a b c d | _, _, _, _ => None end :: r))
  | _, _, _, _ => PErr
  end.
(** util_plotTk.py:598-697 *)
Definition plot_psi_vs_lamsq (l2 q u : col) (dq du l2Hir qMod uMod : option col) (samples : option (list (list C))) : pyres axes :=
  let hir := match l2Hir with Some h => h | None => l2 end in
  pybind (zip2 (o2 psi_deg) u q) (fun psi =>
  pybind (match dq, du with Some dq, Some du => pybind (zip4 q u dq du) (fun r => POk (Some r)) | _, _ => POk None end) (fun dpsi =>
  pybind (draws [errorbar [] l2 psi None dpsi;
                 match qMod, uMod with Some qm, Some um => pybind (zip2 (o2 psi_deg) um qm) (plot (s "Model $\psi$") hir) | _, _ => POk [] end;
                 match samples with
                 | None => POk []
                 | Some rows => let n := length hir in let f z := psi_deg (Im z) (Re z) in draws [plot [] hir (bands f n rows 50); band hir (bands f n rows 16) (bands f n rows 84)]
                 end; POk [HLine 0]]) (fun a =>
  pybind (limits (5 / 100) l2) (fun xl => POk (mk_axes a xl (Some (- (999 / 10), 999 / 10))))))).

(** util_plotTk.py:701-780; the colours are the frequencies. The limits are those
    before axis("equal"). Returns the axis and the colours. *)
Definition freq_of (l2 : R) : option R := if Rlt_dec 0 l2 then Some (299792458 / sqrt l2) else None.
Definition plot_q_vs_u (l2 q u : col) (dq du qMod uMod : option col) (samples : option (list (list C))) : pyres (axes * col) :=
  pybind (draws [errorbar [] q u dq du; match qMod, uMod with Some qm, Some um => plot (s "Model q & u") qm um | _, _ => POk [] end;
                 POk (match samples with Some rows => map (fun r => Line [] (map (fun z => Some (Re z)) r) (map (fun z => Some (Im z)) r)) rows | None => [] end);
                 POk [HLine 0; VLine (Some 0)]]) (fun a =>
  if same_len l2 (Some q) then
    pybind (limits (5 / 100) q) (fun xl => pybind (limits (5 / 100) u) (fun yl =>
    POk (mk_axes a xl (Some yl), map (fun x => match x with Some x => freq_of x | None => None end) l2)))
  else PErr).

(** util_plotTk.py:1613-1712: the four axes. [l2_of] of every frequency. *)
Definition lamsq (f : option R) : option R := match f with Some f => if Req_EM_T f 0 then None else Some ((299792458 / f) ^ 2) | None => None end.
Definition plot_Ipqu (freq I q u : col) (dI dq du freqHir IMod qMod uMod : option col) (samples : option (list (list C))) : pyres (axes * axes * axes * (axes * col)) :=
  let hir := match freqHir with Some h => h | None => freq end in
  let l2 := map lamsq freq in
  let l2Hir := Some (map lamsq hir) in
  pybind (plot_I_vs_nu freq I dI (Some hir) IMod) (fun a1 =>
  pybind (plot_pqu_vs_lamsq l2 q u None dq du None l2Hir qMod uMod samples) (fun a2 =>
  pybind (plot_psi_vs_lamsq l2 q u dq du l2Hir qMod uMod samples) (fun a3 =>
  pybind (plot_q_vs_u l2 q u dq du qMod uMod samples) (fun a4 => POk (a1, a2, a3, a4))))).

(* --------------------------------------------------- depth spectra and RMSF *)

Definition oRe (z : option C) : option R := option_map Re z.
Definition oIm (z : option C) : option R := option_map Im z.
Definition oMod (z : option C) : option R := option_map Cmod z.
(** util_plotTk.py:846-858 is [gauss_curve] of C86 *)
Definition gauss_at (a b w : R) (x : option R) : option R := match x with Some x => gauss_curve a b w x | None => None end.
(** util_plotTk.py:794-842 *)
Definition plot_RMSF (phi : col) (RMSF : list (option C)) (fwhm : option R) : pyres axes :=
  pybind (draws [step (s "Real") phi (map oRe RMSF); step (s "Imaginary") phi (map oIm RMSF); step (s "PI") phi (map oMod RMSF); POk [HLine 0];
                 match fwhm with Some w => plot (s "Gaussian") phi (map (gauss_at 1 0 w) phi) | None => POk [] end; POk [HLine 0]]) (fun a =>
  pybind (limits (1 / 100) phi) (fun xl => POk (mk_axes a xl None))).
(** util_plotTk.py:893-901, 991-999: only a part of the curve *)
Definition trunk (mean fwhm : R) (x : option R) : option R :=
  match x with Some x => if Rle_dec (mean - fwhm / 3) x then (if Rle_dec x (mean + fwhm / 3) then Some x else None) else None | None => None end.
Definition peak_fit (phi : col) (g : list R) : pyres (list artist) :=
  match g with [a; b; w] => plot (s "Peak Fit") phi (map (fun x => gauss_at a b w (trunk b w x)) phi) | _ => POk [] end.
(** util_plotTk.py:862-930; [vLine]: nothing, or a number (NaN included) *)
Definition truthy (x : option R) : bool := match x with Some x => if Req_EM_T x 0 then false else true | None => true end.
Definition plot_dirtyFDF (phi : col) (FDF : list (option C)) (g : list R) (vLine : option (option R)) : pyres axes :=
  pybind (draws [step (s "Real") phi (map oRe FDF); step (s "Imaginary") phi (map oIm FDF); step (s "PI") phi (map (fun z => hypot (oRe z) (oIm z)) FDF);
                 peak_fit phi g; POk (match vLine with Some v => if truthy v then [VLine v] else [] | None => [] end); POk [HLine 0]]) (fun a =>
  pybind (limits (1 / 100) phi) (fun xl => POk (mk_axes a xl None))).
(** util_plotTk.py:934-1028; ccFDFArr is real *)
Definition plot_cleanFDF (phi : col) (clean : option (list (option C))) (cc : option col) (dirty : option (list (option C))) (g : list R) (cutoff : option R) (showComplex : bool) : pyres axes :=
  pybind (draws [match dirty with Some d => step (s "Dirty") phi (map (fun z => hypot (oRe z) (oIm z)) d) | None => POk [] end;
                 match clean with
                 | Some z => draws [step (s "PI") phi (map oMod z); if showComplex then draws [step (s "Real") phi (map oRe z); step (s "Imaginary") phi (map oIm z)] else POk []]
                 | None => POk [] end;
                 match cc with Some c => step (s "CC") phi c | None => POk [] end;
                 peak_fit phi g; POk (match cutoff with Some c => [HLine c] | None => [] end); POk [HLine 0]]) (fun a =>
  pybind (limits (1 / 100) phi) (fun xl => POk (mk_axes a xl None))).
(** util_plotTk.py:1842-1883 *)
Definition plot_rmsf_fdf (phi : col) (FDF : list (option C)) (phi2 : col) (RMSF : list (option C)) (fwhm : option R) (g : list R) (vLine : option (option R)) : pyres (axes * axes) :=
  pybind (plot_RMSF phi2 RMSF fwhm) (fun a1 => pybind (plot_dirtyFDF phi FDF g vLine) (fun a2 => POk (a1, a2))).
(** util_plotTk.py:1982-2027 *)
Definition plot_cleanFDF_fig (phi : col) (clean : list (option C)) (cc : option col) (dirty resid : option (list (option C))) (g : list R) (cutoff : option R) (showComplex : bool) : pyres (axes * axes) :=
  pybind (plot_cleanFDF phi (Some clean) cc dirty g cutoff false) (fun a1 => pybind (plot_cleanFDF phi (Some clean) cc resid g cutoff false) (fun a2 => POk (a1, a2))).

(* -------------------------------------------------------------- complexity *)

(** util_RM.py:1114-1125 without xArr, N > 1; [cdf mean std] is scipy's *)
Definition norm_cdf (cdf : R -> R -> R -> R) (mean std : R) (n : nat) : list (R * R) :=
  map (fun i => let x := - (6) * std + INR i * ((6 * std - - (6) * std) / INR (n - 1)) in (x, cdf mean std x)) (seq 0 n).
(** util_plotTk.py:2334-2340: the steps of the sample distribution *)
Definition ecdf (l : list R) : list (R * R) := combine (rsort l) (map (fun i => INR i / INR (length l)) (seq 0 (length l))).
(** util_plotTk.py:2301-2304: the normal distribution drawn over the histogram *)
Definition normal_curve (med noise x : R) : R := 1 / sqrt (2 * PI * noise ^ 2) * exp (- (1 / 2) * ((x - med) / noise) ^ 2).
(** util_plotTk.py:2350-2355: the curves of chi^2 *)
Definition chi_curves (sigq chiq sigu chiu : list R) : pyres (list (R * R) * list (R * R)) :=
  if (length sigq =? length chiq)%nat && (length sigq =? length chiu)%nat then POk (combine sigq chiq, combine sigq chiu) else PErr.
(** util_plotTk.py:2409-2413 *)
Definition cpdf (sig prob : list R) : list (R * R) := combine sig (map (fun c => c / rsum prob) (cumsum 0 prob)).
(** util_plotTk.py:2446-2459: zoom. (value, error up, error down) of Q and of U *)
Definition zoom (q u : R * R * R) : R * R :=
  let '(sq, pq, mq) := q in let '(su, pu, mu) := u in
  (Rmax 0 (Rmin (sq - mq * 4) (su - mu * 4)), Rmax (sq + pq * 4) (su + pu * 4)).

(* --------------------------------------------------------- browser of spectra *)

(** util_plotTk.py:1721-1724, 1773-1776 [plotPolsummary], [plotPolresidual]: q and its
    error of a channel (Q, rms of Q, I, rms of I, model of I); the same for u.
    A division by zero is an infinity or a NaN. *)
Definition pol_q (x : R * R * R * R * R) : option R :=
  let '(Q, rQ, I0, rI, m) := x in if Req_EM_T m 0 then None else Some (Q / m).
Definition pol_dq (x : R * R * R * R * R) : option R :=
  let '(Q, rQ, I0, rI, m) := x in
  match pol_q x with
  | Some q => if Req_EM_T Q 0 then None else if Req_EM_T I0 0 then None else Some (q * sqrt ((rQ / Q) ^ 2 + (rI / I0) ^ 2))
  | None => None
  end.
Definition plotPolsummary (freq I : col) (dI : option col) (q u : list (R * R * R * R * R)) (freqHir IMod qMod uMod : option col) : pyres (axes * axes * axes * (axes * col)) :=
  plot_Ipqu freq I (map pol_q q) (map pol_q u) dI (Some (map pol_dq q)) (Some (map pol_dq u)) freqHir IMod qMod uMod None.
