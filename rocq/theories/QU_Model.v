(** QU-fitting models (RMtools_1D/models_ns/m*.py), the likelihood and the
    post-processing of RMtools_1D/do_QUfit_1D_mnest.py, and the simulated spectra
    of RMutils/util_misc.py:1166-1356. Model only.

    A value that is not finite (NaN, inf) is [None]. *)
From Coq Require Import Reals List Arith ZArith Bool String.
Set Warnings "-ambiguous-paths".
From Coquelicot Require Import Coquelicot.
From Verif Require Import CBase PyRes PyList PyStr CleanTop_Model Measure_Model.
Import ListNotations.
Local Open Scope R_scope.

(** ** Dictionaries *)
Definition pdict := list (str * R).
(** d[k]; KeyError if absent. Later entries win, as in a dict comprehension. *)
Fixpoint pget (d : pdict) (k : str) : pyres R :=
  match d with
  | [] => PErr
  | (k', v) :: t => match pget t k with POk x => POk x | PErr => if str_eqb k' k then POk v else PErr end
  end.
(** {**d, k: v} *)
Definition pset (d : pdict) (k : str) (v : R) : pdict := d ++ [(k, v)].

(** ** Complex arithmetic *)
Definition cexp (z : C) : C := (RtoC (exp (fst z)) * cis (snd z))%C.
(** complex / real and complex / complex; NaN for a zero divisor *)
Definition cdivr (a : C) (b : R) : option C := if Req_EM_T b 0 then None else Some (a / RtoC b)%C.
Definition cdiv (a b : C) : option C := if Ceq_dec b (RtoC 0) then None else Some (a / b)%C.
Definition ocadd (a b : option C) : option C := match a, b with Some x, Some y => Some (x + y)%C | _, _ => None end.

(** exp(2j * x) *)
Definition e2j (x : R) : C := cis (2 * x).

(** ** The models *)
Definition spectrum := pyres (list (option C)).
Notation "'get' x := d [ k ] ; e" := (pybind (pget d (s k)) (fun x => e)) (at level 60, x name, d at level 0, k at level 0, e at level 60).

(** m1.py:15-35 *)
Definition m1 (d : pdict) (l2 : list R) : spectrum :=
  get p := d["fracPol"%string]; get psi := d["psi0_deg"%string]; get RM := d["RM_radm2"%string];
  POk (map (fun l => Some (RtoC p * e2j (radians psi + RM * l))%C) l2).

(** m2.py:15-38 *)
Definition m2 (d : pdict) (l2 : list R) : spectrum :=
  get p := d["fracPol"%string]; get psi := d["psi0_deg"%string]; get RM := d["RM_radm2"%string]; get sig := d["sigmaRM_radm2"%string];
  POk (map (fun l => Some (RtoC p * e2j (radians psi + RM * l) * RtoC (exp (-2 * sig ^ 2 * l ^ 2)))%C) l2).

(** m11.py:16-42 *)
Definition m11 (d : pdict) (l2 : list R) : spectrum :=
  get p1 := d["fracPol1"%string]; get p2 := d["fracPol2"%string];
  get psi1 := d["psi01_deg"%string]; get RM1 := d["RM1_radm2"%string];
  get psi2 := d["psi02_deg"%string]; get RM2 := d["RM2_radm2"%string];
  POk (map (fun l => Some (RtoC p1 * e2j (radians psi1 + RM1 * l) + RtoC p2 * e2j (radians psi2 + RM2 * l))%C) l2).

(** m111.py:16-43 *)
Definition m111 (d : pdict) (l2 : list R) : spectrum :=
  get p1 := d["fracPol1"%string]; get p2 := d["fracPol2"%string]; get p3 := d["fracPol3"%string];
  get psi1 := d["psi01_deg"%string]; get RM1 := d["RM1_radm2"%string];
  get psi2 := d["psi02_deg"%string]; get RM2 := d["RM2_radm2"%string];
  get psi3 := d["psi03_deg"%string]; get RM3 := d["RM3_radm2"%string];
  POk (map (fun l => Some (RtoC p1 * e2j (radians psi1 + RM1 * l) + RtoC p2 * e2j (radians psi2 + RM2 * l)
                           + RtoC p3 * e2j (radians psi3 + RM3 * l))%C) l2).

(** m3.py:16-45 *)
Definition m3 (d : pdict) (l2 : list R) : spectrum :=
  get p1 := d["fracPol1"%string]; get p2 := d["fracPol2"%string];
  get psi1 := d["psi01_deg"%string]; get RM1 := d["RM1_radm2"%string];
  get psi2 := d["psi02_deg"%string]; get RM2 := d["RM2_radm2"%string]; get sig := d["sigmaRM_radm2"%string];
  POk (map (fun l => Some ((RtoC p1 * e2j (radians psi1 + RM1 * l) + RtoC p2 * e2j (radians psi2 + RM2 * l))
                           * RtoC (exp (-2 * sig ^ 2 * l ^ 2)))%C) l2).

(** m4.py:16-45 *)
Definition m4 (d : pdict) (l2 : list R) : spectrum :=
  get p1 := d["fracPol1"%string]; get p2 := d["fracPol2"%string];
  get psi1 := d["psi01_deg"%string]; get RM1 := d["RM1_radm2"%string];
  get psi2 := d["psi02_deg"%string]; get RM2 := d["RM2_radm2"%string];
  get sig1 := d["sigmaRM1_radm2"%string]; get sig2 := d["sigmaRM2_radm2"%string];
  POk (map (fun l => Some (RtoC p1 * e2j (radians psi1 + RM1 * l) * RtoC (exp (-2 * sig1 ^ 2 * l ^ 2))
                           + RtoC p2 * e2j (radians psi2 + RM2 * l) * RtoC (exp (-2 * sig2 ^ 2 * l ^ 2)))%C) l2).

(** m5.py:15-39 *)
Definition m5 (d : pdict) (l2 : list R) : spectrum :=
  get p := d["fracPol"%string]; get psi := d["psi0_deg"%string]; get dRM := d["deltaRM_radm2"%string]; get RM := d["RM_radm2"%string];
  POk (map (fun l => cdivr (RtoC p * e2j (radians psi + (/ 2 * dRM + RM) * l) * RtoC (sin (dRM * l)))%C (dRM * l)) l2).

(** m6.py:16-48 *)
Definition m6 (d : pdict) (l2 : list R) : spectrum :=
  get p1 := d["fracPol1"%string]; get p2 := d["fracPol2"%string];
  get psi1 := d["psi01_deg"%string]; get dRM1 := d["deltaRM1_radm2"%string]; get RM1 := d["RM1_radm2"%string];
  get psi2 := d["psi02_deg"%string]; get dRM2 := d["deltaRM2_radm2"%string]; get RM2 := d["RM2_radm2"%string];
  POk (map (fun l => ocadd
    (cdivr (RtoC p1 * e2j (radians psi1 + (/ 2 * dRM1 + RM1) * l) * RtoC (sin (dRM1 * l)))%C (dRM1 * l))
    (cdivr (RtoC p2 * e2j (radians psi2 + (/ 2 * dRM2 + RM2) * l) * RtoC (sin (dRM2 * l)))%C (dRM2 * l))) l2).

(** m7.py:15-39 *)
Definition m7 (d : pdict) (l2 : list R) : spectrum :=
  get p := d["fracPol"%string]; get sig := d["sigmaRM_radm2"%string]; get dRM := d["deltaRM_radm2"%string];
  get psi := d["psi0_deg"%string]; get RM := d["RM_radm2"%string];
  POk (map (fun l => let S := (2 * l ^ 2 * sig ^ 2, - (2 * l * dRM)) : C in
    cdiv (RtoC p * e2j (radians psi + RM * l) * (RtoC 1 - cexp (- S)))%C S) l2).

(** m12.py:14-41 *)
Definition m12 (d : pdict) (l2 : list R) : spectrum :=
  get p := d["fracPol"%string]; get sig := d["sigmaRM_radm2"%string]; get dRM := d["deltaRM_radm2"%string];
  get psi := d["psi0_deg"%string]; get RM := d["RM_screen"%string]; get sigF := d["sigmaRM_radm2_FG"%string];
  POk (map (fun l => let S := (2 * l ^ 2 * sig ^ 2, - (2 * l * dRM)) : C in
    match cdiv (RtoC 1 - cexp (- S))%C S with
    | None => None
    | Some q => Some (RtoC p * e2j (radians psi + RM * l) * q * RtoC (exp (-2 * sigF ^ 2 * l ^ 2)))%C
    end) l2).

(** ** Priors: key, class, minimum, maximum, boundary *)
Record prior := mk_prior { pr_key : str; pr_constraint : bool; pr_min : R; pr_max : R; pr_periodic : bool }.
Definition uni (k : string) (a b : R) := mk_prior (s k) false a b false.
Definition ang (k : string) := mk_prior (s k) false 0 180 true.
Definition con (k : string) (a b : R) := mk_prior (s k) true a b false.
Local Open Scope string_scope.
(** m1.py:43-60, m2.py:46-69, m5.py:47-70, m7.py:47-76, m12.py:49-85 *)
Definition priors1 := [uni "fracPol" 0 1; ang "psi0_deg"; uni "RM_radm2" (-1100) 1100].
Definition priors2 := (priors1 ++ [uni "sigmaRM_radm2" 0 100])%list.
Definition priors5 := (priors1 ++ [uni "deltaRM_radm2" 0 100])%list.
Definition priors7 := (priors1 ++ [uni "deltaRM_radm2" 0 100; uni "sigmaRM_radm2" 0 100])%list.
Definition priors12 := [uni "fracPol" 0 (6 / 10); ang "psi0_deg"; uni "deltaRM_radm2" 0 60; uni "sigmaRM_radm2" 0 50;
  uni "sigmaRM_radm2_FG" 0 50; uni "RM_screen" (-1100) 1100].
(** m11.py:72-126, m3.py:74-136, m4.py:75-145, m6.py:78-143, m111.py:78-156 *)
Definition pair_priors := [uni "fracPol1" 0 1; uni "fracPol2" 0 1; ang "psi01_deg"; ang "psi02_deg";
  uni "RM1_radm2" (-1100) 1100; uni "RM2_radm2" (-1100) 1100].
Definition pair_constraints := [con "delta_RM1_RM2_radm2" 0 2200; con "sum_p1_p2" 0 1].
Definition priors11 := (pair_priors ++ pair_constraints)%list.
Definition priors3 := (pair_priors ++ [uni "sigmaRM_radm2" 0 100] ++ pair_constraints)%list.
Definition priors4 := (pair_priors ++ [uni "sigmaRM1_radm2" 0 100; uni "sigmaRM2_radm2" 0 100] ++ pair_constraints)%list.
Definition priors6 := (pair_priors ++ [uni "deltaRM1_radm2" 0 100; uni "deltaRM2_radm2" 0 100] ++ pair_constraints)%list.
Definition priors111 := [uni "fracPol1" 0 1; uni "fracPol2" 0 1; uni "fracPol3" 0 1; ang "psi01_deg"; ang "psi02_deg"; ang "psi03_deg";
  uni "RM1_radm2" (-1100) 1100; uni "RM2_radm2" (-1100) 1100; uni "RM3_radm2" (-1100) 1100;
  con "delta_RM1_RM2_radm2" 0 2200; con "delta_RM2_RM3_radm2" 0 2200; con "sum_p1_p2_p3" 0 1].

(** m11.py:50-69 (the same in m3, m4, m6), m111.py:51-75 [converter] *)
Definition converter2 (d : pdict) : pyres pdict :=
  get r1 := d["RM1_radm2"]; get r2 := d["RM2_radm2"]; get p1 := d["fracPol1"]; get p2 := d["fracPol2"];
  POk (d ++ [(s "delta_RM1_RM2_radm2", r1 - r2); (s "sum_p1_p2", p1 + p2)])%list.
Definition converter3 (d : pdict) : pyres pdict :=
  get r1 := d["RM1_radm2"]; get r2 := d["RM2_radm2"]; get r3 := d["RM3_radm2"];
  get p1 := d["fracPol1"]; get p2 := d["fracPol2"]; get p3 := d["fracPol3"];
  POk (d ++ [(s "delta_RM1_RM2_radm2", r1 - r2); (s "delta_RM2_RM3_radm2", r2 - r3); (s "sum_p1_p2_p3", p1 + p2 + p3)])%list.
Local Close Scope string_scope.

(** ** Likelihood *)

(** One squared residual ((a - m) / e)^2 that may be NaN ([Some None]) or infinite ([None]) *)
Definition resid2 (a m e : option R) : option (option R) :=
  match a, m, e with
  | Some a, Some m, Some e =>
      if Req_EM_T e 0 then (if Req_EM_T (a - m) 0 then Some None else None) else Some (Some (((a - m) / e) ^ 2))
  | _, _, _ => Some None
  end.
(** numpy.nansum: NaN terms count as zero, an infinite one makes the sum infinite ([None]) *)
Fixpoint nansum (l : list (option (option R))) : option R :=
  match l with
  | [] => Some 0
  | None :: _ => None
  | Some x :: t => match nansum t with None => None | Some y => Some (match x with Some x => x + y | None => y end) end
  end.
Definition re_of (z : option C) : option R := option_map fst z.
Definition im_of (z : option C) : option R := option_map snd z.
Definition zip3 {A B D} (a : list A) (b : list B) (c : list D) : list (A * B * D) := combine (combine a b) c.
Definition chi2_terms (d : list (option R)) (m e : list (option R)) : list (option (option R)) :=
  map (fun x => resid2 (fst (fst x)) (snd (fst x)) (snd x)) (zip3 d m e).

(** do_QUfit_1D_mnest.py:617-633 [log_likelihood]. log(0) is -inf: the
    likelihood is then infinite, [None] *)
Definition log_likelihood (model : pdict -> list R -> spectrum) (d : pdict) (l2 : list R) (q dq u du : list (option R)) : pyres (option R) :=
  pybind (model d l2) (fun quMod =>
  let dqu := map (fun ab => match ab with (Some a, Some b) => Some (sqrt (a ^ 2 + b ^ 2)) | _ => None end) (combine dq du) in
  let chiSqQ := nansum (chi2_terms q (map re_of quMod) dq) in
  let chiSqU := nansum (chi2_terms u (map im_of quMod) du) in
  let logs := nansum (map (fun x => match x with
                                    | None => Some None
                                    | Some x => if Req_EM_T x 0 then None else Some (Some (ln x)) end) dqu) in
  POk (match logs, chiSqQ, chiSqU with
       | Some L, Some cq, Some cu => Some (- INR (List.length dqu) * ln (2 * PI) - 2 * L - cq / 2 - cu / 2)
       | _, _, _ => None
       end)).

(** 637-648 [chisq_model]: the two residuals are added before nansum *)
Definition chisq_model (model : pdict -> list R -> spectrum) (d : pdict) (l2 : list R) (q dq u du : list (option R)) : pyres (option R) :=
  pybind (model d l2) (fun quMod =>
  POk (nansum (map (fun ab => match ab with
                              | (Some (Some x), Some (Some y)) => Some (Some (x + y))
                              | (Some None, _) | (_, Some None) => Some None
                              | _ => None end)
                   (combine (chi2_terms q (map re_of quMod) dq) (chi2_terms u (map im_of quMod) du))))).

(** ** Post-processing of the samples *)

(** numpy.percentile, linear interpolation (bilby: get_one_dimensional_median_and_error_bar
    uses the quantiles 0.16, 0.5, 0.84) *)
Definition quantile (f : R) (v : list R) : R :=
  let w := rsort v in let h := f * INR (List.length v - 1) in let k := Z.to_nat (Rfloor h) in
  nth k w 0 + (h - INR k) * (nth (S k) w 0 - nth k w 0).

(** a sampled parameter: name, bounds, wrap and its column of samples *)
Record param := mk_param { pa_name : str; pa_lo : R; pa_hi : R; pa_wrap : option str; pa_delta : bool; pa_col : list R }.

(** 404-424: the condition, and the samples after the rotation *)
Definition to_rotate (a : param) : bool :=
  (str_eqb (skipn (List.length (pa_name a) - 3) (pa_name a)) (s "deg") && (if Req_EM_T (pa_lo a) 0 then true else false) &&
   (if Req_EM_T (pa_hi a) 180 then true else false) &&
   match pa_wrap a with Some w => str_eqb w (s "periodic") | None => false end &&
   (let m := quantile (/ 2) (pa_col a) in Rltb m 45 || Rleb 135 m))%bool.
Definition rotate90 (x : R) : R := let y := x + 90 in y - (if Rleb 180 y then 1 else 0) * 180.
Definition rotated_names (l : list param) : list str := map pa_name (filter to_rotate l).
Definition posterior (l : list param) (a : param) : list R :=
  if to_rotate a then map rotate90 (pa_col a) else pa_col a.
Definition in_names (k : str) (l : list str) : bool := existsb (str_eqb k) l.

(** 434-451: value, plus and minus errors *)
Definition summary (l : list param) (a : param) : R * R * R :=
  let post := posterior l a in
  let rot := if in_names (pa_name a) (rotated_names l) then 1 else 0 in
  let m := quantile (/ 2) post - 90 * rot in
  let m := m + 180 * (if Rltb m 0 then 1 else 0) * rot in
  (m, quantile (84 / 100) post - quantile (/ 2) post, quantile (/ 2) post - quantile (16 / 100) post).

Record qufit := mk_qufit { q_values : list R; q_plus : list R; q_minus : list R; q_dof : R; q_chiSq : option R; q_chiSqRed : option R;
  q_AIC : R; q_AICc : option R; q_BIC : R }.

(** 404-460; [lnLike] is the largest log-likelihood of the run *)
Definition postprocess (model : pdict -> list R -> spectrum) (l : list param) (lnLike : R) (l2 : list R) (q dq u du : list (option R)) : pyres qufit :=
  let sm := map (summary l) l in
  let p := map (fun x => fst (fst x)) sm in
  let nFree := INR (List.length (filter (fun a => negb (pa_delta a)) l)) in
  let nData := 2 * INR (List.length l2) in
  let dof := nData - nFree - 1 in
  pybind (chisq_model model (combine (map pa_name l) p) l2 q dq u du) (fun chi =>
  POk (mk_qufit p (map (fun x => snd (fst x)) sm) (map snd sm) dof chi
        (match chi with Some c => odiv (Some c) (Some dof) | None => None end)
        (2 * nFree - 2 * lnLike)
        (match odiv (Some (2 * nFree * (nFree + 1))) (Some (nData - nFree - 1)) with Some x => Some (x - 2 * lnLike) | None => None end)
        (nFree * ln nData - 2 * lnLike))).

(** 652-672 [wrap_chains]: wraps are the values of [prior.boundary] or integer
    flags; everything that is not equal to 0 counts *)
Inductive wrapflag := WInt (n : Z) | WNone | WStr (x : str).
Definition wraps_it (w : wrapflag) : bool := match w with WInt n => negb (Z.eqb n 0) | _ => true end.
Definition wrap_col (lo hi p : R) (col : list R) : list R :=
  let rng := hi - lo in
  let wrapCent := lo + (hi - lo) / 2 in
  let wrapLow := lo + (p - wrapCent) in
  map (fun x => fmod (x - wrapLow) rng + wrapLow) col.
Definition wrap_chains (cols : list (list R)) (wraps : list wrapflag) (bounds : list (R * R)) (p : list R) : list (list R) :=
  map (fun i => let col := nth i cols [] in
    if wraps_it (nth i wraps (WInt 0)) then wrap_col (fst (nth i bounds (0, 0))) (snd (nth i bounds (0, 0))) (nth i p 0) col else col)
    (seq 0 (List.length cols)).

(** ** Simulated spectra: util_misc.py:1166-1356 *)

(** c / f, None for a flagged (NaN) or zero frequency *)
Definition lam_m (f : option R) : option R := odiv (Some c_light) f.
Definition cabs_o (z : option C) : option R := option_map Cmod z.
Definition pqu := (list (option R) * list (option R) * list (option R))%type.
Definition split_pqu (l : list (option C)) : pqu := (map cabs_o l, map re_of l, map im_of l).

(** 1166-1211 [create_pqu_spectra_burn]; reshape raises when sizes differ *)
Definition create_pqu_spectra_burn (freq : list (option R)) (fracPol psi0 RM : list R) (sigma : option (list R)) : pyres pqu :=
  let sig := match sigma with None => repeat 0 (List.length fracPol) | Some x => x end in
  let n := List.length fracPol in
  if negb (Nat.eqb (List.length psi0) n && Nat.eqb (List.length RM) n && Nat.eqb (List.length sig) n)%bool then PErr
  else POk (split_pqu (map (fun f => match lam_m f with
    | None => None
    | Some lam => Some (csum (map (fun k =>
        (RtoC (nth k fracPol 0) * (e2j (radians (nth k psi0 0) + nth k RM 0 * lam ^ 2)
                                   * RtoC (exp (-2 * nth k sig 0 * lam ^ 4))))%C) (seq 0 n)))
    end) freq)).

(** sin(x)/x *)
Definition sinc1 (x : R) : R := if Req_EM_T x 0 then 1 else sin x / x.

(** 1247-1283 [create_pqu_spectra_diff]; the loop of 1271-1273 halves entry i
    before it sums from i on. [psi_arr]: psi0Arr_deg is a numpy array (a list
    has no reshape: AttributeError). *)
Definition diff_step (psi : list R) (st : list R * list C) (i : nat) : list R * list C :=
  let '(rm, p) := st in
  let rm := upd rm i (fun x => x * / 2) in
  (rm, upd p i (fun z => z * e2j (nth i psi 0 + rsum (skipn i rm)))%C).
Definition create_pqu_spectra_diff (psi_arr : bool) (freq : list (option R)) (fracPol psi0 RM : list R) : pyres pqu :=
  let n := List.length fracPol in
  if negb psi_arr then PErr
  else if negb (Nat.eqb (List.length psi0) n && Nat.eqb (List.length RM) n)%bool then PErr
  else POk (split_pqu (map (fun f => match lam_m f with
    | None => None
    | Some lam =>
        let rm := map (fun r => r * lam ^ 2) RM in
        let p := map (fun k => RtoC (nth k fracPol 0 * sinc1 (nth k rm 0))) (seq 0 n) in
        Some (csum (snd (fold_left (diff_step (map radians psi0)) (seq 0 n) (rm, p))))
    end) freq)).

(** 1315-1323 [create_pqu_spectra_RMthin]; pArr is not blanked in a flagged
    channel's place because ones_like copies no values *)
Definition create_pqu_spectra_RMthin (freq : list (option R)) (fracPol psi0 RM : R) : pqu :=
  let qu := map (fun f => option_map (fun lam => (RtoC fracPol * e2j (radians psi0 + RM * lam ^ 2))%C) (lam_m f)) freq in
  (map (fun _ => Some fracPol) freq, map re_of qu, map im_of qu).

(** fluxI * (f / f0)^SI, for a positive ratio (NaN or infinite otherwise) *)
Definition flux_at (fluxI SI : R) (f0 f : option R) : option R :=
  match odiv f f0 with Some x => if Rlt_dec 0 x then Some (fluxI * Rpower x SI) else None | None => None end.
(** 1226-1243, 1294-1308, 1331-1340: scale by the flux; freq0 defaults to the first channel *)
Definition scale_IQU (freq : list (option R)) (fluxI SI : R) (freq0 : option R) (x : pqu) : pyres (list (option R) * list (option R) * list (option R)) :=
  match (match freq0 with Some f => POk (Some f) | None => match freq with [] => PErr | f :: _ => POk f end end) with
  | PErr => PErr
  | POk f0 => let I := map (flux_at fluxI SI f0) freq in
              POk (I, map (fun ab => omul (fst ab) (snd ab)) (combine I (snd (fst x))), map (fun ab => omul (fst ab) (snd ab)) (combine I (snd x)))
  end.
Definition create_IQU_spectra_burn freq fluxI SI fracPol psi0 RM sigma freq0 :=
  pybind (create_pqu_spectra_burn freq fracPol psi0 RM sigma) (scale_IQU freq fluxI SI freq0).
Definition create_IQU_spectra_diff psi_arr freq fluxI SI fracPol psi0 RM freq0 :=
  pybind (create_pqu_spectra_diff psi_arr freq fracPol psi0 RM) (scale_IQU freq fluxI SI freq0).
Definition create_IQU_spectra_RMthin freq fluxI SI fracPol psi0 RM freq0 :=
  scale_IQU freq fluxI SI freq0 (create_pqu_spectra_RMthin freq fracPol psi0 RM).

(** 1344-1356 [create_pqu_resid_RMthin] *)
Definition create_pqu_resid_RMthin (q u : list (option R)) (freq : list (option R)) (fracPol psi0 RM : R) : pqu :=
  let '(_, qm, um) := create_pqu_spectra_RMthin freq fracPol psi0 RM in
  let qr := map (fun ab => osub (fst ab) (snd ab)) (combine q qm) in
  let ur := map (fun ab => osub (fst ab) (snd ab)) (combine u um) in
  (map (fun ab => match ab with (Some a, Some b) => Some (sqrt (a ^ 2 + b ^ 2)) | _ => None end) (combine qr ur), qr, ur).
