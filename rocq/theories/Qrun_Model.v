(** RMtools_1D/do_QUfit_1D_mnest.py: run_qufit around its sampler. Likelihood,
    chi-squared and quantiles are in QU_Model. *)
From Coq Require Import Reals List Arith ZArith Bool String Ascii.
Set Warnings "-ambiguous-paths".
From Coquelicot Require Import Coquelicot.
From Verif Require Import CBase PyRes PyList PyStr Synth_Model StokesI_Model Run1D_Model QU_Model.
From Verif Require Measure_Model.
From Verif Require Import CleanTop_Model.
Import ListNotations.
Local Open Scope R_scope.

(** A prior as 370-377 look at it: class name, limits, boundary. A
    DeltaFunction has both limits at its value. *)
Inductive kclass := KConstraint | KDelta | KOther.
Record kprior := mk_k { k_key : str; k_class : kclass; k_min : R; k_max : R; k_bound : option str }.
Definition is_constraint (k : kprior) : bool := match k_class k with KConstraint => true | _ => false end.
Definition is_delta (k : kprior) : bool := match k_class k with KDelta => true | _ => false end.

(** A model file: the function and the priors, in the order of the dictionary. *)
Record modfile := mk_mod { f_model : pdict -> list R -> spectrum; f_priors : list kprior }.
Inductive lookup := Found (m : modfile) | Missing | Broken.

(** 200-227 [load_model]: models_ns of the working directory, then that of the
    installation. Only FileNotFoundError leads from the first to the second;
    anything going wrong in the second ends the program. *)
Inductive loaded := Loaded (m : modfile) | LoadRaise | LoadExit.
Definition load_model (cwd installed : nat -> lookup) (num : nat) : loaded :=
  match cwd num with
  | Found m => Loaded m
  | Broken => LoadRaise
  | Missing => match installed num with Found m => Loaded m | _ => LoadExit end
  end.

(** What bilby.run_sampler returns: a column of samples for each prior that is
    neither a Constraint nor a DeltaFunction, in their order; the
    log-likelihoods of the run; the evidence and its error. *)
Record sres := mk_sres { s_cols : list (list R); s_lnl : list R; s_lnZ : R; s_dlnZ : R }.
Definition sampled (ks : list kprior) : list kprior := filter (fun k => negb (is_constraint k || is_delta k)) ks.
Definition index_of (key : str) (l : list str) : option nat := find (fun i => str_eqb key (nth i l [])) (seq 0 (List.length l)).

(** result.posterior[key]: the column of a sampled parameter, the value of a
    fixed one. bilby's samples_to_posterior is taken to carry the changes of
    the samples over and to leave the fixed parameters alone. *)
Definition post (ks : list kprior) (cols : list (list R)) (k : kprior) : list R :=
  match index_of (k_key k) (map k_key (sampled ks)) with
  | Some j => nth j cols []
  | None => [k_min k]
  end.
Definition as_param (k : kprior) (col : list R) : param := mk_param (k_key k) (k_min k) (k_max k) (k_bound k) (is_delta k) col.
Definition no_prior : kprior := mk_k [] KOther 0 0 None.

(** 407-422: samples[:, i] with i counted over all parameters, fixed ones
    included; IndexError beyond the last column. The decisions look at the
    posterior, which is not updated before 426. *)
Definition rotate_columns (ks names : list kprior) (cols : list (list R)) : pyres (list (list R)) :=
  fold_left (fun acc i => pybind acc (fun c =>
    let k := nth i names no_prior in
    if to_rotate (as_param k (post ks cols k))
    then (if Nat.ltb i (List.length c) then POk (upd c i (map rotate90)) else PErr)
    else POk c)) (seq 0 (List.length names)) (POk cols).
Definition rotated (ks names : list kprior) (cols : list (list R)) : list str :=
  map k_key (filter (fun k => to_rotate (as_param k (post ks cols k))) names).

(** 439-451: value, plus and minus errors *)
Definition reported (rot : bool) (col : list R) : R * R * R :=
  let r := if rot then 1 else 0 in
  let m := quantile (/ 2) col - 90 * r in
  let m := m + 180 * (if Rltb m 0 then 1 else 0) * r in
  (m, quantile (84 / 100) col - quantile (/ 2) col, quantile (/ 2) col - quantile (16 / 100) col).

(** 541-547: the columns of the corner plot *)
Definition corner_columns (names : list kprior) (rot : list str) (p : list R) (cols : list (list R)) : pyres (list (list R)) :=
  fold_left (fun acc i => pybind acc (fun c =>
    if in_names (k_key (nth i names no_prior)) rot
    then (if Nat.ltb i (List.length c)
          then POk (upd c i (map (fun x => if Rltb 135 (nth i p 0) then x - 90 + 180 else x - 90)))
          else PErr)
    else POk c)) (seq 0 (List.length names)) (POk cols).

Record qu_out := mk_qu { u_names : list str; u_classes : list kclass; u_bounds : list (R * R); u_fit : qufit; u_nFree : nat;
  u_lnZ : R; u_dlnZ : R; u_I : FitResult; u_corner : list (list R) }.

Inductive qu_end :=
| QuReturn                        (* 299: the data have neither seven nor five columns *)
| QuExit                          (* 226 *)
| QuRaise
| QuBlank                         (* no usable Stokes I: every fraction is NaN; not followed further *)
| QuDone (r : qu_out).

(** the sampler: [None] if it raises *)
Definition sampler_t := (pdict -> pyres (option R)) -> list kprior -> option sres.

(** 365-547; printing and figures left out *)
Definition fit_fractions (sampler : sampler_t) (m : modfile) (l2 : list R) (q u dq du : list (option R)) (fr : FitResult) : qu_end :=
  let ks := f_priors m in
  let names := filter (fun k => negb (is_constraint k)) ks in
  match sampler (fun d => log_likelihood (f_model m) d l2 q dq u du) ks with
  | None => QuRaise
  | Some s =>
    match rmax_list (s_lnl s), rotate_columns ks names (s_cols s) with
    | Some lnLike, POk cols =>
      let rot := rotated ks names (s_cols s) in
      let sm := map (fun k => reported (in_names (k_key k) rot) (post ks cols k)) names in
      let p := map (fun x => fst (fst x)) sm in
      let free := filter (fun k => negb (is_delta k)) names in
      let nFree := INR (List.length free) in
      let nData := 2 * INR (List.length l2) in
      let dof := nData - nFree - 1 in
      match chisq_model (f_model m) (combine (map k_key names) p) l2 q dq u du, corner_columns names rot p cols with
      | POk chi, POk corner =>
        QuDone (mk_qu (map k_key names) (map k_class names) (map (fun k => (k_min k, k_max k)) names)
          (mk_qufit p (map (fun x => snd (fst x)) sm) (map snd sm) dof chi
            (match chi with Some c => Measure_Model.odiv (Some c) (Some dof) | None => None end)
            (2 * nFree - 2 * lnLike)
            (match Measure_Model.odiv (Some (2 * nFree * (nFree + 1))) (Some (nData - nFree - 1)) with Some x => Some (x - 2 * lnLike) | None => None end)
            (nFree * ln nData - 2 * lnLike))
          (List.length free) (s_lnZ s) (s_dlnZ s) fr corner)
      | _, _ => QuRaise
      end
    | _, _ => QuRaise
    end
  end.

(** 231-547 [run_qufit], for frequencies other than zero. 327-328 evaluate the
    Stokes I model between the first and the last channel for a plot; only
    their raising matters. *)
Definition run_qufit (mpfit : mpin -> pyres mpres) (sampler : sampler_t) (cwd installed : nat -> lookup)
    (d : synth_data) (num : nat) (polyOrd : Z) (noStokesI : bool) (ff : fit_fun) : qu_end :=
  match parse_data d noStokesI with
  | None => QuReturn
  | Some (freq, (iA, dI), (Q, U), (dQ, dU)) =>
    let l2 := map (fun f => (c_light / f) ^ 2) freq in
    match create_frac_spectra mpfit freq iA Q U dI dQ dU polyOrd ff None with
    | None => QuBlank
    | Some (_, q, u, dq, du, fr) =>
      match freq, calculate_StokesI_model fr freq with
      | [], _ | _, PErr => QuRaise
      | _, POk _ =>
        match load_model cwd installed num with
        | LoadRaise => QuRaise
        | LoadExit => QuExit
        | Loaded m => fit_fractions sampler m l2 q u dq du fr
        end
      end
    end
  end.
