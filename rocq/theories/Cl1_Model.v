(** The 1-D CLEAN tool, RMtools_1D/do_RMclean_1D.py, on the products of the 1-D
    synthesis tool, and RMtools_1D/clean_model.py. Model only.

    The text files between the tools are not modelled: a number read back is the
    number written (the tool reads them in single precision by default). *)
From Coq Require Import Reals List Arith ZArith Bool.
Set Warnings "-ambiguous-paths".
From Coquelicot Require Import Coquelicot.
From Verif Require Import CBase NdArray PyRes PyList PyStr Interp_Model Synth_Model Clean_Model CleanTop_Model StokesI_Model Measure_Model QU_Model Run1D_Model.
Import ListNotations.
Local Open Scope R_scope.

(** The arrays and the numbers the tool takes from the synthesis (mDict, aDict). *)
Record clean_in := mk_cin { ci_phi : list R; ci_freq : list R; ci_FDF : list (option C); ci_phi2 : list R; ci_RMSF : list (option C);
  ci_fwhm : option R; ci_dFDFth : option R; ci_lam0 : R }.

(** do_RMsynth_1D.py:591-655 [saveOutput] then do_RMclean_1D.py:320-360 [readFiles] *)
Definition saved (out : synth_out) : clean_in :=
  mk_cin (r_phi out) (r_freq out) (r_FDF out) (r_phi2 out) (r_RMSF out) (r_fwhm out) (r_dFDFth out) (r_lam0 out).

(** mDict_cl and aDict_cl *)
Record clean_out := mk_cout { k_parms : parms; k_cutoff : option R; k_nIter : nat; k_mom2 : option R;
  k_dPhi : option R; k_dAmp : option R; k_dAngle : option R; k_dAngle0 : option R;
  k_clean : list (option C); k_cc : list (option C); k_resid : list (option C) }.

(** do_RMclean_1D.py:100-128: a negative level is a multiple of the theoretical
    noise, which may be NaN *)
Definition level_o (noise : option R) (x : R) : option R := if Rlt_dec x 0 then omul (omul (Some (-1)) noise) (Some x) else Some x.

(** util_RM.py:1414-1418 [measure_fdf_complexity]: one NaN in the spectrum makes it NaN *)
Definition fdf_complexity (phi : list R) (FDF : list (option C)) : option R :=
  match all_some FDF with Some l => calc_mom2_FDF l phi | None => None end.

(** do_RMclean_1D.py:51-277 [run_rmclean]. No pixel reaches a NaN cutoff, as no
    pixel reaches one above the largest sample. A NaN window is no window.
    Four Nones make measure_FDF_parms raise. The noise is a Python float
    (toscalar, or read from JSON), and so are the entries of mDict_cl: a zero
    noise raises ZeroDivisionError at 194. *)
Definition run_rmclean (i : clean_in) (cutoff : R) (maxIter : nat) (gain : R) (window : option R) : pyres clean_out :=
  let l2 := map (fun f => (c_light / f) ^ 2) (ci_freq i) in
  let cut := level_o (ci_dFDFth i) cutoff in
  let win := match window with None => None | Some w => level_o (ci_dFDFth i) w end in
  let c := match cut with Some c => c | None => maxabs (map nan_to_num (ci_FDF i)) + 1 end in
  match do_rmclean_hogbom (mk_nd [length (ci_FDF i)] (ci_FDF i)) (ci_phi i) (mk_nd [length (ci_RMSF i)] (ci_RMSF i)) (ci_phi2 i)
          [ci_fwhm i] c maxIter gain None None win with
  | CRetOk r =>
    let clean := flat (cleanFDF r) in
    let cc := flat (ccArr r) in
    pybind (measure_FDF_parms clean (ci_phi i) (ci_fwhm i) (Some (ci_dFDFth i)) l2 (ci_lam0 i) 5) (fun m =>
    if match ci_dFDFth i with Some n => if Req_EM_T n 0 then true else false | None => false end then PErr
    else
      let observed x := odiv (omul x (dFDFcorMAD m)) (ci_dFDFth i) in
      POk (mk_cout m cut (nth 0 (flat (iterCountArr r)) 0%nat) (fdf_complexity (ci_phi i) cc)
             (observed (dPhiPeakPIfit m)) (dFDFcorMAD m) (observed (dPolAngleFit_deg m)) (observed (dPolAngle0Fit_deg m))
             clean cc (flat (residFDF r))))
  | _ => PErr
  end.

(** ** clean_model.py *)

(** What argparse hands over: a string, or a list of strings (nargs=1). *)
Inductive pyarg := AStr (name : str) | AList (names : list str).

(** A file: its lines. *)
Definition files := str -> option (list str).
(** open(x): a list is not a path *)
Definition py_open (fs : files) (x : pyarg) : pyres (list str) :=
  match x with AStr n => match fs n with Some l => POk l | None => PErr end | AList _ => PErr end.
(** numpy.loadtxt(x): a list is the lines themselves *)
Definition np_loadtxt (fs : files) (x : pyarg) : pyres (list str) :=
  match x with AStr n => match fs n with Some l => POk l | None => PErr end | AList l => POk l end.

(** clean_model.py:69-95 [read_files]. [table]: the columns of a text file;
    [json]: polyCoeffs (a string split at commas and converted) and lam0Sq_m2;
    [spectra]: the first column of the input of rmsynth1d (read with
    numpy.loadtxt too). *)
Definition read_files (fs : files) (table : list str -> pyres (list R * list C)) (json : list str -> pyres (list R * R))
    (spectra : list str -> pyres (list R)) (freqfile rmSynthfile CCfile : pyarg) : pyres (list R * list C * list R * R * list R) :=
  pybind (pybind (np_loadtxt fs CCfile) table) (fun pc =>
  pybind (pybind (py_open fs rmSynthfile) json) (fun il =>
  pybind (pybind (np_loadtxt fs freqfile) spectra) (fun freq =>
  POk (fst pc, snd pc, fst il, snd il, freq)))).

(** 98-146 [main] for four arguments, each with nargs=1. The result is what
    save_model (64-65) is given: frequencies, Stokes I and Q + iU. *)
Definition clean_model_main (fs : files) table json spectra (freqfile rmSynthfile CCfile outfile : str) : pyres (pyarg * list R * list R * list C) :=
  pybind (read_files fs table json spectra (AList [freqfile]) (AList [rmSynthfile]) (AList [CCfile])) (fun x =>
  let '(phi, CC, Iparms, lam0, freq) := x in
  pybind (calculate_QU_model freq phi CC lam0 (Some Iparms)) (fun qi =>
  POk (AList [outfile], freq, snd qi, fst qi))).
