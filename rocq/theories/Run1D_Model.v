(** The 1-D tools: RMtools_1D/do_RMsynth_1D.py (run_rmsynth, saveOutput) and
    RMtools_1D/do_RMsynth_1D_fromFITS.py. Model only.

    Frequencies are finite reals. Plots and printed text are left out. *)
From Coq Require Import Reals List Arith ZArith Bool.
Set Warnings "-ambiguous-paths".
From Coquelicot Require Import Coquelicot.
From Verif Require Import CBase NdArray PyRes PyList Interp_Model Synth_Model CleanTop_Model Setup_Model StokesI_Model Measure_Model QU_Model.
Import ListNotations.
Local Open Scope R_scope.

(** ** Complexity of the residual spectra *)

(** numpy x / y elementwise; a zero divisor gives inf or NaN *)
Definition odiv_l (x y : list (option R)) : list (option R) := map (fun ab => odiv (fst ab) (snd ab)) (combine x y).

(** util_RM.py:1353-1418 [measure_qu_complexity]; the residual of a NaN model
    is NaN. nSamp = 1000 is the default of calc_sigma_add. *)
Definition measure_qu_complexity (freq : list R) (q u dq du : list (option R)) (fracPol psi0 RM : option R)
    : pyres (sigma_out * sigma_out * sigma_out) :=
  let pqu := match fracPol, psi0, RM with
             | Some p, Some a, Some r => create_pqu_spectra_burn (map Some freq) [p] [a] [r] None
             | _, _, _ => let n := map (fun _ => None) freq in POk (n, n, n)
             end in
  pybind pqu (fun m =>
  let '(_, qm, um) := m in
  let qr := map (fun ab => osub (fst ab) (snd ab)) (combine q qm) in
  let ur := map (fun ab => osub (fst ab) (snd ab)) (combine u um) in
  let n := length freq in
  let yq := odiv_l qr dq in
  let yu := odiv_l ur du in
  pybind (calc_sigma_add n yq (odiv_l dq dq) 0 1000) (fun sq =>
  pybind (calc_sigma_add n yu (odiv_l du du) 0 1000) (fun su =>
  pybind (calc_sigma_add (n + n) (yq ++ yu) (odiv_l dq dq ++ odiv_l du du) 0 1000) (fun sc =>
  POk (sq, su, sc))))).

(** ** A Stokes I model given as a table *)

(** scipy.interpolate.interp1d, linear, default bounds: the points are sorted,
    a value outside their range raises, lists of different lengths raise. *)
Fixpoint pinsert (p : R * R) (l : list (R * R)) : list (R * R) :=
  match l with [] => [p] | q :: t => if Rlt_dec (fst q) (fst p) then q :: pinsert p t else p :: l end.
Definition psort (l : list (R * R)) : list (R * R) := fold_right pinsert [] l.
Definition interp1d (xs ys : list R) (x : R) : pyres (option R) :=
  if negb (Nat.eqb (length xs) (length ys)) then PErr
  else
    let p := psort (combine xs ys) in
    let n := length p in
    match p with
    | [] => PErr
    | _ =>
      if Rlt_dec x (fst (nth 0 p (0, 0))) then PErr
      else if Rlt_dec (fst (nth (n - 1) p (0, 0))) x then PErr
      else
        let idx := length (filter (fun a => if Rlt_dec (fst a) x then true else false) p) in
        let hi := Nat.min (n - 1) (Nat.max 1 idx) in
        let lo := (hi - 1)%nat in
        let a := nth lo p (0, 0) in
        let b := nth hi p (0, 0) in
        POk (oadd (omul (odiv (Some (snd b - snd a)) (Some (fst b - fst a))) (Some (x - fst a))) (Some (snd a)))
    end.

(** ** The tool *)

Notation col := (list (option R)) (only parsing).
Inductive synth_data :=
  | Data7 (freq : list R) (I Q U dI dQ dU : col)
  | Data5 (freq : list R) (q u dq du : col)
  | DataOther.

Record run_opts := mk_opts { o_polyOrd : Z; o_phiMax : option R; o_dPhi : option R; o_nSamples : R; o_variance : bool;
  o_fitRMSF : bool; o_noStokesI : bool; o_modStokesI : option (list R); o_fitfun : fit_fun; o_super : bool }.

(** 454-462 and the numbers of mDict *)
Record synth_out := mk_out { r_parms : parms; r_Ifreq0 : option R; r_fit : FitResult; r_lam0 : R; r_freq0 : R; r_fwhm : option R;
  r_dQU : option R; r_dFDFth : option R; r_min_freq : option R; r_max_freq : option R; r_N_channels : nat;
  r_median_width : option R; r_fracPol : option R; r_sigma : sigma_out * sigma_out * sigma_out;
  r_phi : list R; r_phi2 : list R; r_RMSF : list (option C); r_freq : list R; r_weight : list R; r_FDF : list (option C) }.

(** 146-177: [None] is sys.exit *)
Definition parse_data (d : synth_data) (noI : bool) : option (list R * (col * col) * (col * col) * (col * col)) :=
  match d with
  | Data7 f iA Q U dI dQ dU =>
      if noI then let n := length Q in Some (f, (repeat (Some 1) n, repeat (Some 0) n), (Q, U), (dQ, dU))
      else Some (f, (iA, dI), (Q, U), (dQ, dU))
  | Data5 f Q U dQ dU => let n := length Q in Some (f, (repeat (Some 1) n, repeat (Some 0) n), (Q, U), (dQ, dU))
  | DataOther => None
  end.

(** 181 *)
Definition dQU_of (dQ dU : col) : col := map (fun ab => odiv (oadd (fst ab) (snd ab)) (Some 2)) (combine dQ dU).

(** 348-364: reference frequency, Stokes I model about it, and its value there.
    m.sqrt of a negative number raises. *)
Definition at_reference (freq : list R) (modI : option (list R)) (fr : FitResult) (lam0 : R)
    : pyres (R * FitResult * option R) :=
  pybind (if Req_EM_T lam0 0 then POk (ref_freq fr, fr)
          else if Rlt_dec lam0 0 then PErr
          else let freq0 := c_light / sqrt lam0 in
               match modI with
               | None => pybind (renormalize_StokesI_model fr freq0) (fun fr' => POk (freq0, fr'))
               | Some _ => POk (freq0, mk_fit (params fr) (fitStatus fr) (chiSq fr) (chiSqRed fr) (aic fr) (polyOrd fr) freq0
                                              (dof fr) (pcov fr) (perror fr) (fit_function fr))
               end) (fun ff =>
  let '(freq0, fr) := ff in
  pybind (match modI with
          | None => pybind (calculate_StokesI_model fr [freq0]) (fun v => POk (Some (nth 0 v 0)))
          | Some mI => interp1d freq mI freq0
          end) (fun i0 => POk (freq0, fr, i0))).

(** dirtyFDF *= Ifreq0 *)
Definition scale_FDF (i0 : option R) (F : list (option C)) : list (option C) :=
  map (fun z => match z, i0 with Some z, Some i => Some (z * RtoC i)%C | _, _ => None end) F.

(** 74-528 [run_rmsynth]. [mpfit], [fit]: the fitters of the Stokes I model and
    of the spread function (the boolean: fit the real part). sys.exit is PErr.
    Line 207 or 209-210 evaluates the model on a fine frequency grid for the
    plot; only a raise matters here. The order of independent steps that can
    raise is not kept. *)
Definition run_rmsynth (mpfit : mpin -> pyres mpres) (fit : bool -> list R -> list (option C) -> option (Z * R))
    (d : synth_data) (o : run_opts) : pyres synth_out :=
  match parse_data d (o_noStokesI o) with
  | None => PErr
  | Some (freq, (iA, dI), (QA, UA), (dQ, dU)) =>
    match create_frac_spectra mpfit freq iA QA UA dI dQ dU (o_polyOrd o) (o_fitfun o) (o_modStokesI o) with
    | None => PErr                              (* q, u are all NaN: np.min of an empty array, if not before *)
    | Some (_, q, u, dq, du, fr) =>
    let dqu := dqu_of dq du in
    pybind (match o_modStokesI o with
            | None => pybind (calculate_StokesI_model fr freq) (fun _ => POk tt)
            | Some mI => if Nat.eqb (length freq) (length mI) then POk tt else PErr
            end) (fun _ =>
    let l2 := map (fun f => (c_light / f) ^ 2) freq in
    pybind (grid_params l2 (o_super o) (o_dPhi o) (o_phiMax o) (o_nSamples o)) (fun dp =>
    pybind (depth_grid_1D (snd dp) (fst dp)) (fun phi =>
    pybind (weights_1D (o_variance o) (length freq) dqu) (fun w =>
    match do_rmsynth_planes (mk_nd [length q] q) (mk_nd [length u] u) l2 phi (Some w) (if o_super o then Some 0 else None) with
    | None => PErr                              (* None *= Ifreq0 *)
    | Some r =>
      match get_rmsf_planes (fit (o_super o)) l2 phi (Some w) (Some (mk_nd [length q] (map is_none q))) (Some (synth_lam0 r))
              true (o_fitRMSF o || o_super o) with
      | RetOk s =>
        pybind (at_reference freq (o_modStokesI o) fr (synth_lam0 r)) (fun ff =>
        let '(freq0, fr, Ifreq0) := ff in
        let FDF := scale_FDF Ifreq0 (flat (FDFcube r)) in
        let fwhm := nth 0 (flat (fwhmRMSFArr s)) None in
        let dF := match Ifreq0 with Some i => dFDFth i w dqu | None => None end in
        pybind (measure_FDF_parms FDF phi fwhm (Some dF) l2 (synth_lam0 r) 5) (fun m =>
        let good := map fst (filter (fun fwq => andb (negb (if Req_EM_T (nan0 (fst (snd fwq))) 0 then true else false)) (is_some (snd (snd fwq))))
                               (combine freq (combine w q))) in
        match good with
        | [] => PErr                            (* np.min of an empty array *)
        | _ =>
          let fracPol := odiv (ampPeakPIfitEff m) Ifreq0 in
          pybind (measure_qu_complexity freq q u dq du fracPol (polAngle0Fit_deg m) (phiPeakPIfit m)) (fun sg =>
          POk (mk_out m Ifreq0 fr (synth_lam0 r) freq0 fwhm (median (somes (dQU_of dQ dU))) dF (rmin_list good) (rmax_list good) (length good)
                 (median (np_diff freq)) fracPol sg phi (phi2Arr s) (flat (RMSFcube s)) freq (map nan0 w) FDF))
        end))
      | _ => PErr                               (* four values for five names *)
      end
    end))))
    end
  end.

(** ** do_RMsynth_1D_fromFITS.py *)

(** Where the user wants the spectrum: pixel coordinates counted from one, or
    sky coordinates, for which WCS.all_world2pix gives the real pixel position
    counted from zero (oracle), rounded half to even. *)
Inductive pixel_request := ByPixel (x y : R) | BySky (px py : R).
(** 219-229: (y, x) indices *)
Definition pixel_index (r : pixel_request) : Z * Z :=
  match r with
  | ByPixel x y => (py_int y - 1, py_int x - 1)%Z
  | BySky px py => (py_round py, py_round px)
  end.

(** numpy a[i] on an axis of length n *)
Definition np_index (n : nat) (i : Z) : pyres nat :=
  let j := if (i <? 0)%Z then (i + Z.of_nat n)%Z else i in
  if (0 <=? j)%Z && (j <? Z.of_nat n)%Z then POk (Z.to_nat j) else PErr.

(** 275-277 [get_data_Q_U] for a cube of three axes (channel, y, x); other
    numbers of axes are not modelled (PErr) *)
Definition get_data_Q_U (cube : nd (option R)) (yi xi : Z) : pyres (list (option R)) :=
  match shape cube with
  | [n; ny; nx] =>
      pybind (np_index ny yi) (fun y => pybind (np_index nx xi) (fun x =>
      POk (map (fun j => nth ((j * ny + y) * nx + x) (flat cube) None) (seq 0 n))))
  | _ => PErr
  end.

(** (x != 0): NaN is not equal to 0 *)
Definition nonzero (x : option R) : bool := match x with Some v => if Req_EM_T v 0 then false else true | None => true end.

(** 219-252: the columns handed to run_rmsynth. [freq]: the frequencies in the
    header of the Q file. An infinite voxel is turned into NaN at 236-237 (not
    in Stokes I; create_frac_spectra drops it there). *)
Definition from_fits (freq : list R) (Qc Uc : nd (option R)) (Ic : option (nd (option R))) (p : pixel_request) : pyres synth_data :=
  let '(y, x) := pixel_index p in
  pybind (get_data_Q_U Qc y x) (fun Q =>
  pybind (get_data_Q_U Uc y x) (fun U =>
  let e := map (fun _ => Some (1 / 1000)) freq in
  if Nat.eqb (length (filter nonzero Q)) 0 && Nat.eqb (length (filter nonzero Q)) 0 then PErr
  else match Ic with
       | None => POk (Data5 freq Q U e e)
       | Some Ic => pybind (get_data_Q_U Ic y x) (fun iA => POk (Data7 freq iA Q U e e e))
       end)).
Definition main_from_fits mpfit fit freq Qc Uc Ic p (o : run_opts) : pyres synth_out :=
  pybind (from_fits freq Qc Uc Ic p) (fun d => run_rmsynth mpfit fit d o).
