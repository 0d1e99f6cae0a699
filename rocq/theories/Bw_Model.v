(** Bandwidth-depolarisation corrected RM-synthesis:
    RMtools_1D/rmtools_bwdepol.py and rmtools_bwpredict.py. Model only.

    Frequencies and channel widths are finite reals, and frequencies are meant
    to be non-zero (x / 0 has no meaning here; the theorems ask for channels
    with positive edges). *)
From Coq Require Import Reals List Arith ZArith Bool String.
Set Warnings "-ambiguous-paths".
From Coquelicot Require Import Coquelicot.
From Verif Require Import CBase NdArray PyRes PyList Interp_Model Synth_Model CleanTop_Model Setup_Model StokesI_Model Measure_Model.
Import ListNotations.
Local Notation length := List.length.
Local Open Scope R_scope.

(** ** Rotation operator *)

(** numpy.exp on complex numbers *)
Definition c_exp (z : C) : C := (RtoC (exp (fst z)) * cis (snd z))%C.
(** scipy.special.erf for complex arguments, exact:
    2/sqrt(pi) times the integral of exp(-t^2) along the segment from 0 to z *)
Definition cerf (z : C) : C :=
  let f t := c_exp (- (RtoC t * z * (RtoC t * z)))%C in
  (RtoC (2 / sqrt PI) * z * (RInt (fun t => fst (f t)) 0 1, RInt (fun t => snd (f t)) 0 1))%C.
(** numpy.sign *)
Definition np_sign (x : R) : R := if Rlt_dec 0 x then 1 else if Rlt_dec x 0 then -1 else 0.

(** rmtools_bwdepol.py:74-101 *)
Definition rotation_integral_limit (freq phi : R) : C :=
  let funct1 := (RtoC freq * c_exp (0, 2 * phi * (c_light / freq) ^ 2)%R)%C in
  let funct2 := c_light * sqrt (Rabs phi * PI) in
  let funct3 := (np_sign phi, -1) : C in
  let funct4 := cerf (RtoC (sqrt (Rabs phi) * (c_light / freq)) * (np_sign phi, -1)%R)%C in
  (funct1 + RtoC funct2 * funct3 * funct4)%C.

(** 104-131 *)
Definition rotation_operator (width center phi : R) : C :=
  let b := center + 1 / 2 * width in
  let a := center - 1 / 2 * width in
  let int_a := rotation_integral_limit a phi in
  let int_b := rotation_integral_limit b phi in
  (RtoC (1 / width) * (int_b - int_a))%C.

(** ** Channel widths *)

(** The widths_Hz argument: None, one number, or an array with one width per
    channel. *)
Inductive widths := WNone | WOne (w : R) | WArr (l : list R).

(** 134-151 [estimate_channel_bandwidth]: IndexError below two channels *)
Definition estimate_channel_bandwidth (freq : list R) : pyres R :=
  match freq with a :: b :: _ => POk (b - a) | _ => PErr end.

(** 938-939 and 304-305: "if widths_Hz == None", then the widths broadcast to the
    channels. The test on an array of two or more elements raises ValueError
    (truth value of an array); an array of one element is compared as a scalar.
    An empty array is not distinguished from a raise. *)
Definition channel_widths (w : widths) (freq : list R) : pyres (list R) :=
  match w with
  | WNone => pybind (estimate_channel_bandwidth freq) (fun b => POk (repeat b (length freq)))
  | WOne b => POk (repeat b (length freq))
  | WArr [b] => POk (repeat b (length freq))
  | WArr _ => PErr
  end.

(** 110-131 on arrays *)
Definition rotation_channels (ws freq : list R) (phi : R) : list C :=
  map (fun wf => rotation_operator (fst wf) (snd wf) phi) (combine ws freq).

(** 211-240 [analytical_chan_pol]; xi_knot is not used by the code *)
Definition analytical_chan_pol (f ban phi p : R) : C :=
  let a := f - ban / 2 in
  let b := f + ban / 2 in
  let ya := rotation_integral_limit a phi in
  let yb := rotation_integral_limit b phi in
  (RtoC p * (yb - ya) / RtoC ban)%C.

(** 282-314 [bwdepol_simulation]: the q and u columns *)
Definition bwdepol_simulation (peak_rm : R) (freq : list R) (w : widths) : pyres (list R * list R) :=
  pybind (channel_widths w freq) (fun ws =>
  let p := map (fun wf => analytical_chan_pol (snd wf) (fst wf) peak_rm 1) (combine ws freq) in
  POk (map fst p, map snd p)).

(** ** Adjoint RM-synthesis *)

(** numpy.power(c / freq, 2) *)
Definition lambda_sq (freq : list R) : list R := map (fun f => (c_light / f) ^ 2) freq.

Record adjoint_vars := mk_vars { av_widths : list R; av_freq : list R; av_phi : list R; av_K : option R; av_weight : list R }.
Record adjoint_results := mk_adj { adj_FDF : nd (option C); adj_lam0 : option R; adj_vars : adjoint_vars }.

(** 812-956 [do_adjoint_rmsynth_planes]. [POk None] is the pair of Nones of the
    error paths. Lines 856-876 and 884-917 are those of do_rmsynth_planes
    (Synth_Model), but a zero sum of weights leaves lam0 non-finite, which
    makes the whole spectrum NaN, and no spectrum is blanked. *)
Definition do_adjoint_rmsynth_planes (freq : list R) (dataQ dataU : nd (option R)) (phi : list R) (w : widths)
    (weightArr : option (list (option R))) (lam0in : option R) : pyres (option adjoint_results) :=
  let l2 := lambda_sq freq in
  let w0 := prep_weights (length l2) weightArr in
  if negb (Nat.eqb (length w0) (length l2)) then POk None
  else if negb (if list_eq_dec Nat.eq_dec (shape dataQ) (shape dataU) then true else false) then POk None
  else
    let nDims := length (shape dataQ) in
    if negb (Nat.leb nDims 3) then POk None
    else if negb (Nat.eqb (nth 0 (shape dataQ) 0%nat) (length l2)) then POk None
    else
      let n := length l2 in
      let m := prodn (tl (shape dataQ)) in
      let we := w_eff n m (flat dataQ) (flat dataU) w0 in
      let K := odiv (Some 1) (Some (rsum we)) in
      let lam0 := rmsf_lam0_of we l2 lam0in in
      pybind (channel_widths w freq) (fun ws =>
      let cellk (k p : nat) : option C :=
        match lam0 with
        | None => None
        | Some l0 =>
          let f := nth k phi 0 in
          let cor := cis (2 * f * l0) in
          let r := rotation_channels ws freq f in
          Some (RtoC (K_pix n m (flat dataQ) (flat dataU) w0 p) *
                csum (map (fun j => nan_to_num (pC m (flat dataQ) (flat dataU) w0 j p) * cor * Cconj (nth j r (RtoC 0)))%C (seq 0 n)))%C
        end in
      let sh := length phi :: (if Nat.eqb nDims 3 then tl (shape dataQ) else [m; 1%nat]) in
      POk (Some (mk_adj (squeeze (mk_nd sh (tab2 (length phi) m cellk))) lam0 (mk_vars ws freq phi K we)))).

(** numpy.sum of an array with NaNs *)
Definition osum (l : list (option R)) : option R := option_map rsum (all_some l).

(** 160-209 [adjoint_theory]: sensitivity and noise at every depth *)
Definition theory_sens (v : adjoint_vars) (phi : R) : option R :=
  let r := rotation_channels (av_widths v) (av_freq v) phi in
  omul (av_K v) (Some (rsum (map (fun wr => fst wr * Cmod (snd wr) ^ 2) (combine (av_weight v) r)))).
Definition theory_noise (v : adjoint_vars) (dqu : list (option R)) (phi : R) : option R :=
  let r := rotation_channels (av_widths v) (av_freq v) phi in
  osqrt (odiv (osum (map (fun wdr => match snd (fst wdr) with
                                     | Some d => Some ((fst (fst wdr) * d) ^ 2 * Cmod (snd wdr) ^ 2)
                                     | None => None end)
                         (combine (combine (av_weight v) dqu) r)))
              (Some (rsum (av_weight v) ^ 2))).
Definition adjoint_theory (v : adjoint_vars) (dqu : list (option R)) : list (option R) * list (option R) :=
  (map (theory_sens v) (av_phi v), map (theory_noise v dqu) (av_phi v)).

(** ** Spread function *)

Record bw_rmsf := mk_bwrmsf { bw_RMSF : list (option C); bw_phi2 : list R; bw_fwhm : option R; bw_stat : Z }.

(** 557-560 *)
Definition bw_fwhm_analytic (l2 : list R) : option R :=
  match rmax_list l2, rmin_list l2 with
  | Some a, Some b => odiv (Some (2 * sqrt 3)) (Some (a - b))
  | _, _ => None
  end.

(** numpy.max of an array with NaNs: NaN if any element is *)
Definition omax (l : list (option R)) : option R := match all_some l with Some v => rmax_list v | None => None end.

(** 490-665 [bwdepol_get_rmsf_planes] for a mask of one dimension (the tool
    passes that) or no mask. [POk None] is the four Nones of the error paths.
    The simulated source is synthesised on the depths [phi], not on the doubled
    grid. A grid of one sample is squeezed to no dimension, and indexing it
    raises. [fit]: fit_rmsf (None, or status and width). *)
Definition bwdepol_get_rmsf_planes (fit : list R -> list (option R) -> option (Z * R)) (freq : list R) (w : widths) (phi : list R)
    (peak_rm : R) (weightArr : option (list (option R))) (mskArr : option (list bool)) (lam0in : option R)
    (double fitRMSF : bool) : pyres (option bw_rmsf) :=
  match phi2_grid double phi with
  | None => PErr
  | Some phi2 =>
    let w0 := prep_weights (length freq) weightArr in
    let msk := match mskArr with None => repeat false (length freq) | Some a => a end in
    if negb (Nat.eqb (length w0) (length freq)) then POk None
    else if negb (Nat.eqb (length msk) (length freq)) then POk None
    else
      let we := map (fun wm : R * bool => if snd wm then 0 else fst wm) (combine w0 msk) in
      match freq with
      | [] => PErr
      | _ =>
      let fwhm0 := bw_fwhm_analytic (lambda_sq freq) in
      pybind (bwdepol_simulation peak_rm freq w) (fun qu =>
      pybind (do_adjoint_rmsynth_planes freq (mk_nd [length freq] (map Some (fst qu))) (mk_nd [length freq] (map Some (snd qu)))
                phi w (Some (map Some we)) lam0in) (fun r =>
      match r with
      | None => PErr
      | Some r =>
        if Nat.eqb (length phi) 1 then PErr else
        let rmsf := flat (adj_FDF r) in
        let a := map (option_map Cmod) rmsf in
        let '(st, fw) := if fitRMSF then
            match fit phi2 (map (fun x => odiv x (omax a)) a) with
            | Some (st, f) => if Z.ltb st 1 then ((-1)%Z, fwhm0) else (st, Some f)
            | None => ((-1)%Z, fwhm0)
            end
          else ((-1)%Z, fwhm0) in
        POk (Some (mk_bwrmsf rmsf phi2 fw st))
      end))
      end
  end.

(** ** Measurements *)

Definition opow2 (x : option R) := omul x x.

(** 714-721: channel of the peak of the signal-to-noise spectrum *)
Definition sn_spectrum (FDF : list (option C)) (noise : list (option R)) : list (option R) :=
  map (fun fn => odiv (option_map Cmod (fst fn)) (snd fn)) (combine FDF noise).
Definition peak_channel (FDF : list (option C)) (noise : list (option R)) : pyres nat :=
  pybind (nanargmax (py_slice (sn_spectrum FDF noise) 1 (-1))) (fun i => POk (S i)).

(** 732-745 *)
Definition bw_corMAD (rm_fdf : list (option R)) (lr : Z * Z) : option R :=
  let n := length rm_fdf in
  let masked := map (fun ix => if in_slice n (fst lr) (snd lr) (fst ix) then None else snd ix) (combine (seq 0 n) rm_fdf) in
  let kept := filter (fun x => match x with Some _ => true | None => false end) masked in
  if Rlt_dec (INR (length kept) / INR n) (3 / 10) then MAD rm_fdf else MAD kept.

(** 668-805 [bwdepol_measure_FDF_parms]. The arrays have one length;
    lamSqArr_m2 has no NaN; adjoint_noise has no zero (a zero would make the
    signal-to-noise spectrum infinite, which nanargmax would select). *)
Definition bwdepol_measure_FDF_parms (FDF : list (option C)) (phi : list R) (fw : option R) (sens noise : list (option R))
    (l2 : list R) (lam0 : option R) (snrBias : R) : pyres parms :=
  let n := length FDF in
  let absFDF := map (option_map Cmod) FDF in
  let rm_fdf := sn_spectrum FDF noise in
  let amp_fdf := map (fun fs => odiv (fst fs) (snd fs)) (combine absFDF sens) in
  pybind (peak_channel FDF noise) (fun idx =>
  let dF := nth idx noise None in
  let damp := odiv dF (nth idx sens None) in
  match rmin_list (np_diff phi) with
  | None => PErr
  | Some dPhi =>
    let cm := omul (bw_corMAD rm_fdf (noise_range fw dPhi idx n)) (nth idx noise None) in
    let nG := INR (length l2) in
    let varL := odiv (osub (Some (rsum (map (fun l => l ^ 2) l2))) (odiv (Some (rsum l2 ^ 2)) (Some nG))) (Some (nG - 1)) in
    if (0 <? idx)%nat && (idx <? n - 1)%nat then
      let v := match nth (idx - 1) amp_fdf None, nth idx amp_fdf None, nth (idx + 1) amp_fdf None with
               | Some y1, Some y2, Some y3 => calc_parabola_vertex (nth (idx - 1) phi 0) y1 (nth idx phi 0) y2 (nth (idx + 1) phi 0) y3
               | _, _, _ => None
               end in
      let ph := option_map fst v in
      let amp := option_map snd v in
      let snr := odiv (omul amp (nth idx sens None)) dF in
      let dph := odiv fw (omul (Some 2) snr) in
      let eff := if oge snr (Some snrBias)
                 then osqrt (osub (opow2 amp) (omul (Some (23 / 10)) (opow2 damp))) else amp in
      let ix := np_interp_x ph phi (map (fun k => Some (INR k)) (seq 0 (length phi))) in
      let im := np_interp_x ph phi (map (option_map snd) FDF) in
      let re := np_interp_x ph phi (map (option_map fst) FDF) in
      let ang := match im, re with Some y, Some x => Some (fmod (1 / 2 * degrees (arctan2 y x)) 180) | _, _ => None end in
      let dang := option_map degrees (odiv (Some 1) (omul (Some 2) snr)) in
      let ang0 := match ang, ph, lam0 with Some a, Some p, Some l0 => Some (fmod (degrees (radians a - p * l0)) 180) | _, _, _ => None end in
      let dang0 := option_map degrees (osqrt (omul
                     (odiv (Some nG) (omul (Some (4 * (nG - 2))) (opow2 snr)))
                     (oadd (odiv (Some (nG - 1)) (Some nG)) (odiv (opow2 lam0) varL)))) in
      POk (mk_parms cm ph dph amp eff damp snr ix im re ang dang ang0 dang0)
    else POk (mk_parms cm None None None None damp None None None None None None None None)
  end).

(** ** The tool *)

(** The columns of the input file; frequencies (and widths) are finite. *)
Notation col := (list (option R)) (only parsing).
Inductive bw_data :=
  | Cols7 (freq : list R) (I Q U dI dQ dU : col)
  | Cols8 (freq wd : list R) (I Q U dI dQ dU : col)
  | Cols6 (freq wd : list R) (Q U dQ dU : col)
  | Cols5 (freq : list R) (Q U dQ dU : col)
  | ColsOther.

(** Local variables after lines 1024-1061: [None] is an unbound name. *)
Record bw_vars := mk_bwv { v_freq : list R; v_widths : option widths; v_I : option (list (option R) * list (option R));
  v_Q : list (option R); v_U : list (option R); v_dQ : list (option R); v_dU : list (option R); v_noI : bool }.

(** 1023-1061; the six-column branch assigns "width_Hz", a name nothing reads *)
Definition bw_parse (d : bw_data) (noStokesI : bool) : pyres bw_vars :=
  match d with
  | Cols7 f iA Q U dI dQ dU => POk (mk_bwv f (Some WNone) (Some (iA, dI)) Q U dQ dU noStokesI)
  | Cols8 f wd iA Q U dI dQ dU => POk (mk_bwv f (Some (WArr wd)) (Some (iA, dI)) Q U dQ dU noStokesI)
  | Cols6 f wd Q U dQ dU => POk (mk_bwv f None None Q U dQ dU noStokesI)
  | Cols5 f Q U dQ dU => POk (mk_bwv f (Some WNone) None Q U dQ dU true)
  | ColsOther => PErr
  end.

(** 1135-1149 *)
Definition bw_grid_params (l2 : list R) (dPhi phiMax : option R) (nSamples : R) : pyres (R * R) :=
  match rmax_list l2, rmin_list l2, rmax_list (map Rabs (np_diff l2)) with
  | Some mx, Some mn, Some dmax =>
      let fwhm := odiv (Some (2 * sqrt 3)) (Some (mx - mn)) in
      match (match dPhi with Some d => Some d | None => odiv fwhm (Some nSamples) end),
            (match phiMax with Some p => Some p | None => option_map (fun p => Rmax p 600) (odiv (Some (sqrt 3)) (Some dmax)) end) with
      | Some d, Some p => POk (d, p)
      | _, _ => PErr
      end
  | _, _, _ => PErr
  end.

(** 1068: (dQ + dU) / 2, no absolute value *)
Definition bw_dqu (dq du : list (option R)) : list (option R) :=
  map (fun ab => odiv (oadd (fst ab) (snd ab)) (Some 2)) (combine dq du).

(** keys of the result dictionary: 786-801, 1239-1287 and those of
    measure_qu_complexity (calc_sigma_add with suffixes Q, U, C) *)
Definition bw_keys : list string :=
  ["dFDFcorMAD"; "phiPeakPIfit_rm2"; "dPhiPeakPIfit_rm2"; "ampPeakPIfit"; "ampPeakPIfitEff"; "dAmpPeakPIfit"; "snrPIfit";
   "indxPeakPIfit"; "peakFDFimagFit"; "peakFDFrealFit"; "polAngleFit_deg"; "dPolAngleFit_deg"; "polAngle0Fit_deg"; "dPolAngle0Fit_deg";
   "Ifreq0"; "polyCoeffs"; "IfitStat"; "IfitChiSqRed"; "lam0Sq_m2"; "freq0_Hz"; "fwhmRMSF"; "dQU"; "units";
   "min_freq"; "max_freq"; "N_channels"; "median_channel_width"; "fracPol";
   "dSigmaAddMinusQ"; "dSigmaAddPlusQ"; "sigmaAddQ"; "dSigmaAddMinusU"; "dSigmaAddPlusU"; "sigmaAddU";
   "dSigmaAddMinusC"; "dSigmaAddPlusC"; "sigmaAddC"]%string.
(** 1319-1356: keys read by the verbose report, in order *)
Definition bw_report : list string :=
  ["fwhmRMSF"; "polAngleFit_deg"; "dPolAngleFit_deg"; "polAngle0Fit_deg"; "dPolAngle0Fit_deg"; "phiPeakPIfit_rm2"; "dPhiPeakPIfit_rm2";
   "freq0_Hz"; "Ifreq0"; "ampPeakPIfit"; "dAmpPeakPIfit"; "dQU"; "dFDFth"; "dFDFcorMAD"; "snrPIfit"; "sigmaAddC"; "dSigmaAddPlusC"; "dSigmaAddMinusC"]%string.
Definition report (verbose : bool) : pyres unit :=
  if verbose then (if forallb (fun k => existsb (String.eqb k) bw_keys) bw_report then POk tt else PErr) else POk tt.

Record bw_out := mk_bwout { o_parms : parms; o_Ifreq0 : option R; o_lam0 : option R; o_fracPol : option R; o_peak_rm : R;
  o_phi : list R; o_phi2 : list R; o_RMSF : list (option C); o_freq : list R; o_weight : list R; o_FDF : list (option C) }.

(** 960-1385 [run_adjoint_rmsynth], no plots. [mpfit], [fit]: the fitters of
    the Stokes I model and of the spread function. [complexity]:
    measure_qu_complexity, of which only a raise matters here. m.sqrt of a
    negative number and a division of two Python floats by zero raise. *)
Definition run_adjoint_rmsynth (mpfit : mpin -> pyres mpres) (fit : list R -> list (option R) -> option (Z * R))
    (complexity : list (option R) -> list (option R) -> list (option R) -> list (option R) -> option R -> option R -> option R -> pyres unit)
    (d : bw_data) (polyOrd : Z) (phiMax dPhi : option R) (nSamples : R) (variance fitRMSF noStokesI verbose : bool) : pyres bw_out :=
  pybind (bw_parse d noStokesI) (fun v =>
  let n := length (v_Q v) in
  let freq := v_freq v in
  match (if v_noI v then Some (repeat (Some 1) n, repeat (Some 0) n) else v_I v) with
  | None => PErr                                       (* IArr unbound *)
  | Some (iA, dI) =>
    let dqu := bw_dqu (v_dQ v) (v_dU v) in
    match create_frac_spectra mpfit (map (fun f => f / 1000000000) freq) iA (v_Q v) (v_U v) dI (v_dQ v) (v_dU v) polyOrd Log None with
    | None => PErr                                     (* q, u are all NaN: min of an empty array, if not before *)
    | Some (_, q, u, dq, du, fr) =>
    let l2 := lambda_sq freq in
    pybind (bw_grid_params l2 dPhi phiMax nSamples) (fun dp =>
    pybind (depth_grid_1D (snd dp) (fst dp)) (fun phi =>
    pybind (weights_1D variance (length freq) dqu) (fun w =>
    match v_widths v with
    | None => PErr                                     (* widths_Hz unbound *)
    | Some wd =>
      pybind (do_adjoint_rmsynth_planes freq (mk_nd [length q] q) (mk_nd [length u] u) phi wd (Some w) None) (fun r =>
      match r with
      | None => PErr                                   (* two values for three names *)
      | Some r =>
        let FDF := flat (adj_FDF r) in
        let '(sens, noise) := adjoint_theory (adj_vars r) dqu in
        pybind (peak_channel FDF noise) (fun ip =>
        let peak_rm := nth ip phi 0 in
        pybind (bwdepol_get_rmsf_planes fit freq wd phi peak_rm (Some w) (Some (map (fun x => is_none x) q)) (adj_lam0 r) true fitRMSF) (fun s =>
        match s with
        | None => PErr                                 (* float(None) *)
        | Some s =>
          match (match adj_lam0 r with Some l0 => if Rle_dec l0 0 then PErr else POk (Some (c_light / sqrt l0)) | None => POk None end) with
          | PErr => PErr
          | POk freq0 =>
            pybind (pad6 (params fr)) (fun pp =>
            let Ifreq0 := option_map (fun f0 => poly5 pp (f0 / 1000000000)) freq0 in
            let FDF := map (fun z => match z, Ifreq0 with Some z, Some i => Some (z * RtoC i)%C | _, _ => None end) FDF in
            pybind (bwdepol_measure_FDF_parms FDF phi (bw_fwhm s) sens noise l2 (adj_lam0 r) 5) (fun m =>
            let good := filter (fun wq => andb (if Req_EM_T (nan0 (fst wq)) 0 then false else true) (is_some (snd wq))) (combine w q) in
            match good with
            | [] => PErr                               (* min of an empty array *)
            | _ =>
              let fracPol := odiv (ampPeakPIfit m) Ifreq0 in
              pybind (complexity q u dq du fracPol (polAngle0Fit_deg m) (phiPeakPIfit m)) (fun _ =>
              pybind (report verbose) (fun _ =>
              POk (mk_bwout m Ifreq0 (adj_lam0 r) fracPol peak_rm phi (bw_phi2 s) (bw_RMSF s) freq (map nan0 w)
                     (map (fun fs => match fst fs, snd fs with Some z, Some s => if Req_EM_T s 0 then None else Some (z / RtoC s)%C | _, _ => None end)
                          (combine FDF sens)))))
            end))
          end
        end))
      end)
    end)))
    end
  end).

(** do_RMsynth_1D.py:592-621 [saveOutput]: the rows of _FDFdirty.dat, _RMSF.dat
    and _weight.dat (zip stops at the shorter column) *)
Definition saved_FDF (o : bw_out) : list (R * option C) := combine (o_phi o) (o_FDF o).
Definition saved_RMSF (o : bw_out) : list (R * option C) := combine (o_phi2 o) (o_RMSF o).
Definition saved_weight (o : bw_out) : list (R * R) := combine (o_freq o) (o_weight o).

(** ** rmtools_bwpredict.py *)

(** numpy.arange(0, stop, step) for a positive or negative step; a zero step
    raises *)
Definition arange0 (stop step : R) : pyres (list R) :=
  if Req_EM_T step 0 then PErr
  else POk (map (fun k => INR k * step) (seq 0 (Z.to_nat (Rceil (stop / step))))).

(** rmtools_bwpredict.py:55-121 [bwdepol_compute_predictions]. "widths_Hz is
    None" here, so arrays are accepted; np.max of an empty array raises. *)
Definition predict_widths (w : widths) (freq : list R) : pyres (list R) :=
  match w with
  | WNone => pybind (estimate_channel_bandwidth freq) (fun b => POk (repeat b (length freq)))
  | WOne b => POk (repeat b (length freq))
  | WArr l => if Nat.eqb (length l) (length freq) then POk l else PErr
  end.
Definition bwdepol_compute_predictions (freq : list R) (w : widths) (phiMax dPhi : option R)
    : pyres (list R * list (option R) * list (option R)) :=
  let l2 := lambda_sq freq in
  match rmax_list l2, rmin_list l2, rmin_list (map Rabs (np_diff l2)) with
  | Some mx, Some mn, Some dmin =>
    match (match dPhi with Some d => Some d | None => odiv (Some (2 * sqrt 3)) (Some (mx - mn)) end),
          (match phiMax with Some p => Some p | None => odiv (Some (2 * sqrt 3)) (Some dmin) end) with
    | Some d, Some p =>
      pybind (arange0 (p + 1 / 1000000) d) (fun phi =>
      let ones := repeat 1 (length freq) in
      pybind (predict_widths w freq) (fun ws =>
      let '(sens, noise) := adjoint_theory (mk_vars ws freq phi (odiv (Some 1) (Some (rsum ones))) ones) (map Some ones) in
      match phi with
      | [] => PErr
      | _ => POk (phi, sens, map (fun x => odiv x (omax noise)) noise)
      end))
    | _, _ => PErr
    end
  | _, _, _ => PErr
  end.
