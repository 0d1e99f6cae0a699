(** Peak maps: RMtools_3D/RMpeakfit_3D.py. Model only.
    Non-finite results are [None]. Channels have finite positive lambda^2 (a
    channel of frequency zero or infinity is outside the model). A frequency file
    with one line is read as an array without axes, which is outside the model. Noise is a
    finite number or NaN. *)
From Coq Require Import Reals List Arith ZArith Bool Ascii String.
Set Warnings "-ambiguous-paths".
From Coquelicot Require Import Coquelicot.
From Verif Require Import CBase PyRes PyStr PyList NdArray NdIndex Synth_Model CleanTop_Model Setup_Model Cube_Model Measure_Model.
Import ListNotations.
Local Open Scope R_scope.

(** ** Dictionaries *)
Fixpoint dget {V} (d : list (str * V)) (k : str) : pyres V :=
  match d with
  | [] => PErr
  | (k', v) :: t => if str_eqb k k' then POk v else dget t k
  end.
Fixpoint dset {V} (d : list (str * V)) (k : str) (v : V) : list (str * V) :=
  match d with
  | [] => [(k, v)]
  | (k', v') :: t => if str_eqb k k' then (k', v) :: t else (k', v') :: dset t k v
  end.

(** a[x, y] for indices from zero on; of other than two axes: an exception (more
    than two would give an array, which is outside the model). *)
Definition get2 {A} (d : A) (a : nd A) (x y : nat) : pyres A :=
  match shape a with
  | [n; m] => if ((x <? n) && (y <? m))%nat then POk (at_nd d a [x; y]) else PErr
  | _ => PErr
  end.
(** a[x, y] = v *)
Definition set2 {A} (a : nd A) (x y : nat) (v : A) : nd A :=
  mk_nd (shape a) (upd (flat a) (ravel (shape a) [x; y]) (fun _ => v)).

(** a[i, :, :] for a possibly negative i *)
Definition plane (a : nd (option R)) (i : Z) : pyres (nd (option R)) :=
  match shape a with
  | [n; ny; nx] =>
      let i := if (i <? 0)%Z then (i + Z.of_nat n)%Z else i in
      if ((i <? 0) || (Z.of_nat n <=? i))%Z then PErr
      else POk (tab_nd [ny; nx] (fun idx => at_nd None a (Z.to_nat i :: idx)))
  | _ => PErr
  end.
(** util_misc.py:875-893 [interp_images] with f = 0.5; a NaN in either plane
    stays NaN *)
Definition half_way (a b : nd (option R)) : nd (option R) :=
  tab_nd (shape a) (fun idx => oadd (at_nd None a idx) (omul (Some (1 / 2)) (osub (at_nd None b idx) (at_nd None a idx)))).

(** ** Stokes I at the reference frequency *)

(** speed_of_light / sqrt(l): a number, infinity for zero, NaN below zero *)
Inductive fref := FFin (f : R) | FInf | FNan.
Definition freq_ref (l : R) : fref :=
  if Rlt_dec 0 l then FFin (c_light / sqrt l) else if Req_EM_T l 0 then FInf else FNan.
(** 73 *)
Definition freqs_of (l2 : list R) : list R := map (fun l => c_light / sqrt l) l2.

(** 75-90: all distances to infinity are infinite and to NaN are NaN, so that
    argmin is 0; f < inf, and nothing compares with NaN. *)
Definition I_map (l2 : list R) (lam0 : R) (I : option (nd (option R))) (ny nx : nat) : pyres (nd (option R)) :=
  let freq := freqs_of l2 in
  match I with
  | None => POk (tab_nd [ny; nx] (fun _ => Some 1))
  | Some cube =>
      match freq with
      | [] => PErr                                   (* argmin of an empty array *)
      | _ =>
      let two i j := pybind (plane cube i) (fun a => pybind (plane cube j) (fun b => POk (half_way a b))) in
      match freq_ref lam0 with
      | FFin f0 =>
          match argmin (map (fun f => Rabs (f - f0)) freq) with
          | None => PErr
          | Some idx =>
              let f := nth idx freq 0 in
              let z := Z.of_nat idx in
              if Rlt_dec f f0 then two z (z + 1)%Z
              else if Rlt_dec f0 f then two (z - 1)%Z z
              else plane cube z
          end
      | FInf => two 0%Z 1%Z
      | FNan => plane cube 0
      end
      end
  end.

(** ** Noise *)

(** numpy broadcasting of two one-dimensional arrays *)
Definition broadcast {A B} (a : list A) (b : list B) : pyres (list (A * B)) :=
  if Nat.eqb (List.length a) (List.length b) then POk (combine a b)
  else match a, b with
       | [x], _ => POk (map (fun y => (x, y)) b)
       | _, [y] => POk (map (fun x => (x, y)) a)
       | _, _ => PErr
       end.

(** 93-108: the factor sqrt(sum w^2 s^2 / (sum w)^2). [weightType]: Some true
    is "variance", Some false "uniform". A noise of zero has infinite weight, and
    inf * 0 is NaN. A NaN noise counts as zero. *)
Definition noise_factor (n : nat) (noise : list (option R)) (weightType : option bool) : pyres (option R) :=
  let combined (ws : list (R * R)) :=
    osqrt (odiv (Some (rsum (map (fun a => fst a ^ 2 * snd a ^ 2) ws))) (Some (rsum (map fst ws) ^ 2))) in
  match weightType with
  | Some true =>
      if existsb (fun x => match x with Some v => if Req_EM_T v 0 then true else false | None => false end) noise then POk None
      else POk (combined (map (fun x => match x with Some v => (1 / v ^ 2, v) | None => (0, 0) end) noise))
  | Some false =>
      pybind (broadcast noise (repeat tt n)) (fun ns =>
      POk (combined (map (fun a => match fst a with Some v => (1, v) | None => (0, 0) end) ns)))
  | None => PErr
  end.

(** ** One pixel *)

(** util_RM.py:1094-1109 and 135-150: the dictionary of a pixel *)
Definition m_dict (p : parms) (l2 : list R) (lam0 : R) (fw I0 : option R) (dF : option (option R)) : list (str * option R) :=
  let freq := freqs_of l2 in
  [(s "dFDFcorMAD", dFDFcorMAD p); (s "phiPeakPIfit_rm2", phiPeakPIfit p); (s "dPhiPeakPIfit_rm2", dPhiPeakPIfit p);
   (s "ampPeakPIfit", ampPeakPIfit p); (s "ampPeakPIfitEff", ampPeakPIfitEff p); (s "dAmpPeakPIfit", dAmpPeakPIfit p);
   (s "snrPIfit", snrPIfit p); (s "indxPeakPIfit", indxPeakPIfit p); (s "peakFDFimagFit", peakFDFimagFit p);
   (s "peakFDFrealFit", peakFDFrealFit p); (s "polAngleFit_deg", polAngleFit_deg p); (s "dPolAngleFit_deg", dPolAngleFit_deg p);
   (s "polAngle0Fit_deg", polAngle0Fit_deg p); (s "dPolAngle0Fit_deg", dPolAngle0Fit_deg p);
   (s "lam0Sq_m2", Some lam0); (s "freq0_Hz", match freq_ref lam0 with FFin f => Some f | _ => None end);
   (s "fwhmRMSF", fw); (s "Ifreq0", I0); (s "fracPol", odiv (ampPeakPIfit p) I0);
   (s "min_freq", rmin_list freq); (s "max_freq", rmax_list freq); (s "N_channels", Some (INR (List.length l2)));
   (s "median_channel_width", median (np_diff freq)); (s "dFDFth", match dF with Some d => d | None => None end)].

Definition maps := list (str * nd (option R)).
(** map_dict[p][x, y] = v *)
Definition put (m : maps) (x y : nat) (p : str) (v : option R) : maps :=
  match dget m p with POk a => dset m p (set2 a x y v) | PErr => m end.

(** 151-152: until a name is not a key *)
Fixpoint fill (m : maps) (x y : nat) (D : list (str * option R)) (ps : list str) : maps * bool :=
  match ps with
  | [] => (m, true)
  | p :: t => match dget D p with POk v => fill (put m x y p v) x y D t | PErr => (m, false) end
  end.
(** 154-155 *)
Definition blank (m : maps) (x y : nat) (ps : list str) : maps := fold_left (fun m p => put m x y p None) ps m.

(** 116-155, one pass *)
Definition fit_pixel (FDF : nd (option C)) (phi : list R) (fwhm : nd (option R)) (l2 : list R) (lam0 : R) (ps : list str)
    (I0 : nd (option R)) (dFDF : option (nd (option R))) (m : maps) (xy : nat * nat) : pyres maps :=
  let '(x, y) := xy in
  let F := map (fun k => at_nd None FDF [k; x; y]) (seq 0 (nth 0 (shape FDF) 0%nat)) in
  pybind (get2 None fwhm x y) (fun fw =>
  pybind (match dFDF with None => POk None | Some a => pybind (get2 None a x y) (fun v => POk (Some v)) end) (fun dF =>
  match pybind (measure_FDF_parms F phi fw dF l2 lam0 5) (fun p => pybind (get2 None I0 x y) (fun i0 => match l2 with [] => PErr (* min of an empty array *) | _ => POk (m_dict p l2 lam0 fw i0 dF) end)) with
  | POk D => let '(m', ok) := fill m x y D ps in POk (if ok then m' else blank m' x y ps)
  | PErr => POk (blank m x y ps)
  end)).

Fixpoint pyfold {S A} (f : S -> A -> pyres S) (l : list A) (st : S) : pyres S :=
  match l with [] => POk st | a :: t => pybind (f st a) (pyfold f t) end.

(** 24-157 [pixelwise_peak_fitting]. Fewer than three axes raise at map_size[0]
    or map_size[1]; more are outside the model. *)
Definition pixelwise_peak_fitting (FDF : nd (option C)) (phi : list R) (fwhm : nd (option R)) (l2 : list R) (lam0 : R) (ps : list str)
    (noise : option (list (option R))) (I : option (nd (option R))) (weightType : option bool) : pyres maps :=
  match shape FDF with
  | [_; ny; nx] =>
      let pixels := flat_map (fun y => map (fun x => (x, y)) (seq 0 ny)) (seq 0 nx) in
      let m0 := fold_left (fun m p => dset m p (tab_nd [ny; nx] (fun _ => Some 0))) ps [] in
      pybind (I_map l2 lam0 I ny nx) (fun I0 =>
      pybind (match noise with
              | None => POk None
              | Some ns => pybind (noise_factor (List.length l2) ns weightType) (fun f => POk (Some (tab_nd (shape I0) (fun idx => omul (at_nd None I0 idx) f))))
              end) (fun dFDF =>
      pyfold (fit_pixel FDF phi fwhm l2 lam0 ps I0 dFDF) pixels m0))
  | _ => PErr
  end.

(** ** The tool *)

(** 363-435: the three lists of products *)
Definition peak_only_list : list str :=
  map s ["dFDFcorMAD"; "phiPeakPIfit_rm2"; "dPhiPeakPIfit_rm2"; "ampPeakPIfitEff"; "dAmpPeakPIfit"; "snrPIfit"; "polAngle0Fit_deg"; "dPolAngle0Fit_deg"]%string.
Definition all_list : list str :=
  map s ["dFDFcorMAD"; "phiPeakPIfit_rm2"; "dPhiPeakPIfit_rm2"; "ampPeakPIfit"; "ampPeakPIfitEff"; "dAmpPeakPIfit"; "snrPIfit"; "indxPeakPIfit";
   "peakFDFimagFit"; "peakFDFrealFit"; "polAngleFit_deg"; "dPolAngleFit_deg"; "polAngle0Fit_deg"; "dPolAngle0Fit_deg"; "Ifreq0"; "dFDFth"; "lam0Sq_m2";
   "freq0_Hz"; "fwhmRMSF"; "min_freq"; "max_freq"; "N_channels"; "median_channel_width"; "fracPol"]%string.
Definition default_list : list str :=
  map s ["dFDFcorMAD"; "phiPeakPIfit_rm2"; "dPhiPeakPIfit_rm2"; "ampPeakPIfitEff"; "dAmpPeakPIfit"; "snrPIfit"; "peakFDFimagFit"; "peakFDFrealFit";
   "Ifreq0"; "lam0Sq_m2"; "polAngle0Fit_deg"; "dPolAngle0Fit_deg"]%string.
(** 363-366: both flags stop the program *)
Definition product_list (all_products peak_only : bool) : pyres (list str) :=
  if (peak_only && all_products)%bool then PErr
  else POk (if peak_only then peak_only_list else if all_products then all_list else default_list).

(** 263-318 and 437-478: from the files to the maps. [fdf] is real + 1j imag;
    [ax] its depth axis; [freq] the frequency file; [lam0] the keyword LAMSQ0. *)
Definition peakfit_files (fdf : image (option C)) (ax : lin_axis) (fwhm : nd (option R)) (freq : list R) (lam0 : R) (ps : list str)
    (noise : option (list (option R))) (I : option (image (option R))) (weightType : option bool) : pyres maps :=
  let cube := read_FDF_cube None fdf in
  let l2 := map (fun f => (c_light / f) ^ 2) freq in
  pybind (fits_make_lin_axis ax) (fun phi =>
  let fw := squeeze fwhm in
  pybind (match I with None => POk None | Some f => pybind (readFitsCube None f) (fun a => POk (Some a)) end) (fun dataI =>
  if Nat.eqb (List.length (shape cube)) 2
  then pixelwise_peak_fitting (mk_nd (insert_at 1 1%nat (shape cube)) (flat cube)) phi (mk_nd (insert_at 0 1%nat (shape fw)) (flat fw)) l2 lam0 ps noise dataI weightType
  else pixelwise_peak_fitting cube phi fw l2 lam0 ps noise dataI weightType)).

(** ** Saving *)

(** posixpath.dirname: up to the last slash, without trailing slashes unless
    there is nothing else *)
Definition slash : ascii := "/"%char.
Fixpoint drop_to_slash (x : str) : str :=
  match x with [] => [] | c :: t => if ch_eqb c slash then x else drop_to_slash t end.
Fixpoint drop_slashes (x : str) : str :=
  match x with [] => [] | c :: t => if ch_eqb c slash then drop_slashes t else x end.
Definition dirname (p : str) : str :=
  let h := drop_to_slash (rev p) in
  if forallb (fun c => ch_eqb c slash) h then rev h else rev (drop_slashes h).

(** os.path.exists for directories: never of the empty string. [dirs] are the
    directories there are; the current one is not named. *)
Definition exists_dir (dirs : list str) (d : str) : bool :=
  match d with [] => false | _ => existsb (str_eqb d) dirs end.
(** os.mkdir: the parent has to be there, and the name not empty *)
Definition mkdir (dirs : list str) (d : str) : pyres (list str) :=
  match d with
  | [] => PErr
  | _ => if exists_dir dirs d then PErr
         else match dirname d with
              | [] => POk (d :: dirs)
              | up => if exists_dir dirs up then POk (d :: dirs) else PErr
              end
  end.

(** 187-221 *)
Definition unit_dict (flux : str) : list (str * str) :=
  [(s "dFDFcorMAD", flux); (s "phiPeakPIfit_rm2", s "rad/m^2"); (s "dPhiPeakPIfit_rm2", s "rad/m^2"); (s "ampPeakPIfit", flux);
   (s "ampPeakPIfitEff", flux); (s "dAmpPeakPIfit", flux); (s "snrPIfit", s ""); (s "indxPeakPIfit", s ""); (s "peakFDFimagFit", flux);
   (s "peakFDFrealFit", flux); (s "polAngleFit_deg", s "deg"); (s "dPolAngleFit_deg", s "deg"); (s "polAngle0Fit_deg", s "deg");
   (s "dPolAngle0Fit_deg", s "deg"); (s "Ifreq0", flux); (s "polyCoeffs", s ""); (s "IfitStat", s ""); (s "IfitChiSqRed", s "");
   (s "lam0Sq_m2", s "m^2"); (s "freq0_Hz", s "Hz"); (s "fwhmRMSF", s "rad/m^2"); (s "dQU", flux); (s "dFDFth", flux); (s "min_freq", s "Hz");
   (s "max_freq", s "Hz"); (s "N_channels", s ""); (s "median_channel_width", s "Hz"); (s "fracPol", s ""); (s "sigmaAddQ", s "");
   (s "dSigmaAddMinusQ", s ""); (s "dSigmaAddPlusQ", s ""); (s "sigmaAddU", s ""); (s "dSigmaAddMinusU", s ""); (s "dSigmaAddPlusU", s "")].

(** 164-240 [save_maps]: the directories afterwards, and the files with BUNIT and
    data. [bunit] is the keyword of the FDF. Headers: see Header_Model. Single
    precision is not modelled. After an exception files may have been written. *)
Definition save_maps (dirs : list str) (m : maps) (prefix : str) (bunit : option str) : pyres (list str * list (str * (str * nd (option R)))) :=
  let units := unit_dict (match bunit with Some u => u | None => [] end) in
  pybind (if exists_dir dirs (dirname prefix) then POk dirs else mkdir dirs (dirname prefix)) (fun dirs' =>
  pybind (pyall (map (fun pa => pybind (dget units (fst pa)) (fun u => POk ((prefix ++ fst pa ++ s ".fits")%list, (u, snd pa)))) m)) (fun files =>
  POk (dirs', files))).
