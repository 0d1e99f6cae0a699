(** RMtools_1D/calculate_RMSF.py: rmtools_calcRMSF. *)
From Coq Require Import Reals List Arith ZArith Bool.
Set Warnings "-ambiguous-paths".
From Coquelicot Require Import Coquelicot.
From Verif Require Import CBase PyRes PyList NdArray Synth_Model Measure_Model Setup_Model.
Import ListNotations.
Local Open Scope R_scope.

(** A column of a text file as numpy.genfromtxt(dtype=None) types it: int64 if
    every entry is an integer, float otherwise. Text columns are left out. *)
Inductive column := CInt (l : list Z) | CFloat (l : list R).
Definition col_len (c : column) : nat := match c with CInt l => length l | CFloat l => length l end.
Definition is_int (c : column) : bool := match c with CInt _ => true | CFloat _ => false end.

(** What genfromtxt returns: one array if all columns have one type, its axes of
    length one removed; an array of records, with one axis, if not. *)
Inductive table :=
| T1 (c : column)                  (* one axis *)
| T2 (c d : column)                (* two axes; the first two columns *)
| TScalar                          (* no axis *)
| TRecords.                        (* one axis (or none) of records *)
Definition row (cols : list column) : column :=
  if forallb is_int cols then CInt (flat_map (fun c => match c with CInt l => l | _ => [] end) cols)
  else CFloat (flat_map (fun c => match c with CFloat l => l | _ => [] end) cols).
Definition genfromtxt (cols : list column) : table :=
  match cols with
  | [] => T1 (CFloat [])
  | [c] => if Nat.eqb (col_len c) 1 then TScalar else T1 c
  | c :: d :: _ =>
    if forallb (fun x => Bool.eqb (is_int x) (is_int c)) cols
    then (if Nat.eqb (col_len c) 1 then T1 (row cols) else T2 c d)
    else TRecords
  end.

(** int64 arithmetic wraps around *)
Definition wrap64 (z : Z) : Z := ((z + 2 ^ 63) mod 2 ^ 64 - 2 ^ 63)%Z.

(** 170: speed_of_light.value**2 / freq_array**2; [None]: a division by zero *)
Definition lambda2 (f : column) : list (option R) :=
  let over (d : R) := if Req_EM_T d 0 then None else Some (299792458 ^ 2 / d) in
  match f with
  | CInt l => map (fun z => over (IZR (wrap64 (z * z)))) l
  | CFloat l => map (fun x => over (x ^ 2)) l
  end.

Definition reals (c : column) : list R := match c with CInt l => map IZR l | CFloat l => l end.
Definition ones_like (c : column) : list R := repeat 1 (col_len c).

(** numpy.arange for floats; [PErr]: ZeroDivisionError *)
Definition arange (start stop step : R) : pyres (list R) :=
  if Req_EM_T step 0 then PErr
  else POk (map (fun k => start + INR k * step) (seq 0 (Z.to_nat (Rceil ((stop - start) / step))))).

(** 97-129 [main]: frequencies and weights *)
Definition inputs (freqFile : option (list column)) (freq_parms : option (R * R * R)) (weightFile : option (list column))
  : pyres (column * list R) :=
  let source :=
    match freqFile with
    | Some cols =>
      match genfromtxt cols with
      | T2 c d => POk (c, reals d)
      | T1 c => POk (c, ones_like c)
      | TScalar | TRecords => PErr                       (* np.diff, ** of records raise at 173, 170 *)
      end
    | None =>
      match freq_parms with
      | None => PErr                                     (* 97-99 *)
      | Some (a, b, d) => pybind (arange a b d) (fun l => POk (CFloat l, ones_like (CFloat l)))
      end
    end in
  pybind source (fun fw =>
  match weightFile with
  | None => POk fw
  | Some cols =>
    match genfromtxt cols with
    | T1 w => if Nat.eqb (col_len w) (col_len (fst fw)) then POk (fst fw, reals w) else PErr
    | T2 _ _ | TScalar | TRecords => PErr                (* len() of no axis; get_rmsf_planes returns None for two axes *)
    end
  end).

(** the second difference of the signs of the first is -2 *)
Definition peaks_at (y : list (option R)) : list nat :=
  filter (fun i => match nth (i - 1) y None, nth i y None, nth (i + 1) y None with
                   | Some a, Some b, Some c => Rltb a b && Rltb c b
                   | _, _, _ => false end) (seq 1 (length y - 2)).

Record report := mk_report {
  p_theory : option R;               (* 192-196 *)
  p_fwhm : option R;                 (* 197-201 *)
  p_scale : option R;                (* 202 *)
  p_maxfd : option R;                (* 203-207 *)
  p_lobe : option (R * R)            (* 216-241: position, percent; [None]: not printed *)
}.

(** 216-241; [try ... except: pass] *)
Definition sidelobe (phi2 : list R) (cube : list (option C)) : option (R * R) :=
  let half := map (option_map Cmod) (skipn (length cube / 2) cube) in
  let y := peaks_at half in
  let peaks := map (fun i => match nth i half None with Some v => v | None => 0 end) y in
  match argmax Rltb peaks with
  | None => None
  | Some q => match nth_error (skipn (length phi2 / 2) phi2) (nth q y 0%nat) with
              | None => None
              | Some x => Some (x, nth q peaks 0 * 100)
              end
  end.

(** 150-241 [determine_RMSF_parameters]; the outer [None]: a frequency of zero,
    not modelled. [fit]: the Gaussian fit, first argument fitRMSFreal. *)
Definition determine_RMSF_parameters (fit : bool -> list R -> list (option C) -> option (Z * R))
    (freq : column) (weights : list R) (phi_max dphi : option R) (super : bool) : option (pyres report) :=
  match all_some (lambda2 freq) with
  | None => None
  | Some l2 => Some (
    match rmin_list l2, rmax_list l2 with
    | Some l2_min, Some l2_max =>
      let dl2 := median (map (fun i => Rabs (nth (S i) l2 0 - nth i l2 0)) (seq 0 (length l2 - 1))) in
      let auto c := if Req_EM_T (l2_max - l2_min) 0 then None else Some (c * 2 * sqrt 3 / (l2_max - l2_min)) in
      let pm := match phi_max with Some v => Some v | None => auto 10 end in
      let dp := match dphi with Some v => Some v | None => auto (1 / 10) end in
      match pm, dp with
      | Some pm, Some dp =>
        pybind (arange (-1 * pm / 2) (pm / 2 + 1 / 1000000) dp) (fun phi =>
        match get_rmsf_planes (fit super) l2 phi (Some (map Some weights)) None (if super then Some 0 else None) true true with
        | RetOk r => POk (mk_report
            (if Req_EM_T (l2_max - l2_min) 0 then None else Some (38 / 10 / (l2_max - l2_min)))
            (nth 0 (flat (fwhmRMSFArr r)) None)
            (if Req_EM_T l2_min 0 then None else Some (PI / l2_min))
            (match dl2 with Some d => if Req_EM_T d 0 then None else Some (sqrt 3 / d) | None => None end)
            (sidelobe (phi2Arr r) (flat (RMSFcube r))))
        | _ => PErr                                         (* no attribute fwhmRMSFArr *)
        end)
      | _, _ => PErr                                        (* arange of infinities *)
      end
    | _, _ => PErr                                          (* no channels *)
    end)
  end.
