(** Catalogues and the simulated data made from them: RMutils/util_misc.py
    (csv_read_to_list, split_repeat_lst, twodgaussian),
    RMtools_1D/mk_test_ascii_data.py and RMtools_3D/mk_test_cube_data.py.
    Model only.

    Text is ASCII; a file is its text after Python's newline translation (lines
    end with \n). Numbers are exact; float32 casts are left out. The random
    numbers are an argument. *)
From Coq Require Import Reals List Arith ZArith Bool Ascii String.
Set Warnings "-ambiguous-paths".
From Coquelicot Require Import Coquelicot.
From Verif Require Import CBase PyRes PyStr PyList NdArray NdIndex Measure_Model QU_Model Cube_Model Run1D_Model.
Import ListNotations.
Local Open Scope R_scope.

(* --------------------------------------------------------------- float(x) *)

(** what str.strip and \s take for white space *)
Definition is_space (c : ascii) : bool :=
  let n := nat_of_ascii c in ((n =? 32) || (9 <=? n) && (n <=? 13) || (28 <=? n) && (n <=? 31))%nat.
Fixpoint lstrip (x : str) : str := match x with [] => [] | c :: t => if is_space c then lstrip t else x end.
Definition strip (x : str) : str := rev (lstrip (rev (lstrip x))).

Definition digit_val (c : ascii) : Z := (Z.of_nat (nat_of_ascii c) - 48)%Z.
(** a run of digits, with single underscores between them: value, number of
    digits, rest *)
Fixpoint digs (x : str) (acc : Z) (n : nat) : Z * nat * str :=
  match x with
  | [] => (acc, n, [])
  | c :: t =>
      if is_digit c then digs t (10 * acc + digit_val c)%Z (S n)
      else if (ch_eqb c "_"%char && (0 <? n)%nat && match t with d :: _ => is_digit d | [] => false end)%bool then digs t acc n
      else (acc, n, x)
  end.
(** +x, -x, x *)
Definition sign_of (x : str) : Z * str :=
  match x with
  | c :: t => if ch_eqb c "-"%char then ((-1)%Z, t) else if ch_eqb c "+"%char then (1%Z, t) else (1%Z, x)
  | [] => (1%Z, x)
  end.
(** digits, digits after a point, exponent; at least one digit before the exponent *)
Definition unsigned (x : str) : option R :=
  let '(m, n, r) := digs x 0 0 in
  let '(m, k, r) := match r with
                    | c :: t => if ch_eqb c "."%char then digs t m 0 else (m, 0%nat, r)
                    | [] => (m, 0%nat, r) end in
  if (n + k =? 0)%nat then None
  else match r with
       | [] => Some (IZR m * powerRZ 10 (- Z.of_nat k))
       | c :: t =>
           if (ch_eqb c "e"%char || ch_eqb c "E"%char)%bool then
             let '(g, t) := sign_of t in
             match digs t 0 0 with
             | (e, S _, []) => Some (IZR m * powerRZ 10 (g * e - Z.of_nat k))
             | _ => None
             end
           else None
       end.
Definition lower (c : ascii) : ascii :=
  let n := nat_of_ascii c in if ((65 <=? n) && (n <=? 90))%nat then ascii_of_nat (n + 32) else c.
(** float(x): None for an infinity or NaN; anything else raises ValueError *)
Definition py_float (x : str) : pyres (option R) :=
  let '(g, t) := sign_of (strip x) in
  let l := map lower t in
  if (str_eqb l (s "inf") || str_eqb l (s "infinity") || str_eqb l (s "nan"))%bool then POk None
  else match unsigned t with Some v => POk (Some (IZR g * v)) | None => PErr end.

(* ------------------------------------------------------- csv_read_to_list *)

(** re.sub(r"#.*", "", line) *)
Fixpoint uncomment (x : str) : str := match x with [] => [] | c :: t => if ch_eqb c "#"%char then [] else c :: uncomment t end.
(** re.sub(r"\s+", " ", line); [b]: inside white space *)
Fixpoint shrink (b : bool) (x : str) : str :=
  match x with
  | [] => []
  | c :: t => if is_space c then (if b then shrink true t else " "%char :: shrink true t) else c :: shrink false t
  end.
(** util_misc.py:252-269, one line; None: nothing is appended. The delimiter is a comma. *)
Definition csv_line (line : str) : option (list str) :=
  match line with
  | c :: _ => if ch_eqb c "#"%char then None
              else let line := shrink false (strip (uncomment line)) in
                   match line with [] => None | _ => Some (split ","%char line) end
  | [] => None
  end.
Fixpoint opts {A} (l : list (option A)) : list A := match l with [] => [] | Some a :: t => a :: opts t | None :: t => opts t end.
(** 236-270 [csv_read_to_list] without doFloat, and with it *)
Definition csv_rows (text : str) : list (list str) := opts (map csv_line (split "010"%char text)).
Definition csv_read_to_list (text : str) : pyres (list (list (option R))) := pyall (map (fun row => pyall (map py_float row)) (csv_rows text)).

(** zip( *[iter(l)] * n ): full groups of n *)
Fixpoint groups_fuel {A} (fuel n : nat) (l : list A) : list (list A) :=
  match fuel with
  | O => []
  | S f => if (List.length l <? n)%nat then [] else firstn n l :: groups_fuel f n (skipn n l)
  end.
Definition groups {A} (n : nat) (l : list A) : list (list A) := groups_fuel (List.length l) n l.
(** 296-305 [split_repeat_lst]: the preamble and the columns; without a group
    the array has no column *)
Definition split_repeat_lst {A} (d : A) (inLst : list A) (nPre nRepeat : nat) : list A * list (list A) :=
  let g := groups nRepeat (skipn nPre inLst) in
  (firstn nPre inLst, match g with [] => [] | _ => map (fun k => map (fun r => nth k r d) g) (seq 0 nRepeat) end).

(* ---------------------------------------------------- the spectra of a row *)

(** The source of one row (mk_test_ascii_data.py:345-388, mk_test_cube_data.py:374-411).
    [Other]: another type of model, skipped. [NotFinite]: a value used is NaN or
    infinite; what is computed then is not modelled. *)
Inductive source := Source (pre : list R) (I Q U : list (option R)) | Other | NotFinite.
Fixpoint finite_row (l : list (option R)) : option (list R) :=
  match l with [] => Some [] | Some v :: t => option_map (cons v) (finite_row t) | None :: _ => None end.
(** preLst[5], parmArr[0], ... raise IndexError when the row is too short *)
Definition row_source (freq : list (option R)) (freq0 : R) (e : list (option R)) : pyres source :=
  match e with
  | [] => PErr
  | None :: _ => PErr
  | Some ty :: rest =>
      let modelType := py_int ty in
      if (modelType =? 1)%Z then
        let '(pre, parm) := split_repeat_lst None rest 7 4 in
        if ((List.length pre <? 7) || (List.length parm =? 0))%nat then PErr
        else match finite_row pre, map finite_row parm with
             | Some pre, [Some p; Some psi; Some RM; Some sg] =>
                 pybind (create_IQU_spectra_burn freq (nth 5 pre 0) (nth 6 pre 0) p psi RM (Some sg) (Some freq0)) (fun x =>
                 POk (Source pre (fst (fst x)) (snd (fst x)) (snd x)))
             | _, _ => POk NotFinite
             end
      else if (modelType =? 2)%Z then
        let '(pre, parm) := split_repeat_lst None rest 7 3 in
        if ((List.length pre <? 7) || (List.length parm =? 0))%nat then PErr
        else match finite_row pre, map finite_row parm with
             | Some pre, [Some p; Some psi; Some RM] =>
                 pybind (create_IQU_spectra_diff true freq (nth 5 pre 0) (nth 6 pre 0) p psi RM (Some freq0)) (fun x =>
                 POk (Source pre (fst (fst x)) (snd (fst x)) (snd x)))
             | _, _ => POk NotFinite
             end
      else POk Other
  end.

(* ----------------------------------------------------- mk_test_ascii_data *)

(** numpy.linspace for at least two samples *)
Definition linspace (a b : R) (n : nat) : list R := map (fun i => a + INR i * ((b - a) / INR (n - 1))) (seq 0 n).
(** 281-284 of the ASCII tool, 297-300 of the cube tool *)
Definition in_ranges (flags : list (R * R)) (f : R) : bool := existsb (fun r => Rleb (fst r) f && Rleb f (snd r))%bool flags.
Definition flag_freqs (flags : list (R * R)) (freq : list R) : list (option R) := map (fun f => if in_ranges flags f then None else Some f) freq.
(** 220-226 [main]: the ranges of -l; what cannot be read means no flags, and the last of an odd number is dropped *)
Definition flag_ranges (x : str) : list (option R * option R) :=
  match x with
  | [] => []
  | _ => match pyall (map py_float (split ","%char x)) with
         | POk l => map (fun g => (nth 0 g None, nth 1 g None)) (groups 2 l)
         | PErr => []
         end
  end.

(** one output file: its number and its rows [freq, I, Q, U, dI, dQ, dU] *)
Definition col (l : list (option R)) (k : nat) : option R := nth k l None.
Definition noisy (x : option R) (rms z : R) (n : option R) : option R := oadd x (omul (Some (rms * z)) n).
Definition error_of (rms z : R) (n : option R) : option R := omul (omul n (Some rms)) (Some (1 + z / 20)).
Record ascii_file := mk_ascii { a_number : nat; a_rows : option (list (list (option R))) }.

(** 254-420 [create_IQU_ascii_data]. [gauss i c k]: the standard normal number
    drawn for row i of the catalogue, column c, channel k. [noise]: the noise
    curve, one value per channel (293-303). The number of channels is at least
    two (277 divides by nChans - 1). *)
Definition create_IQU_ascii_data (gauss : nat -> nat -> nat -> R) (text : str) (startFreq endFreq : R) (nChans : nat) (rmsNoise : R)
    (noise : list (option R)) (flags : list (R * R)) (freq0 : option R) : pyres (list ascii_file) :=
  if (nChans <? 2)%nat then PErr
  else
  let freq := flag_freqs flags (linspace startFreq endFreq nChans) in
  pybind (csv_read_to_list text) (fun cat =>
  let f0 := match freq0 with Some f => f | None => startFreq end in
  pybind (pyall (map (fun ie => pybind (row_source freq f0 (snd ie)) (fun x =>
    match x with
    | Other => POk None
    | NotFinite => if Rlt_dec rmsNoise 0 then PErr else POk (Some (mk_ascii (fst ie + 1) None))
    | Source _ si sq su =>
        if Rlt_dec rmsNoise 0 then PErr                       (* normal: scale < 0 *)
        else POk (Some (mk_ascii (fst ie + 1) (Some (map (fun k =>
          [col freq k;
           noisy (col si k) rmsNoise (gauss (fst ie) 1%nat k) (col noise k); noisy (col sq k) rmsNoise (gauss (fst ie) 2%nat k) (col noise k);
           noisy (col su k) rmsNoise (gauss (fst ie) 3%nat k) (col noise k);
           error_of rmsNoise (gauss (fst ie) 4%nat k) (col noise k); error_of rmsNoise (gauss (fst ie) 5%nat k) (col noise k);
           error_of rmsNoise (gauss (fst ie) 6%nat k) (col noise k)]) (seq 0 nChans)))))
    end)) (combine (seq 0 (List.length cat)) cat))) (fun r => POk (opts r))).

(** do_RMsynth_1D.py:531-588 [readFile]: numpy.loadtxt(unpack=True) makes the
    rows of the file columns; seven, or else five, of them. Rows of different
    lengths raise, and the tool ends. Left out: rounding by nBits, and a frequency
    that is not a number (PErr here; the tool goes on with it). *)
Definition column (rows : list (list (option R))) (c : nat) : list (option R) := map (fun r => col r c) rows.
Definition readFile (rows : list (list (option R))) : pyres synth_data :=
  match rows with
  | [] => PErr
  | r :: _ =>
      if forallb (fun r' => List.length r' =? List.length r)%nat rows then
        match finite_row (column rows 0) with
        | None => PErr
        | Some f => if (List.length r =? 7)%nat then POk (Data7 f (column rows 1) (column rows 2) (column rows 3) (column rows 4) (column rows 5) (column rows 6))
                    else if (List.length r =? 5)%nat then POk (Data5 f (column rows 1) (column rows 2) (column rows 3) (column rows 4))
                    else PErr
        end
      else PErr
  end.

(* ------------------------------------------------------ mk_test_cube_data *)

(** util_misc.py:1134-1162 [twodgaussian]; None amplitude: all NaN *)
Definition twodgaussian (amp : option R) (xo yo cx cy pa : R) (y x : nat) : option R :=
  let st := sin pa ^ 2 in let ct := cos pa ^ 2 in let s2t := sin (2 * pa) in
  let a := (ct / cx ^ 2 + st / cy ^ 2) / 2 in
  let b := s2t / 4 * (1 / cy ^ 2 - 1 / cx ^ 2) in
  let c := (st / cx ^ 2 + ct / cy ^ 2) / 2 in
  let dx := INR x - xo in let dy := INR y - yo in
  option_map (fun v => v * exp (-1 * (a * dx ^ 2 + 2 * b * dx * dy + c * dy ^ 2))) amp.

(** the beam and the sky of the cube (the variables at the top of the script) *)
Record sky := mk_sky { k_nx : nat; k_ny : nat; k_bmin : R; k_bmaj : R; k_bpa : R; k_pix : R; k_gal : bool }.
Record cube_files := mk_cube_files { cu_I : image (option R); cu_Q : image (option R); cu_U : image (option R); cu_freq : list R; cu_start : R; cu_step : R }.

(** util_FITS.py:441-446 and 455-470 [create_simple_fits_hdu] *)
Definition cube_ctype (gal : bool) : list (option str) :=
  [Some (if gal then s "GLON-CAR" else s "RA-SIN"); Some (if gal then s "GLAT-CAR" else s "DEC-SIN"); Some (s "FREQ"); Some (s "STOKES")].

(** 259-497 [create_IQU_cube_data]. [copies]: astropy's PrimaryHDU.copy, used at
    353 and 355 to make the Q and U files from the I file, copies the array of
    pixels; if not the three are one array. [world2pix]: astropy's wcs_world2pix on the two sky
    axes, pixels from zero. [gauss p c y x]: the standard normal number for
    channel c of the Stokes parameter p. Sources with values that are not finite
    are not modelled (PErr). Pixel scale and beam are not zero (else 357-362
    raise or give NaN). *)
Definition create_IQU_cube_data (copies : bool) (gauss : nat -> nat -> nat -> nat -> R) (world2pix : R -> R -> R * R) (text : str) (startFreq endFreq : R) (nChans : nat)
    (rmsNoise : R) (k : sky) (noise : list (option R)) (flags : list (R * R)) (freq0 : R) : pyres cube_files :=
  if (nChans <? 2)%nat then PErr
  else
  let freqs := linspace startFreq endFreq nChans in
  let freq := flag_freqs flags freqs in
  let dFreq := (endFreq - startFreq) / INR (nChans - 1) in
  pybind (csv_read_to_list text) (fun cat =>
  let gfactor := 2 * sqrt (2 * ln 2) in
  let bmin := k_bmin k / gfactor / k_pix k in
  let bmaj := k_bmaj k / gfactor / k_pix k in
  let pa := k_bpa k * (PI / 180) in
  pybind (pyall (map (fun e => pybind (row_source freq freq0 e) (fun x =>
    match x with Other => POk None | NotFinite => PErr | Source pre si sq su => POk (Some (world2pix (nth 0 pre 0) (nth 1 pre 0), (si, sq, su))) end)) cat)) (fun r =>
  if Rlt_dec rmsNoise 0 then PErr
  else
  (* the Stokes parameters added to an array, in order *)
  let pick (t : list (option R) * list (option R) * list (option R)) (p : nat) := nth p [fst (fst t); snd (fst t); snd t] [] in
  let array (ps : list nat) :=
    tab_nd [1%nat; nChans; k_ny k; k_nx k] (fun i =>
      let c := nth 1 i 0%nat in let y := nth 2 i 0%nat in let x := nth 3 i 0%nat in
      fold_left (fun v p => noisy v rmsNoise (gauss p c y x) (col noise c)) ps
        (fold_left (fun v src => fold_left (fun v p => oadd v (twodgaussian (col (pick (snd src) p) c) (fst (fst src)) (snd (fst src)) bmin bmaj pa y x)) ps v) (opts r) (Some 0))) in
  let file p := mk_image [k_nx k; k_ny k; nChans; 1%nat] (cube_ctype (k_gal k)) (array (if copies then [p] else [0; 1; 2]%nat)) in
  POk (mk_cube_files (file 0%nat) (file 1%nat) (file 2%nat) freqs startFreq dFreq))).
