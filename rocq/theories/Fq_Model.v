(** Frequencies in text files and headers: RMtools_3D/make_freq_file.py:37-57,
    RMtools_3D/do_RMsynth_3D.py:781-784, RMtools_3D/do_fitIcube.py:163-178, 233-258.
    Model only. Numbers are reals with the rounding of IEEE 754, overflow
    included; an infinity or NaN is None. *)
From Coq Require Import Reals List Arith ZArith Bool Ascii String.
From Flocq Require Import Core.
From Verif Require Import PyRes PyStr PyList NdArray Setup_Model Cube_Model Sx_Model Cat_Model.
Import ListNotations.
Local Notation length := List.length.
Local Open Scope R_scope.

(* ------------------------------------------------------------------ numpy *)

(** binary16, binary32, binary64: digits, least exponent, overflow *)
Record ieee := mk_ieee { i_prec : Z; i_emin : Z; i_emax : Z }.
Definition half := mk_ieee 11 (-24) 16.
Definition single := mk_ieee 24 (-149) 128.
Definition double := mk_ieee 53 (-1074) 1024.
Definition cast (f : ieee) (x : R) : option R :=
  let r := round radix2 (FLT_exp (i_emin f) (i_prec f)) ZnearestE x in
  if Rlt_dec (Rabs r) (bpow radix2 (i_emax f)) then Some r else None.

(** numpy.dtype("float" + n); other sizes are a TypeError. (numpy.float96 and
    float128 exist on some machines, but no BITPIX asks for them.) *)
Definition float_dtype (n : Z) : pyres ieee :=
  if (n =? 16)%Z then POk half else if (n =? 32)%Z then POk single else if (n =? 64)%Z then POk double else PErr.

(** "%.<p>e" % x for a finite x. A minus zero is written without its sign here. *)
Definition fmt_e (p : nat) (x : R) : str :=
  let a := Rabs x in
  let k := if Req_EM_T x 0 then 0%Z else Rfloor (log10 a) in
  let n := Z.to_nat (py_round (a * powerRZ 10 (Z.of_nat p - k))) in
  let '(k, n) := if (n =? 10 ^ (p + 1))%nat then ((k + 1)%Z, (10 ^ p)%nat) else (k, n) in
  ((if Rlt_dec x 0 then s "-" else []) ++ [digit (n / 10 ^ p)] ++ s "." ++ format0 p (n mod 10 ^ p) ++
   s "e" ++ (if (k <? 0)%Z then s "-" else s "+") ++ format0 2 (Z.to_nat (Z.abs k)))%list.
(** numpy.savetxt of a one-dimensional array: a line for each number *)
Definition savetxt (x : list R) : list str := map (fmt_e 18) x.

(** str.split(): the words between white space *)
Fixpoint words_aux (cur x : str) : list str :=
  match x with
  | [] => match cur with [] => [] | _ => [rev cur] end
  | c :: t => if is_space c then match cur with [] => words_aux [] t | _ => rev cur :: words_aux [] t end
              else words_aux (c :: cur) t
  end.
Definition words (x : str) : list str := words_aux [] x.
(** numpy.loadtxt(file, dtype): rows without comments and empty lines, all of one
    length, read as double and then cast; axes of length one are squeezed. An
    empty file gives an empty array (and a warning). *)
Definition loadtxt (f : ieee) (lines : list str) : pyres (nd (option R)) :=
  let rows := filter (fun r => match r with [] => false | _ => true end) (map (fun l => words (uncomment l)) lines) in
  match rows with
  | [] => POk (mk_nd [0%nat] [])
  | r :: _ =>
      if forallb (fun q => (length q =? length r)%nat) rows then
        pybind (pyall (map (fun q => pyall (map py_float q)) rows)) (fun v =>
        let val x := match x with Some y => match cast double y with Some z => cast f z | None => None end | None => None end in
        POk (squeeze (mk_nd [length rows; length r] (map val (List.concat v)))))
      else PErr
  end.

(* --------------------------------------------------------------- the code *)

(** make_freq_file.py:50-57: [world] is what wcslib gives for the pixel i *)
Definition get_freq_array (world : nat -> R) (nchan : nat) : list R := map world (seq 0 nchan).
(** make_freq_file.py:37-39: the file written *)
Definition save_freq_file (world : nat -> R) (nchan : nat) : list str := savetxt (get_freq_array world nchan).

(** do_RMsynth_3D.py:781-784 *)
Definition readFreqFile (lines : list str) : pyres (nd (option R)) := loadtxt double lines.

(** do_fitIcube.py:233-258. [cube]: the shape of the cube; len() of an array
    without axes raises, and so does an index of a shape without axes. *)
Definition get_frequencies (cube : list nat) (bitpix : Z) (lines : list str) : pyres (nd (option R)) :=
  pybind (float_dtype (Z.abs bitpix)) (fun f =>
  match cube with
  | [] => PErr
  | nChan :: _ =>
      pybind (loadtxt f lines) (fun a =>
      match shape a with
      | [] => PErr
      | n :: _ => if (nChan =? n)%nat then POk a else PErr
      end)
  end).
(** do_fitIcube.py:171-178 *)
Definition main_freqs (cube : list nat) (bitpix : Z) (freq_file : option (list str)) (world : nat -> R) (nchan : nat) : pyres (nd (option R)) :=
  match freq_file with
  | Some lines => get_frequencies cube bitpix lines
  | None => POk (mk_nd [nchan] (map Some (get_freq_array world nchan)))
  end.
