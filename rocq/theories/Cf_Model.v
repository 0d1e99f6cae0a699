(** One pixel of RM-CLEAN with the rounding left in:
    /repo/RMutils/util_RM.py:687-778. Model only.

    The definitions follow Clean_Model, with every operation on complex numbers
    taken from [a]. Overflow and underflow are not modelled: the exponent range
    of a float is unbounded. A modulus is compared with the limit without
    rounding (the wider type holds both). *)
From Coq Require Import Reals List Arith ZArith Bool.
Set Warnings "-ambiguous-paths".
From Coquelicot Require Import Coquelicot.
From Verif Require Import PyRes CBase NdArray PyList Synth_Model Clean_Model Cf_Arith.
Import ListNotations.
Local Open Scope R_scope.

Section Pixel.
  Variables (a : arith) (RMSF : list C) (phi : list R) (fwhm gain : R) (imax pad : nat).

  (** 704, 739: numpy.max of numpy.abs (a modulus is not negative) *)
  Definition maxabs_fl (l : list C) : R := fold_right (fun z m => Rmax (a_abs a z) m) 0 l.
  (** 706, 747: numpy.argmax of numpy.abs *)
  Definition argmax_fl (l : list C) : option nat := argmax (fun x y => Rltb (a_abs a x) (a_abs a y)) l.

  (** 705-728 (identical to 746-769) *)
  Definition step_fl (i : nat) (s : cst) : pyres cst :=
    let peak := nth i (resid s) (RtoC 0) in
    let CC := a_scal a gain peak in
    let sh := shifted RMSF imax pad i in
    if negb (Nat.eqb (length sh) (length (resid s))) then PErr
    else POk (mk_cst
      (map (fun rs => a_sub a (fst rs) (a_mul a CC (snd rs))) (combine (resid s) sh))
      (upd (cc s) i (fun z => a_add a z CC))
      (map (fun cx => a_add a (fst cx) (a_gauss a CC (nth i phi 0) fwhm (snd cx))) (combine (cln s) phi))
      (S (iters s))).

  (** 703-728 *)
  Fixpoint loop1_fl (cutoff : R) (rem : nat) (s : cst) : pyres cst :=
    match rem with
    | O => POk s
    | S rem' =>
        if Rle_dec cutoff (maxabs_fl (resid s)) then
          match argmax_fl (resid s) with
          | None => PErr
          | Some i => match step_fl i s with PErr => PErr | POk s' => loop1_fl cutoff rem' s' end
          end
        else POk s
    end.

  (** 730-737. [ends i]: the window around channel i, int(i - pix / 2) and
      int(i + pix / 2) in the arithmetic of the grid. *)
  Definition mask_fl (ends : nat -> Z * Z) (ccs : list C) : list bool :=
    let n := length ccs in
    let has i := if Rlt_dec 0 (a_abs a (nth i ccs (RtoC 0))) then true else false in
    map (fun j => has j || existsb (fun i => has i && in_slice n (fst (ends i)) (snd (ends i)) j) (seq 0 n)) (seq 0 n).

  (** 738-772 *)
  Fixpoint loop2_fl (window : option R) (mask : list bool) (rem : nat) (s : cst) : pyres cst :=
    match rem with
    | O => POk s
    | S rem' =>
      match window with
      | None => POk s
      | Some w =>
        let js := open_chans mask in
        let vals := map (fun j => nth j (resid s) (RtoC 0)) js in
        match argmax_fl vals with
        | None => POk s
        | Some k =>
          if Rle_dec w (maxabs_fl vals) then
            match step_fl (nth k js 0%nat) s with PErr => PErr | POk s' => loop2_fl window mask rem' s' end
          else POk s
        end
      end
    end.
End Pixel.

(** util_RM.py:687-778 [_cleanloop] for a pixel with finite dirty spectrum *)
Definition cleanloop_fl (a : arith) (ends : nat -> Z * Z) (dirty RMSF : list C) (phi : list R) (fwhm gain cutoff : R)
    (window : option R) (maxIter : nat) : pyres cst :=
  match argmax cltb RMSF with
  | None => PErr
  | Some imax =>
    let n := length phi in
    let pad := Nat.div2 (length RMSF - n) in
    let z := map (fun _ => RtoC 0) dirty in
    match loop1_fl a RMSF phi fwhm gain imax pad cutoff maxIter (mk_cst dirty z z 0) with
    | PErr => PErr
    | POk s1 =>
      if Nat.ltb n 2 then PErr
      else loop2_fl a RMSF phi fwhm gain imax pad window (mask_fl a ends (cc s1)) (maxIter - iters s1) s1
    end
  end.
