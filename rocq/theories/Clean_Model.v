(** RM-CLEAN: /repo/RMutils/util_RM.py:472-778 and gauss1D 872-881. Model only. *)
From Coq Require Import Reals List Arith ZArith Bool.
Set Warnings "-ambiguous-paths".
From Coquelicot Require Import Coquelicot.
From Verif Require Import PyRes CBase NdArray PyList Synth_Model.
Import ListNotations.
Local Open Scope R_scope.

(** util_RM.py:872-881 [gauss1D]; amplitude complex, as CLEAN uses it.
    sigma = 0 (division by zero) is not modelled specially. *)
Definition gauss1D (amp : C) (mean fwhm x : R) : C :=
  let gfactor := 2 * sqrt (2 * ln 2) in
  let sigma := fwhm / gfactor in
  (amp * RtoC (exp (- ((x - mean) ^ 2) / (2 * sigma ^ 2))))%C.

(** numpy orders complex numbers lexicographically. *)
Definition cltb (a b : C) : bool :=
  if Rlt_dec (fst a) (fst b) then true
  else if Req_EM_T (fst a) (fst b) then Rltb (snd a) (snd b) else false.

(** State of the loop of one pixel (util_RM.py:689-703). *)
Record cst := mk_cst { resid : list C; cc : list C; cln : list C; iters : nat }.

(** numpy.max of the moduli (non-empty list). *)
Definition maxabs (l : list C) : R := fold_right (fun z m => Rmax (Cmod z) m) 0 l.

Section Pixel.
  (* attributes of RMcleaner, for one pixel: finite spectra *)
  Variables (RMSF : list C) (phi : list R) (fwhm gain : R).
  Variables (imax pad : nat).   (* indxMaxRMSF (697), nPhiPad (701) *)

  (** 717-720: roll the RMSF and clip. *)
  Definition shifted (i : nat) : list C :=
    py_slice (np_roll (RtoC 0) RMSF (Z.of_nat (i + pad) - Z.of_nat imax)) (Z.of_nat pad) (- Z.of_nat pad).

  (** 705-728 (identical to 746-769): one iteration at channel i. [PErr]: the
      in-place subtraction of arrays of different lengths raises ValueError. *)
  Definition clean_step (i : nat) (s : cst) : pyres cst :=
    let peak := nth i (resid s) (RtoC 0) in
    let CC := (RtoC gain * peak)%C in
    let sh := shifted i in
    if negb (Nat.eqb (length sh) (length (resid s))) then PErr
    else POk (mk_cst
      (map (fun rs => (fst rs - CC * snd rs)%C) (combine (resid s) sh))
      (upd (cc s) i (fun z => (z + CC)%C))
      (map (fun cx => (fst cx + gauss1D CC (nth i phi 0) fwhm (snd cx))%C) (combine (cln s) phi))
      (S (iters s))).

  (** 703-728: first loop. [rem] = maxIter - iterCount. *)
  Fixpoint loop1 (cutoff : R) (rem : nat) (s : cst) : pyres cst :=
    match rem with
    | O => POk s
    | S rem' =>
        if Rle_dec cutoff (maxabs (resid s)) then
          match argmax (fun a b => Rltb (Cmod a) (Cmod b)) (resid s) with
          | None => PErr
          | Some i => match clean_step i s with
                      | PErr => PErr
                      | POk s' => loop1 cutoff rem' s'
                      end
          end
        else POk s
    end.

  (** 730-737: channels to clean more deeply. [i] runs over the channels with
      a component (evaluated before the mask is changed). *)
  Definition win_mask (ccs : list C) : list bool :=
    let n := length ccs in
    let dPhi := nth 1 phi 0 - nth 0 phi 0 in
    let fp := fwhm / dPhi in
    let has i := if Rlt_dec 0 (Cmod (nth i ccs (RtoC 0))) then true else false in
    map (fun j =>
      has j || existsb (fun i => has i &&
          in_slice n (py_int (INR i - fp / 2)) (py_int (INR i + fp / 2)) j) (seq 0 n)) (seq 0 n).

  (** unmasked channels *)
  Definition open_chans (mask : list bool) : list nat :=
    filter (fun j => nth j mask false) (seq 0 (length mask)).

  (** 738-772: second loop; [window = None] is NaN, for which the comparison
      is false. A fully masked array also ends the loop. *)
  Fixpoint loop2 (window : option R) (mask : list bool) (rem : nat) (s : cst) : pyres cst :=
    match rem with
    | O => POk s
    | S rem' =>
      match window with
      | None => POk s
      | Some w =>
        let js := open_chans mask in
        let vals := map (fun j => nth j (resid s) (RtoC 0)) js in
        match argmax (fun a b => Rltb (Cmod a) (Cmod b)) vals with
        | None => POk s                     (* everything masked *)
        | Some a =>
          if Rle_dec w (maxabs vals) then
            match clean_step (nth a js 0%nat) s with
            | PErr => PErr
            | POk s' => loop2 window mask rem' s'
            end
          else POk s
        end
      end
    end.
End Pixel.

(** util_RM.py:687-778 [_cleanloop] for a pixel with finite dirty spectrum. *)
Definition cleanloop (dirty RMSF : list C) (phi : list R) (fwhm gain cutoff : R)
    (window : option R) (maxIter : nat) : pyres cst :=
  match argmax cltb RMSF with                            (* 697 *)
  | None => PErr
  | Some imax =>
    let n := length phi in
    let pad := Nat.div2 (length RMSF - n) in             (* 701 *)
    let z := map (fun _ => RtoC 0) dirty in
    match loop1 RMSF phi fwhm gain imax pad cutoff maxIter (mk_cst dirty z z 0) with
    | PErr => PErr
    | POk s1 =>
      if Nat.ltb n 2 then PErr                           (* 732: IndexError *)
      else loop2 RMSF phi fwhm gain imax pad window (win_mask phi fwhm (cc s1))
                 (maxIter - iters s1) s1
    end
  end.

(** The same for spectra that may contain NaN ([None]). A NaN in the dirty
    spectrum makes numpy.max NaN, so neither loop runs and no channel has a
    component. An RMSF that is all NaN makes nanargmax raise ValueError; an
    RMSF that is partly NaN does not occur (get_rmsf_planes) and is treated
    here like an exception once components are needed. A NaN width raises in
    int() at line 735 as soon as there is a component. *)
Record pix_out := mk_out { o_clean : list (option C); o_resid : list (option C); o_cc : list (option C); o_iter : nat }.

Definition cleanloop_nan (dirty RMSF : list (option C)) (phi : list R) (fwhm : option R)
    (gain cutoff : R) (window : option R) (maxIter : nat) : pyres pix_out :=
  match all_some dirty with
  | None =>
      if negb (existsb is_some RMSF) then PErr
      else if Nat.ltb (length phi) 2 then PErr
      else let z := map (fun _ => Some (RtoC 0)) dirty in POk (mk_out z dirty z 0)
  | Some d =>
      match all_some RMSF, fwhm with
      | Some rm, Some fw =>
        match cleanloop d rm phi fw gain cutoff window maxIter with
        | POk s => POk (mk_out (map Some (cln s)) (map Some (resid s)) (map Some (cc s)) (iters s))
        | PErr => PErr
        end
      | _, _ => PErr
      end
  end.

(* ------------------------------------------------------------------ cube *)

Record rmclean_results := mk_clean {
  cleanFDF : nd (option C); ccArr : nd (option C); iterCountArr : nd nat; residFDF : nd (option C) }.

(** [RetNone4]: a sanity check failed, four Nones are returned. *)
Inductive clean_ret := CRetNone4 | CRaise | CRetOk (r : rmclean_results).

Definition cadd (a b : option C) : option C :=
  match a, b with Some a, Some b => Some (a + b)%C | _, _ => None end.

(** column p of an array with m pixels per plane *)
Definition col {A} (m : nat) (d : A) (l : list A) (n p : nat) : list A :=
  map (fun k => at2 m d l k p) (seq 0 n).

(** 565-568: does the pixel reach the cutoff (NaN counts as 0)? *)
Definition above (cutoff : R) (spec : list (option C)) : bool :=
  if Rle_dec cutoff (maxabs (map nan_to_num spec)) then true else false.

(** Run the per-pixel loop over a list of pixels, stopping at an exception. *)
Fixpoint run_all {A} (f : nat -> pyres A) (ps : list nat) : pyres (list A) :=
  match ps with
  | [] => POk []
  | p :: t => match f p with
              | PErr => PErr
              | POk a => match run_all f t with PErr => PErr | POk l => POk (a :: l) end
              end
  end.

(** 621-626: write results back by pixel; later entries overwrite. *)
Definition lookup {A} (p : nat) (l : list (nat * A)) : option A :=
  match find (fun x => Nat.eqb (fst x) p) (rev l) with Some x => Some (snd x) | None => None end.

(** 603-616: [pool.imap]. Tasks are the positions in [ps]; the workers finish
    them in the order [sched]; results are stored by task number and handed
    back in task order, an exception being raised when its result is reached. *)
Definition pool_imap {A} (f : nat -> pyres A) (ps sched : list nat) : pyres (list A) :=
  let table := fold_left (fun t i => (i, f (nth i ps 0%nat)) :: t) sched [] in
  run_all (fun i => match find (fun x => Nat.eqb (fst x) i) table with
                    | Some x => snd x | None => PErr end) (seq 0 (length ps)).

(** util_RM.py:472-638 [do_rmclean_hogbom]. [pool = Some sched] is a pool of
    worker processes which finish in the order [sched]; each worker updates its
    own copy of iterCountArr, so the array of the caller keeps its zeros.
    [fwhm] has one value per pixel. The
    pixel mask [mskArr] only takes part in the shape check (538-548), so its
    shape is all that is passed. *)
Definition do_rmclean_hogbom (dirty : nd (option C)) (phi : list R) (RMSF : nd (option C))
    (phi2 : list R) (fwhm : list (option R)) (cutoff : R) (maxIter : nat) (gain : R)
    (mskShape : option (list nat)) (pool : option (list nat)) (window : option R) : clean_ret :=
  let nPhi := length phi in
  let nPhi2 := length phi2 in
  if negb (Nat.eqb nPhi (nth 0 (shape dirty) 0%nat)) then CRetNone4
  else if negb (Nat.eqb nPhi2 (nth 0 (shape RMSF) 0%nat)) then CRetNone4
  else if negb (Nat.leb (2 * nPhi) nPhi2) then CRetNone4
  else
  let nDims := length (shape dirty) in
  if negb (Nat.leb nDims 3) then CRetNone4
  else if negb (Nat.eqb nDims (length (shape RMSF))) then CRetNone4
  else if negb (if list_eq_dec Nat.eq_dec (tl (shape RMSF)) (tl (shape dirty)) then true else false) then CRetNone4
  else if match mskShape with
          | Some s => negb (if list_eq_dec Nat.eq_dec s (tl (shape dirty)) then true else false)
          | None => false end then CRetNone4
  else
  let m := prodn (tl (shape dirty)) in
  let spec p := col m None (flat dirty) nPhi p in
  let coords := rev (filter (fun p => above cutoff (spec p)) (seq 0 m)) in
  let task p := cleanloop_nan (spec p) (col m None (flat RMSF) nPhi2 p) phi
                            (nth p fwhm None) gain cutoff window maxIter in
  match match pool with None => run_all task coords | Some sched => pool_imap task coords sched end with
  | PErr => CRaise
  | POk outs =>
    let res := combine coords outs in
    let cube (sel : pix_out -> list (option C)) (dflt : nat -> nat -> option C) :=
      tab2 nPhi m (fun k p => match lookup p res with
                              | Some o => nth k (sel o) None
                              | None => dflt k p end) in
    let rs := cube o_resid (fun k p => at2 m None (flat dirty) k p) in
    let cl := cube o_clean (fun _ _ => Some (RtoC 0)) in
    let it := map (fun p => match lookup p res with
                            | Some o => match pool with Some _ => 0%nat | None => o_iter o end
                            | None => 0%nat end) (seq 0 m) in
    let out l := squeeze (mk_nd (shape dirty) l) in
    CRetOk (mk_clean
      (out (map (fun ab => cadd (fst ab) (snd ab)) (combine cl rs)))      (* 630 *)
      (out (cube o_cc (fun _ _ => Some (RtoC 0))))
      (squeeze (mk_nd (tl (shape dirty)) it))
      (out rs))
  end.
