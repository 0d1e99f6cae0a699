(** Headers of the products of the 3-D tools:
    RMtools_3D/do_RMsynth_3D.py:366-682, do_RMclean_3D.py:216-335,
    do_fitIcube.py:328-393 and 565-651, rescale_I_model_3D.py:301-341.
    Model only.

    Headers are those handed to astropy, which sets BITPIX, NAXIS and NAXISn of
    the file from the data. A new card goes to the end of the list (astropy puts
    it before the comments at the end). Comments of cards are left out.
    Exceptions are PErr; files written before an exception are not kept. *)
From Coq Require Import Reals List Arith ZArith Bool Ascii String.
From Verif Require Import PyRes PyStr PyList NdArray Setup_Model Synth_Model Measure_Model Cube_Model Icube_Model Header_Model Fits_Model.
Import ListNotations.
Local Open Scope nat_scope.

(** "CTYPE" + str(i) *)
Definition kw (w : string) (i : nat) : str := (s w ++ str_of_nat i)%list.
(** header["NAXIS"]; not negative *)
Definition naxis_of (h : fheader) : pyres nat := pybind (hint (s "NAXIS") h) (fun n => POk (Z.to_nat n)).
(** header["CTYPE" + str(i)] if it is a text *)
Definition ctype_of (h : fheader) (i : nat) : option str := match hget (kw "CTYPE" i) h with Some (HStr t) => Some t | _ => None end.
Definition ctypes (h : fheader) (n : nat) : list (option str) := map (ctype_of h) (seq 1 n).

(** header["HISTORY"] = line: after the last line of history, or at the end *)
Fixpoint add_after_last (k : str) (v : hval) (h : fheader) : option fheader :=
  match h with
  | [] => None
  | c :: t => match add_after_last k v t with
              | Some t' => Some (c :: t')
              | None => if str_eqb k (fst c) then Some (c :: (k, v) :: t) else None
              end
  end.
Definition add_history (line : str) (h : fheader) : fheader :=
  match add_after_last (s "HISTORY") (HStr line) h with Some h' => h' | None => (h ++ [(s "HISTORY", HStr line)])%list end.

(* ---------------------------------------------------------- do_RMsynth_3D *)

(** 672-675, and 619-621: the last axis whose CTYPE contains STOKES. An axis
    without CTYPE, or with a CTYPE that is not a text, raises. *)
Definition stokes_axis (h : fheader) : pyres (option nat) :=
  pybind (naxis_of h) (fun n =>
  if forallb (fun c => is_some c) (ctypes h n)
  then POk (fold_left (fun acc i => match ctype_of h i with Some t => if contains (s "STOKES") t then Some i else acc | None => acc end) (seq 1 n) None)
  else PErr).

(** 669 *)
Definition stokes_num (st : str) : Z :=
  let u := upper st in
  if str_eqb u (s "I") then 1%Z else if str_eqb u (s "Q") then 2%Z else if str_eqb u (s "U") then 3%Z else if str_eqb u (s "V") then 4%Z else 0%Z.

(** 664-682 [_setStokes] *)
Definition setStokes (h : fheader) (st : str) : pyres fheader :=
  pybind (stokes_axis h) (fun sa =>
  let h := match sa with
           | Some a => hset (kw "CRVAL" a) (HInt (stokes_num st)) (hset (kw "CRPIX" a) (HNum 1) h)
           | None => h
           end in
  POk (hset (s "STOKES") (HStr st) h)).

(** 426-448: the headers of the real, the imaginary and the total cube *)
Definition three (h : fheader) : pyres (fheader * fheader * fheader) :=
  pybind (setStokes h (s "Q")) (fun q =>
  pybind (setStokes q (s "U")) (fun u =>
  pybind (setStokes u (s "PI")) (fun p => POk (q, u, hpop (s "STOKES") p)))).

(** 368-379 *)
Definition freq_axis (h : fheader) (n : nat) : nat := find_axis (s "FREQ") n (ctypes h n).

(** 367-405; the list of lengths of 396-398 needs every NAXISi *)
Definition base_header (tmpl : fheader) (lam0 : option R) : pyres (fheader * nat) :=
  pybind (naxis_of tmpl) (fun n =>
  let f := freq_axis tmpl n in
  let h := hset (kw "CUNIT" f) (HStr (s "rad/m^2")) (hset (kw "CTYPE" f) (HStr (s "FDEP")) tmpl) in
  let h := hset (s "LAMSQ0") (HNum (match lam0 with Some l => l | None => 0%R end)) h in
  let h := hpop (s "DATAMIN") (hpop (s "DATAMAX") h) in
  if negb (forallb (fun i => is_some (hget (kw "NAXIS" i) h)) (seq 1 n)) then PErr
  else if n =? 0 then PErr                                                     (* 400: del of an empty list *)
  else match hget (s "BUNIT") h with
       | None => POk (h, f)
       | Some (HStr u) => POk (hset (s "BUNIT") (HStr (u ++ s "/RMSF")%list) h, f)
       | Some _ => PErr
       end).

(** 409-418, 485-494 *)
Definition depth_cards (f : nat) (phi : list R) (h : fheader) : pyres fheader :=
  pybind (write_depth_axis phi) (fun a =>
  let h := hset (kw "NAXIS" f) (HInt (NAXISn a)) h in
  let h := hset (kw "CDELT" f) (HNum (CDELT a)) h in
  let h := hset (kw "CRPIX" f) (HInt (Z.of_nat (List.length phi / 2 + 1))) h in
  POk (hset (kw "CRVAL" f) (HNum (CRVAL a)) h)).

(** 584-624, the header of FDF_maxPI.fits *)
Definition peak_header (tmpl : fheader) (f : nat) (phi : list R) (h : fheader) : pyres fheader :=
  let unit_ h := match hget (s "BUNIT") tmpl with Some u => hset (s "BUNIT") u h | None => h end in
  let flat h := hset (kw "CUNIT" f) (HStr []) (hset (kw "CTYPE" f) (HStr (s "DEGENERATE")) (hset (kw "NAXIS" f) (HInt 1) h)) in
  let h := flat (unit_ h) in
  let h := hset (kw "CRVAL" f) (HNum (nth 0 phi 0%R)) (hset (kw "NAXIS" f) (HInt 1) h) in
  let h := hpop (s "DATAMIN") (hpop (s "DATAMAX") h) in
  let h := flat (unit_ h) in
  pybind (stokes_axis h) (fun sa =>
  POk (match sa with Some a => hset (kw "CTYPE" a) (HStr (s "DEGENERATE")) h | None => h end)).

Record synth_headers := mk_sh { h_fdf : option (fheader * fheader * fheader); h_rmsf : option (fheader * fheader * fheader); h_fwhm : option fheader; h_peak : option (fheader * fheader) }.

(** 366-650 [writefits] of rmsynth3d; [phi]: None for not_rmsynth, [phi2]: None for
    not_rmsf *)
Definition synth_write (tmpl : fheader) (phi phi2 : option (list R)) (lam0 : option R) (peakmaps : bool) : pyres synth_headers :=
  match phi, phi2 with
  | None, None => PErr
  | _, _ =>
    pybind (base_header tmpl lam0) (fun hf =>
    let '(h, f) := hf in
    pybind (match phi with
            | None => POk (h, None)
            | Some p => pybind (depth_cards f p h) (fun h => pybind (three h) (fun t => POk (snd t, Some t)))
            end) (fun r1 =>
    let '(h, fdf) := r1 in
    pybind (match phi2 with
            | None => POk (h, None, None)
            | Some p => pybind (depth_cards f p h) (fun h =>
                        let h := hset (s "BUNIT") (HStr []) h in
                        let w := hpop (s "BTYPE") (hset (s "BUNIT") (HStr (s "rad/m^2")) h) in
                        pybind (remove_header_third_fourth_axis (HInt 2) w) (fun w =>
                        pybind (three h) (fun t => POk (snd t, Some t, Some w))))
            end) (fun r2 =>
    let '(h, rmsf, fwhm) := r2 in
    pybind (match phi with
            | Some p => if peakmaps then pybind (peak_header tmpl f p h) (fun m =>
                          POk (Some (m, hset (s "BTYPE") (HStr (s "FDEP")) (hset (s "BUNIT") (HStr (s "rad/m^2")) m))))
                        else POk None
            | None => POk None
            end) (fun peak => POk (mk_sh fdf rmsf fwhm peak)))))
  end.

(** the files, each with the headers of its parts *)
Definition parts (sep : bool) (names : string * string * string) (whole : string) (t : fheader * fheader * fheader) : list (str * list fheader) :=
  let '(a, b, c) := names in let '(x, y, z) := t in
  if sep then [(s a, [x]); (s b, [y]); (s c, [z])] else [(s whole, [x; y; z])].
Definition synth_files (sep : bool) (prefix : str) (o : synth_headers) : list (str * list fheader) :=
  map (fun nf => ((prefix ++ fst nf)%list, snd nf))
   (match h_fdf o with Some t => parts sep ("FDF_real_dirty.fits", "FDF_im_dirty.fits", "FDF_tot_dirty.fits")%string "FDF_dirty.fits" t | None => [] end ++
    match h_rmsf o, h_fwhm o with
    | Some (x, y, z), Some w => if sep then parts sep ("RMSF_real.fits", "RMSF_im.fits", "RMSF_tot.fits")%string "RMSF.fits" (x, y, z) ++ [(s "RMSF_FWHM.fits", [w])]
                                else [(s "RMSF.fits", [x; y; z; w])]
    | _, _ => []
    end ++
    match h_peak o with Some (m, r) => [(s "FDF_maxPI.fits", [m]); (s "FDF_peakRM.fits", [r])] | None => [] end)%list.

(* ---------------------------------------------------------- do_RMclean_3D *)

Record clean_headers := mk_ch { c_clean : fheader * fheader * fheader; c_cc : fheader * fheader * fheader; c_iter : fheader }.
(** 216-335 [writefits] of rmclean3d *)
Definition clean_write (tmpl : fheader) : pyres clean_headers :=
  let h := add_history (s "RM-CLEAN3D output from RM-Tools") tmpl in
  pybind (three h) (fun t1 =>
  pybind (three (snd t1)) (fun t2 =>
  pybind (naxis_of tmpl) (fun n =>
  let degenerate i h := hset (kw "CUNIT" i) (HStr []) (hset (kw "CTYPE" i) (HStr (s "DEGENERATE")) (hset (kw "NAXIS" i) (HInt 1) h)) in
  let h := if 2 <? n then degenerate 3 (snd t2) else snd t2 in
  let h := if n =? 4 then degenerate 4 h else h in
  POk (mk_ch t1 t2 (hpop (s "STOKES") (hset (s "BUNIT") (HStr (s "Iterations")) h)))))).

(* ------------------------------------------------------------ do_fitIcube *)

Record fit_headers := mk_fh { f_mask : fheader; f_coeff : fheader; f_ref : fheader; f_cov : fheader; f_model : fheader }.

(** del header[k] *)
Definition hdel (k : str) (h : fheader) : pyres fheader := if is_some (hget k h) then POk (hpop k h) else PErr.

(** 328-347 [savefits_mask]: the header is changed in place *)
Definition mask_header (h : fheader) : pyres fheader :=
  pybind (remove_header_third_fourth_axis (HInt 2) h) (fun h =>
  POk (hpop (s "BUNIT") (hset (s "DATAMIN") (HInt 0) (hset (s "DATAMAX") (HInt 1) h)))).

(** 630-643 *)
Definition cov_header (h : fheader) : fheader :=
  fold_left (fun h kv => hset (s (fst kv)) (snd kv) h)
    [("NAXIS", HInt 4); ("NAXIS3", HInt 6); ("NAXIS4", HInt 6); ("CTYPE3", HStr (s "INDEX")); ("CTYPE4", HStr (s "INDEX"));
     ("CRVAL3", HInt 0); ("CRVAL4", HInt 0); ("CDELT3", HInt 1); ("CDELT4", HInt 1); ("CRPIX3", HInt 1); ("CRPIX4", HInt 1);
     ("CUNIT3", HStr []); ("CUNIT4", HStr [])]%string h.

(** 378-386, for a cube of three axes *)
Definition model_header (h : fheader) : pyres fheader :=
  pybind (strip_header h 3 0) (fun m =>
  match hget (s "NAXIS1") h, hget (s "NAXIS2") h, hget (s "NAXIS3") h with
  | Some a, Some b, Some c => POk (hset (s "NAXIS3") c (hset (s "NAXIS2") b (hset (s "NAXIS1") a m)))
  | _, _, _ => PErr
  end).

(** 565-566, 585-648 with 328-393. One object, headcoeff, goes through
    savefits_mask and savefits_Coeffs, which change it. *)
Definition fit_write (tmpl : fheader) (polyOrd0 : Z) (name : str) : pyres fit_headers :=
  pybind (remove_header_third_fourth_axis (HInt 2) tmpl) (fun h =>
  pybind (hdel (s "BUNIT") h) (fun h =>
  let h := fold_left (fun h l => add_history l h) (history_lines polyOrd0 name) h in
  pybind (mask_header h) (fun mask =>
  let coeff := hpop (s "BTYPE") (hset (s "BUNIT") (HStr []) mask) in
  let ref := hset (s "BUNIT") (HStr (s "Hz")) coeff in
  let h := hpop (s "BTYPE") coeff in
  pybind (model_header tmpl) (fun m => POk (mk_fh mask coeff ref (cov_header h) m))))).

(* ----------------------------------------------------- rescale_I_model_3D *)

(** 321-325, from the header of reffreq.fits *)
Definition rescale_write (h : fheader) (new_freq : R) : fheader :=
  hpop (s "BUNIT") (hset (s "REFFREQ") (HNum new_freq) (add_history (s "Stokes I model rescaled to new reference frequency.") h)).

(* ------------------------------------------------------ reading it again *)

(** RMutils/util_RM.py:782-797 [fits_make_lin_axis] on a header; [i] counts from one *)
Definition header_axis (h : fheader) (i : nat) : pyres (list R) :=
  pybind (naxis_of h) (fun n =>
  if n <? i then POk []
  else pybind (hint (kw "NAXIS" i) h) (fun m => pybind (hnum (kw "CRPIX" i) h) (fun c =>
       pybind (hnum (kw "CRVAL" i) h) (fun r => pybind (hnum (kw "CDELT" i) h) (fun d =>
       fits_make_lin_axis (mk_axis m c r d)))))).

(** do_RMclean_3D.py:371-385 with 106 and 120, RMpeakfit_3D.py:293-295 *)
Definition depth_of (h : fheader) : pyres (list R) :=
  pybind (naxis_of h) (fun n => header_axis h (find_axes (ctypes h n) n)).
