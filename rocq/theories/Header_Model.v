(** Model of remove_header_third_fourth_axis and update_position_wcsaxes
    (RMutils/util_misc.py:92-177), and of the companion file names derived in
    do_RMclean_3D.py and RMpeakfit_3D.py.

    A header is the list of its cards; a keyword may occur several times
    (COMMENT, HISTORY). Values are opaque but for the value [two]. *)
From Coq Require Import List Arith Bool Ascii String.
From Verif Require Import PyRes PyStr NdIndex.
Import ListNotations.

Section Header.
  Context {V : Type}.
  Variable two : V.
  Definition header := list (str * V).

  (** header.pop(key, None), del header[key]: all cards with that keyword *)
  Definition hpop (k : str) (h : header) : header := filter (fun c => negb (str_eqb k (fst c))) h.

  (** header.set(key, value): the first card with that keyword, or a new one *)
  Fixpoint hset (k : str) (v : V) (h : header) : header :=
    match h with
    | [] => [(k, v)]
    | (k', v') :: t => if str_eqb k k' then (k', v) :: t else (k', v') :: hset k v t
    end.

  (** header[key] *)
  Definition hget (k : str) (h : header) : option V := option_map snd (find (fun c => str_eqb k (fst c)) h).

  (** header_keys.index(key) *)
  Fixpoint index_of (k : str) (h : header) : option nat :=
    match h with
    | [] => None
    | c :: t => if str_eqb k (fst c) then Some 0 else option_map S (index_of k t)
    end.

  (** util_misc.py:98-111 *)
  Definition wcs_keywords : list str :=
    map s ["CRPIX1"; "CRPIX2"; "CRVAL1"; "CRVAL2"; "CTYPE1"; "CTYPE2"; "CUNIT1"; "CUNIT2"; "PC1_1"; "PC2_2"; "CD1_1"; "CD2_2"]%string.

  (** util_misc.py:113-119: min over the keywords present; ValueError if none *)
  Definition insert_pos (h : header) : option nat :=
    fold_left (fun acc k => match index_of k h, acc with
                            | None, _ => acc
                            | Some i, None => Some i
                            | Some i, Some j => Some (Nat.min j i)
                            end) wcs_keywords None.

  (** util_misc.py:92-124. A missing WCSAXES is a KeyError. *)
  Definition update_position_wcsaxes (h : header) : pyres header :=
    match hget (s "WCSAXES") h with
    | None => PErr
    | Some w =>
        let h := hpop (s "WCSAXES") h in
        match insert_pos h with
        | None => PErr
        | Some i => POk (insert_at i (s "WCSAXES", w) h)
        end
    end.

  (** util_misc.py:130-159 *)
  Definition keys_to_remove : list str :=
    map s ["NAXIS3"; "NAXIS4"; "CRPIX3"; "CRPIX4"; "CDELT3"; "CDELT4"; "CUNIT3"; "CUNIT4"; "CTYPE3"; "CTYPE4"; "CRVAL3"; "CRVAL4";
           "PC1_3"; "PC2_3"; "PC3_3"; "PC4_3"; "PC1_4"; "PC2_4"; "PC3_4"; "PC4_4"; "PC3_1"; "PC3_2"; "PC3_3"; "PC3_4";
           "PC4_1"; "PC4_2"; "PC4_3"; "PC4_4"]%string.

  (** util_misc.py:127-177 *)
  Definition remove_header_third_fourth_axis (h : header) : pyres header :=
    let h := fold_left (fun h k => hpop k h) keys_to_remove h in
    let h := hset (s "NAXIS") two h in
    let h := hpop (s "STOKES") h in
    let h := hset (s "WCSAXES") two h in
    update_position_wcsaxes h.
End Header.

(** ** Companion names *)

(** do_RMclean_3D.py:388-404 and RMpeakfit_3D.py: names of the real and
    imaginary cubes *)
Definition real_name (x : str) : str := replace (s "_im") (s "_real") (replace (s "_tot") (s "_real") x).
Definition imag_name (x : str) : str := replace (s "_real") (s "_im") (replace (s "_tot") (s "_im") x).
(** do_RMclean_3D.py:110-114 *)
Definition fwhm_name (x : str) : str :=
  replace (s "_tot") (s "_FWHM") (replace (s "_im") (s "_FWHM") (replace (s "_real") (s "_FWHM") x)).
(** RMpeakfit_3D.py:296-304 *)
Definition peakfit_fwhm_name (x : str) : str :=
  let r p x := replace (s p) (s "RMSF_FWHM") x in
  r "FDF_clean_im"%string (r "FDF_clean_real"%string (r "FDF_clean_tot"%string
    (r "FDF_im_dirty"%string (r "FDF_real_dirty"%string (r "FDF_tot_dirty"%string x))))).
