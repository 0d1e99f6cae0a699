(** FITS helpers: RMutils/util_FITS.py:56-419. Model only.

    Header values are integers, numbers or texts. sys.exit and exceptions are
    PErr. wcslib is an argument: the conversions a header stands for. *)
From Coq Require Import Reals List Arith ZArith Bool Ascii String.
From Verif Require Import PyRes PyStr PyList NdArray NdIndex Setup_Model Measure_Model Synth_Model Cube_Model Icube_Model Header_Model.
Import ListNotations.
Local Open Scope nat_scope.

Inductive hval := HInt (n : Z) | HNum (x : R) | HStr (t : str).
Definition fheader := list (str * hval).
Definition has (k : str) (h : fheader) : bool := is_some (hget k h).
Definition hint (k : str) (h : fheader) : pyres Z := match hget k h with Some (HInt n) => POk n | _ => PErr end.
Definition hnum (k : str) (h : fheader) : pyres R :=
  match hget k h with Some (HInt n) => POk (IZR n) | Some (HNum x) => POk x | _ => PErr end.

(* -------------------------------------------------------- strip_fits_dims *)

(** 188-198 *)
Definition strip_keys : list str :=
  map s ["NAXIS"; "CRVAL"; "CRPIX"; "CDELT"; "CTYPE"; "CROTA"; "CD1_"; "CD2_"; "CUNIT"]%string.

(** 200-213 *)
Definition forced_naxis (h : fheader) (force : nat) (naxis : nat) : nat :=
  if force =? 0 then naxis
  else
    let n1 := fold_left (fun n key => fold_left (fun n i => if has (key ++ str_of_nat i)%list h then (if n <? i then i else n) else n) (seq 0 (force + 1)) n) strip_keys naxis in
    fold_left (fun n i => fold_left (fun n j => if n <? Nat.max i j then Nat.max i j else n) (seq 1 force) n) (seq 1 force) n1.

(** 232 *)
Definition pc_key (i j : nat) : str := (s "PC" ++ format0 3 i ++ format0 3 j)%list.

(** 184-241. NAXIS is not negative. Deleting a keyword that is not there does
    nothing. *)
Definition strip_header (h : fheader) (minDim force : nat) : pyres fheader :=
  pybind (hint (s "NAXIS") h) (fun n0 =>
  let naxis := forced_naxis h force (Z.to_nat n0) in
  if naxis <? minDim then PErr
  else
    let h := fold_left (fun h i => fold_left (fun h key => hpop (key ++ str_of_nat i)%list h) strip_keys h) (seq (minDim + 1) (naxis - minDim)) h in
    let h := fold_left (fun h i => fold_left (fun h j => if (minDim <? i) || (minDim <? j) then hpop (pc_key i j) h else h) (seq 1 naxis) h) (seq 1 naxis) h in
    POk (hset (s "WCSAXES") (HInt (Z.of_nat minDim)) (hset (s "NAXIS") (HInt (Z.of_nat minDim)) h))).

(** 161-181: data[0]...[0]. An axis without elements raises. *)
Definition first_of {A} (d : A) (a : nd A) : pyres (nd A) :=
  match shape a with
  | S _ :: t => POk (tab_nd t (fun idx => at_nd d a (0 :: idx)))
  | _ => PErr
  end.
Definition strip_data {A} (d : A) (a : nd A) (minDim : nat) : pyres (nd A) :=
  let naxis := List.length (shape a) in
  if naxis <? minDim then PErr
  else match naxis - minDim with
       | 0 => POk a
       | 1 => first_of d a
       | 2 => pybind (first_of d a) (first_of d)
       | 3 => pybind (pybind (first_of d a) (first_of d)) (first_of d)
       | _ => PErr
       end.

(* ------------------------------------------------------------- the beam *)

(** [\s*], and [(\S+)]: what is left, and the word; nothing else can match, as
    the classes exclude each other *)
Fixpoint skip_blank (x : str) : str := match x with a :: t => if is_blank a then skip_blank t else x | [] => [] end.
Definition blanks1 (x : str) : option str := match x with a :: t => if is_blank a then Some (skip_blank t) else None | [] => None end.
Fixpoint take_word (x : str) : str * str :=
  match x with a :: t => if is_blank a then ([], x) else let '(w, r) := take_word t in (a :: w, r) | [] => ([], []) end.
Definition lit (p x : str) : option str := if startswith p x then Some (skipn (List.length p) x) else None.
Definition obind {A B} (x : option A) (f : A -> option B) : option B := match x with Some a => f a | None => None end.
Definition word1 (x : str) : option (str * str) := match take_word x with ([], _) => None | wr => Some wr end.
(** \s+(\S+) after a literal *)
Definition field (p x : str) : option (str * str) := obind (lit p x) (fun x => obind (blanks1 x) word1).
(** 277: r"AIPS\s+CLEAN\sBMAJ=\s+(\S+)\s+BMIN=\s+(\S+)\s+BPA=\s+(\S+)", re.match *)
Definition beam_line (x : str) : option (str * str * str) :=
  obind (lit (s "AIPS") x) (fun x => obind (blanks1 x) (fun x =>
  obind (lit (s "CLEAN") x) (fun x =>
  match x with
  | a :: x => if is_blank a then
      obind (field (s "BMAJ=") x) (fun m1 => obind (blanks1 (snd m1)) (fun x =>
      obind (field (s "BMIN=") x) (fun m2 => obind (blanks1 (snd m2)) (fun x =>
      obind (field (s "BPA=") x) (fun m3 => Some (fst m1, fst m2, fst m3))))))
      else None
  | [] => None
  end))).

(** 283-291. [float]: float(x), None if it raises; the names set before stay set. *)
Fixpoint beam_history (float : str -> option R) (lines : list str) (b : option R * option R * option R) : option R * option R * option R :=
  match lines with
  | [] => b
  | l :: t =>
      match beam_line l with
      | None => beam_history float t b
      | Some (x, y, z) =>
          let '(bmaj, bmin, bpa) := b in
          match float x with
          | None => b
          | Some x => match float y with
                      | None => (Some x, bmin, bpa)
                      | Some y => match float z with None => (Some x, Some y, bpa) | Some z => (Some x, Some y, Some z) end
                      end
          end
      end
  end.

(** 256-293 [get_beam_from_header]. BMAJ, BMIN and BPA are numbers where there
    are such cards. [history]: header.get_history(), None if the
    header class has no such method. *)
Definition onum (k : str) (h : fheader) : option R := match hnum k h with POk x => Some x | PErr => None end.
Definition get_beam_from_header (float : str -> option R) (history : option (list str)) (h : fheader) : option R * option R * option R :=
  let b := (onum (s "BMAJ") h, onum (s "BMIN") h, onum (s "BPA") h) in
  if is_none (onum (s "BMAJ") h) || is_none (onum (s "BMIN") h)
  then match history with Some l => beam_history float (rev l) b | None => b end
  else b.

(** 297-313. A zero pixel scale raises. *)
Definition get_beam_area (bmaj bmin pixscale : R) : pyres R :=
  let gfactor := (2 * sqrt (2 * ln 2))%R in
  let pixArea := Rabs (pixscale ^ 2) in
  if Req_EM_T pixArea 0 then PErr
  else POk (2 * PI * (bmaj / gfactor) * (bmin / gfactor) / pixArea)%R.

(* ------------------------------------------------------------ mkWCSDict *)

(** what wcslib makes of a header: pixel (from 1) to world in 2-D and 3-D, world
    to pixel (from 0), the footprint, the name of the longitude *)
Record wcs := mk_wcs { p2w2 : R * R -> R * R; p2w3 : R * R * R -> R * R * R; w2p : R * R -> R * R; foot : list (R * R); lngtyp : str; crpix2 : R * R; crpix3 : R * R * R }.

Record wcs_dict := mk_dict { d_head2 : fheader; d_head3 : option fheader; d_naxis : Z * Z; d_cent : R * R; d_zcent : option R;
  d_x : R * R; d_y : R * R; d_z : option (R * R); d_type : str; d_xdelt : R; d_ydelt : R; d_zdelt : option R; d_pixscale : R }.

Definition rmin2 (l : list R) : R := match l with [] => 0%R | x :: t => fold_left Rmin t x end.
Definition rmax2 (l : list R) : R := match l with [] => 0%R | x :: t => fold_left Rmax t x end.
Definition wrap180 (w : bool) (x : R) : R := if w then (if Rlt_dec 180 x then x - 360 else x)%R else x.

(** 56-149 [mkWCSDict] but for the plain copies of header values, which raise if
    they are missing *)
Definition mkWCSDict (WCS : fheader -> wcs) (h : fheader) (wrapX180 : bool) (force : nat) : pyres wcs_dict :=
  pybind (strip_header h 2 force) (fun h2 =>
  pybind (hint (s "NAXIS") h) (fun naxis =>
  let three := (3 <=? naxis)%Z in
  pybind (if three then pybind (strip_header h 3 force) (fun x => POk (Some x)) else POk None) (fun h3 =>
  pybind (hint (s "NAXIS1") h) (fun nx => pybind (hint (s "NAXIS2") h) (fun ny =>
  pybind (if three then hint (s "NAXIS3") h else POk 0%Z) (fun nz =>
  pybind (pyall (map (fun k => hnum (s k) h) (["CRPIX1"; "CRVAL1"; "CRPIX2"; "CRVAL2"]%string ++ if three then ["CRPIX3"; "CRVAL3"]%string else [])%list)) (fun _ =>
  let W2 := WCS h2 in
  let W3 := WCS (match h3 with Some x => x | None => h2 end) in
  let xc := (IZR nx / 2 + 1 / 2)%R in
  let yc := (IZR ny / 2 + 1 / 2)%R in
  let zc := (IZR nz / 2 + 1 / 2)%R in
  let cent := if three then fst (p2w3 W3 (xc, yc, zc)) else p2w2 W2 (xc, yc) in
  let xs := map fst (foot W2) in
  let ys := map snd (foot W2) in
  let z1 := snd (p2w3 W3 (xc, yc, 1%R)) in
  let z2 := snd (p2w3 W3 (xc, yc, IZR nz)) in
  let step := if three
              then let '(a, b, c) := crpix3 W3 in (fst (p2w3 W3 (a, b, c)), fst (p2w3 W3 (a + 1, b + 1, c + 1)%R))
              else let '(a, b) := crpix2 W2 in (p2w2 W2 (a, b), p2w2 W2 (a - 1, b - 1)%R) in
  let cosy := cos ((snd (fst step) + snd (snd step)) / 2 * PI / 180)%R in
  let xdelt := ((fst (snd step) - fst (fst step)) * cosy)%R in
  POk (mk_dict h2 h3 (nx, ny) (wrap180 wrapX180 (fst cent), snd cent)
         (if three then Some (snd (p2w3 W3 (xc, yc, zc))) else None)
         (wrap180 wrapX180 (rmin2 xs), wrap180 wrapX180 (rmax2 xs)) (rmin2 ys, rmax2 ys)
         (if three then Some (Rmin z1 z2, Rmax z1 z2) else None)
         (if str_eqb (lngtyp W2) (s "RA") then s "EQU" else if str_eqb (lngtyp W2) (s "GLON") then s "GAL" else [])
         xdelt (snd (snd step) - snd (fst step))%R
         (if three then let '(a, b, c) := crpix3 W3 in Some (snd (p2w3 W3 (a + 1, b + 1, c + 1)%R) - snd (p2w3 W3 (a, b, c)))%R else None)
         (Rabs ((xdelt + xdelt) / 2)))))))))).

(* ------------------------------------------------------------ get_subfits *)

(** 409-417: the minimum of no sample raises, and a NaN cannot be stored; either
    way the lengths stay as they were *)
Definition sizes_updated (data : nd (option R)) (h : fheader) : fheader :=
  match somes (flat data) with
  | [] => h
  | l =>
      let n i := HInt (Z.of_nat (nth (List.length (shape data) - i) (shape data) 0)) in
      let h := hset (s "DATAMAX") (HNum (rmax2 l)) (hset (s "DATAMIN") (HNum (rmin2 l)) h) in
      let h := hset (s "NAXIS2") (n 2) (hset (s "NAXIS1") (n 1) h) in
      if 2 <? List.length (shape data) then hset (s "NAXIS3") (n 3) h else h
  end.

(** 360: a limit of zero counts as none *)
Definition given (z : option R) : bool := match z with Some x => if Req_EM_T x 0 then false else true | None => false end.

(** 351-357: pixel limits along an axis *)
Definition cut (centre : R) (radius delt : R) (n : Z) : Z * Z :=
  let c := py_round centre in
  let r := Rceil (radius / Rabs delt) in
  (Z.max (c - r) 0, Z.min (c + r) (n - 1)).

(** 317-419 [get_subfits]; [None]: the file does not exist. world2chan (361) is
    not defined: asking for channels raises. *)
Definition get_subfits (WCS : fheader -> wcs) (file : option (fheader * nd (option R))) (x_deg y_deg radius_deg : R) (zMin_w zMax_w : option R) (wrapX180 : bool)
    : pyres (option (nd (option R) * fheader)) :=
  let x_deg := wrap180 wrapX180 x_deg in
  match file with
  | None => POk None
  | Some (h, data) =>
      pybind (mkWCSDict WCS h wrapX180 5) (fun w =>
      let c := w2p (WCS (d_head2 w)) (x_deg, y_deg) in
      if Req_EM_T (d_xdelt w) 0 then PErr
      else if Req_EM_T (d_ydelt w) 0 then PErr
      else
        let xs := cut (fst c) radius_deg (d_xdelt w) (fst (d_naxis w)) in
        let ys := cut (snd c) radius_deg (d_ydelt w) (snd (d_naxis w)) in
        if given zMin_w && given zMax_w then PErr
        else
          pybind (hnum (s "CRPIX1") h) (fun c1 => pybind (hnum (s "CRPIX2") h) (fun c2 =>
          let h := hset (s "CRPIX2") (HNum (c2 - IZR (fst ys))) (hset (s "CRPIX1") (HNum (c1 - IZR (fst xs))) h) in
          let full := map (fun n => (0%Z, Z.of_nat n)) in
          let n := List.length (shape data) in
          if (n <? 2) || (4 <? n) then POk None
          else
            let sub := slice_nd None data (full (firstn (n - 2) (shape data)) ++ [(fst ys, snd ys + 1)%Z; (fst xs, snd xs + 1)%Z])%list in
            POk (Some (sub, sizes_updated sub h)))))
  end.
