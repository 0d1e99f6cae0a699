(** Stokes I model cubes: RMtools_3D/do_fitIcube.py and
    RMtools_3D/rescale_I_model_3D.py. Model only.

    Samples are finite or NaN ([None]); casts to float32 are left out. sys.exit
    and exceptions are PErr; files written before an exception are not kept. The
    worker pools return the results in the order of their arguments, and an
    exception of a worker is one of the caller. *)
From Coq Require Import Reals List Arith ZArith Bool Ascii String.
Set Warnings "-ambiguous-paths".
From Coquelicot Require Import Coquelicot.
From Verif Require Import CBase PyRes PyStr PyList NdArray NdIndex Interp_Model Synth_Model Setup_Model Measure_Model StokesI_Model Cube_Model.
Import ListNotations.
Local Open Scope R_scope.

(* ------------------------------------------------------------ do_fitIcube *)

(** numpy.nanmedian *)
Definition nanmedian (l : list (option R)) : option R := median (somes l).
(** x < t, x > t; false for NaN *)
Definition ltb_nan (x t : option R) : bool := match x, t with Some a, Some b => Rltb a b | _, _ => false end.
(** numpy.where(x): not zero; NaN is not zero *)
Definition nonzero (x : option R) : bool := match x with Some v => if Req_EM_T v 0 then false else true | None => true end.

(** 297-330: median and rms of a plane, two passes. With no sample below the
    first cut, rmsTmp is masked, and no sample is below the second cut. *)
Definition plane_noise (threshold : R) (plane : list (option R)) : option R * option R :=
  if forallb is_none plane then (None, None)
  else
    let sky1 := filter (fun x => if Rlt_dec 0 threshold then ltb_nan x (Some threshold) else nonzero x) plane in
    let rmsTmp := MAD sky1 in
    let medTmp := nanmedian sky1 in
    let sky2 := filter (fun x => ltb_nan x (oadd medTmp (omul rmsTmp (Some 3)))) plane in
    (nanmedian sky2, MAD sky2).

(** 321-326: the samples of a plane taken for emission *)
Definition is_source (threshold : R) (plane : list (option R)) (x : option R) : bool :=
  if forallb is_none plane then false
  else
    let '(med, rms) := plane_noise threshold plane in
    if Rlt_dec 0 threshold then ltb_nan (Some threshold) x
    else ltb_nan (osub med (omul rms (Some threshold))) x.

(** channel i of a cube *)
Definition chan_plane (cube : nd (option R)) (i : nat) : list (option R) :=
  match shape cube with
  | [_; ny; nx] => map (fun xy => at_nd None cube (i :: xy)) (indices [ny; nx])
  | _ => []
  end.

(** 260-329 [cube_noise]; the mask counts the channels. readFitsCube gives at most
    three axes and 219 stops on fewer. The planes have the shape (NAXIS2, NAXIS1):
    otherwise the indexing here or that of 524 raises. *)
Definition cube_noise (cube : nd (option R)) (naxis1 naxis2 : nat) (freq : list R) (threshold : R) : pyres (list (option R) * nd nat) :=
  match shape cube with
  | [n; d1; d2] =>
    if negb ((n =? List.length freq) && (d1 =? naxis2) && (d2 =? naxis1))%nat then PErr
    else
    let planes := map (chan_plane cube) (seq 0 (List.length freq)) in
    POk (map (fun p => snd (plane_noise threshold p)) planes,
         tab_nd [naxis2; naxis1] (fun xy =>
           fold_left (fun n p => if is_source threshold p (nth (ravel [naxis2; naxis1] xy) p None) then S n else n) planes 0%nat))
  | _ => PErr
  end.

(** numpy.rot90 of a matrix given as its rows: result[i][j] = m[j][N-1-i] *)
Definition rot90 {A} (d : A) (rows : list (list A)) : list (list A) :=
  let n := List.length (nth 0 rows []) in
  map (fun i => map (fun r => nth (n - 1 - i) r d) rows) (seq 0 n).

(** numpy.where(m > 0) *)
Definition where_pos (m : nd nat) : list (list nat) := filter (fun xy => (0 <? at_nd 0%nat m xy)%nat) (indices (shape m)).

(** 410-444 [fit_spectra_I]; a spectrum without a good channel is not an error *)
Record pix_fit := mk_pix_fit { pf_I : list (option R); pf_coeffs : list (option R); pf_err : list (option R); pf_cov : option (nat -> nat -> R); pf_ref : option R }.
Definition fit_spectra_I (mpfit : mpin -> pyres mpres) (freq : list R) (rms : list (option R)) (polyOrd0 : Z) (ff : fit_fun) (Ispectrum : list (option R)) : pyres pix_fit :=
  if all_nan_fit freq Ispectrum rms polyOrd0 ff
  then POk (mk_pix_fit (map (fun _ => None) freq) [Some 0; Some 0; Some 0; Some 0; Some 0; None] (repeat (Some 0) 6) None None)
  else
  pybind (fit_StokesI_model mpfit freq Ispectrum rms polyOrd0 ff) (fun fr =>
  pybind (calculate_StokesI_model fr freq) (fun m => POk (mk_pix_fit (map Some m) (map Some (params fr)) (perror fr) (pcov fr) (Some (ref_freq fr))))).

(** a[..., x, y] = v: [v] has the other indices and the old element *)
Definition set_pix {A} (d : A) (a : nd A) (x y : nat) (v : list nat -> A -> A) : nd A :=
  tab_nd (shape a) (fun idx =>
    let k := (List.length idx - 2)%nat in
    if (nth k idx 0 =? x)%nat && (nth (S k) idx 0 =? y)%nat then v (firstn k idx) (at_nd d a idx) else at_nd d a idx).

(** the arrays of 512-520 *)
Record maps := mk_maps { m_I : nd (option R); m_ref : nd (option R); m_cov : nd (option R); m_coeffs : nd (option R); m_err : nd (option R) }.

(** 572-583, one turn. A covariance of None is stored as NaN. *)
Definition put_pixel (m : maps) (x y : nat) (r : pix_fit) : maps :=
  let z := Nat.min 6 (Nat.min (List.length (pf_coeffs r)) (List.length (pf_err r))) in
  let ith idx := (5 - nth 0 idx 0)%nat in
  mk_maps
    (set_pix None (m_I m) x y (fun idx _ => nth (nth 0 idx 0%nat) (pf_I r) None))
    (set_pix None (m_ref m) x y (fun _ _ => pf_ref r))
    (set_pix None (m_cov m) x y (fun idx _ => option_map (fun c => c (nth 0 idx 0%nat) (nth 1 idx 0%nat)) (pf_cov r)))
    (set_pix None (m_coeffs m) x y (fun idx old => if (ith idx <? z)%nat then nth (ith idx) (pf_coeffs r) None else old))
    (set_pix None (m_err m) x y (fun idx old => if (ith idx <? z)%nat then nth (ith idx) (pf_err r) None else old)).

(** plane i of a cube of maps *)
Definition map_plane {A} (d : A) (a : nd A) (i : nat) : nd A := tab_nd (tl (shape a)) (fun xy => at_nd d a (i :: xy)).

(** the name of the function and what it selects *)
Definition fun_of (name : str) : fit_fun :=
  if str_eqb name (s "linear") then Linear else if str_eqb name (s "log") then Log else OtherFun.
(** 585-591: the lines added to HISTORY *)
Definition history_lines (polyOrd0 : Z) (name : str) : list str :=
  [s "Stokes I model fitted by RM-Tools";
   if (polyOrd0 <? 0)%Z
   then (s "Fit model is dynamic order " ++ name ++ s "-polynomial, max order " ++ str_of_nat (Z.to_nat (- polyOrd0)))%list
   else (s "Fit model is " ++ str_of_nat (Z.to_nat polyOrd0) ++ s "-order " ++ name ++ s "-polynomial")%list].

(** The files: mask.fits, coeff0.fits and coeff0err.fits to the order asked for,
    reffreq.fits, covariance.fits, model.i.fits, noise.dat, and the HISTORY of
    the maps. *)
Record fit_files := mk_fit_files { w_mask : nd (option R); w_coeff : list (nd (option R) * nd (option R)); w_ref : nd (option R);
  w_cov : nd (option R); w_model : image (option R); w_noise : list (option R); w_history : list str }.

(** 447-651 [make_model_I]. [bunit]: the header has a BUNIT (else 566 raises).
    [history], [ctype]: HISTORY and CTYPEn of the input. The header of the model
    cube is that of the input with the axes above the third dropped; the axis
    lengths in the file are those of the data (astropy). *)
Definition make_model_I (mpfit : mpin -> pyres mpres) (cube : nd (option R)) (naxis1 naxis2 : nat) (bunit : bool) (history : list str) (ctype : list (option str))
    (freq : list R) (polyOrd0 : Z) (threshold : R) (name : str) (apply_mask : bool) : pyres fit_files :=
  pybind (cube_noise cube naxis1 naxis2 freq threshold) (fun nm =>
  let '(rms_Arr, counts) := nm in
  let mskSrc := if apply_mask then counts else tab_nd [naxis2; naxis1] (fun _ => 1%nat) in
  let mskArr := tab_nd [naxis2; naxis1] (fun xy => if (0 <? at_nd 0%nat mskSrc xy)%nat then Some 1 else None) in
  let wh := where_pos mskSrc in
  let srcCoords := rot90 0%nat [map (fun xy => nth 0 xy 0%nat) wh; map (fun xy => nth 1 xy 0%nat) wh] in
  let start lead := tab_nd (lead ++ [naxis2; naxis1]) (fun idx => at_nd None mskArr (skipn (List.length lead) idx)) in
  let m0 := mk_maps (tab_nd (shape cube) (fun _ => None)) (start []) (start [6; 6]%nat) (start [6%nat]) (start [6%nat]) in
  let datacube := squeeze cube in
  match shape datacube with
  | [_; d1; d2] =>
    if negb ((d1 =? naxis2) && (d2 =? naxis1))%nat then PErr        (* 524: boolean index of another shape *)
    else
      let srcData := rot90 None (map (fun j => map (fun xy => at_nd None datacube (j :: xy)) wh) (seq 0 (List.length freq))) in
      let xy := combine (seq 0 (List.length srcCoords)) srcCoords in
      pybind (pyall (map (fit_spectra_I mpfit freq rms_Arr polyOrd0 (fun_of name)) srcData)) (fun results =>
      if negb bunit then PErr
      else if (5 <? Z.abs polyOrd0)%Z then PErr                       (* 370: there are six planes *)
      else
        let m := fold_left (fun m ic => match nth_error results (fst ic) with
                                        | Some r => put_pixel m (nth 0 (snd ic) 0%nat) (nth 1 (snd ic) 0%nat) r
                                        | None => m end) xy m0 in
        POk (mk_fit_files mskArr
               (map (fun i => (map_plane None (m_coeffs m) i, map_plane None (m_err m) i)) (seq 0 (Z.to_nat (Z.abs polyOrd0) + 1)))
               (m_ref m) (m_cov m) (mk_image (rev (shape (m_I m))) (firstn 3 ctype) (m_I m)) rms_Arr
               (history ++ history_lines polyOrd0 name)))
  | _ => PErr                                                          (* 524: too many indices *)
  end).

(** 60-220 [main] after the command line, with a frequency file *)
Definition fitIcube (mpfit : mpin -> pyres mpres) (f : image (option R)) (bunit : bool) (history : list str)
    (freq : list R) (polyOrd0 : Z) (threshold : R) (name : str) (apply_mask : bool) : pyres fit_files :=
  pybind (readFitsCube None f) (fun cube =>
  if (List.length (shape cube) <? 3)%nat then PErr
  else make_model_I mpfit cube (nth 0 (i_naxis f) 0%nat) (nth 1 (i_naxis f) 0%nat) bunit history (i_ctype f) freq polyOrd0 threshold name apply_mask).

(* ------------------------------------------------------ rescale_I_model_3D *)

(** str.split() *)
Definition is_blank (c : ascii) : bool :=
  let n := nat_of_ascii c in ((n =? 32) || (9 <=? n) && (n <=? 13) || (28 <=? n) && (n <=? 31))%nat.
Fixpoint split_blank (x : str) : list str :=
  match x with
  | [] => [[]]
  | a :: t => if is_blank a then [] :: split_blank t
              else match split_blank t with w :: ws => (a :: w) :: ws | [] => [[a]] end
  end.
Definition words (x : str) : list str := filter (fun w => match w with [] => false | _ => true end) (split_blank x).

(** 166-168: the function named in the last line that says so *)
Definition history_function (history : list str) : pyres str :=
  match rev (filter (contains (s "Fit model is")) history) with
  | [] => PErr
  | line :: _ =>
      match filter (contains (s "polynomial")) (words line) with
      | [] => PErr
      | w :: _ => POk (nth 0 (split "-"%char w) [])
      end
  end.

Definition finite (x : option R) : bool := negb (is_none x).
Definition val (x : option R) : R := match x with Some v => v | None => 1 end.

(** 224-248 [rescale_I_pixel]: NaN goes to every result computed from it. The
    results from finite values are those of renormalize_StokesI_model; [known_p]
    and [known_e] tell which inputs each of them uses (util_misc.py:597-690).
    Frequencies are positive or NaN. *)
Definition known_p (ff : fit_fun) (coeff : nat -> option R) (x : bool) (i : nat) : bool :=
  match ff with
  | Log => forallb (fun j => finite (coeff j)) (seq 0 (S i)) && (x || (i =? 0)%nat)
  | _ => finite (coeff i) && (x || (i =? 5)%nat)
  end.
Definition known_e (ff : fit_fun) (coeff : nat -> option R) (cov : nat -> nat -> option R) (x : bool) (i : nat) : bool :=
  match ff with
  | Log =>
      let upto n := forallb (fun a => forallb (fun b => (b <? a)%nat || finite (cov a b)) (seq 0 (S n))) (seq 0 (S n)) in
      (x || (i =? 0)%nat) &&
      (if (i <? 4)%nat then upto i
       else if (i =? 4)%nat
       then forallb (fun a => forallb (fun b => (b <? a)%nat || (a =? 1)%nat && (b =? 1)%nat || finite (cov a b)) (seq 0 5)) (seq 0 5) && finite (cov 0%nat 5%nat)
       else upto 5%nat && forallb (fun j => finite (coeff j)) (seq 0 6))
  | _ => finite (cov i i) && (x || (i =? 5)%nat)
  end.
Definition rescale_I_pixel (ff : fit_fun) (cov : nat -> nat -> option R) (coeff : list (option R)) (old_freq new_freq : option R) : pyres (list (option R) * list (option R)) :=
  let c i := nth i coeff None in
  let x := finite old_freq && finite new_freq in
  pybind (renormalize_StokesI_model
            (mk_fit (map val coeff) 0 0 None 0 5 (val old_freq) 0 (Some (fun i j => val (cov i j))) [] ff) (val new_freq)) (fun r =>
  POk (map (fun i => if known_p ff c x i then Some (nth i (params r) 0) else None) (seq 0 6),
       map (fun i => if known_e ff c cov x i then nth i (perror r) None else None) (seq 0 6))).

(** 213-219: the planes read, highest order first; orders without a file are zero *)
Definition read_coeffs (ny nx : nat) (planes : list (nd (option R))) : nd (option R) :=
  tab_nd [6%nat; ny; nx] (fun idx =>
    match nth_error planes (5 - nth 0 idx 0%nat) with Some p => at_nd None p (tl idx) | None => Some 0 end).

(** 251-298 [rescale_I_model_3D] with one new frequency for all pixels. The rows
    of the reshaped arrays are slices of their elements. *)
Definition rescale_I_model_3D (cov ref coeffs : nd (option R)) (new_freq : option R) (ff : fit_fun) : pyres (nd (option R) * nd (option R)) :=
  match shape ref with
  | [ny; rs] =>
      let moved := tab_nd [ny; rs; 6; 6]%nat (fun i => at_nd None cov [nth 2 i 0; nth 3 i 0; nth 0 i 0; nth 1 i 0]%nat) in
      let movedc := moveaxis None coeffs 0 2 in
      let row n a i := firstn n (skipn (n * i) (flat a)) in
      pybind (pyall (map (fun i => rescale_I_pixel ff (fun a b => nth (6 * a + b) (row 36%nat moved i) None) (row 6%nat movedc i) (nth i (flat ref) None) new_freq)
                         (seq 0 (ny * rs)))) (fun results =>
      let zeros := tab_nd (shape coeffs) (fun _ => Some 0) in
      POk (fold_left (fun ce ir => let '(i, (p, e)) := ir in
              (set_pix None (fst ce) (i / rs) (i mod rs) (fun idx _ => nth (nth 0 idx 0%nat) p None),
               set_pix None (snd ce) (i / rs) (i mod rs) (fun idx _ => nth (nth 0 idx 0%nat) e None)))
            (combine (seq 0 (List.length results)) results) (zeros, zeros)))
  | _ => PErr
  end.

(** 325-327, one plane: some element is neither zero nor NaN *)
Definition good_plane (a : nd (option R)) : bool := existsb (fun x => match x with Some v => if Req_EM_T v 0 then false else true | None => false end) (flat a).

(** -l, -f, or neither *)
Inductive new_reference := FromFDF (lamsq0 : R) | Given (f : R) | Common.
(** 154-163; None if not finite *)
Definition new_frequency (how : new_reference) (ref : nd (option R)) : option R :=
  match how with
  | FromFDF l => if Rlt_dec 0 l then Some (2997924538 / 10 / sqrt l) else None
  | Given f => Some f
  | Common => match somes (flat ref) with [] => None | l => Some (rsum l / INR (List.length l)) end
  end.

(** newcoeff0.fits, newcoeff0err.fits, ... and REFFREQ in their headers *)
Record new_files := mk_new_files { v_ref : R; v_coeff : list (nd (option R) * nd (option R)) }.

(** 150-186 and 301-341. The maps have the shapes do_fitIcube gives them (other
    shapes raise or are broadcast; not modelled). A header value that is not
    finite raises. *)
Definition rescale (w : fit_files) (how : new_reference) : pyres new_files :=
  match shape (w_ref w), w_coeff w with
  | [ny; nx], _ :: _ =>
      let new := new_frequency how (w_ref w) in
      pybind (history_function (w_history w)) (fun name =>
      pybind (rescale_I_model_3D (w_cov w) (w_ref w) (read_coeffs ny nx (map fst (w_coeff w))) new (fun_of name)) (fun ce =>
      match new with
      | None => PErr
      | Some f0 =>
          let n := List.length (filter (fun i => good_plane (map_plane None (fst ce) i)) (seq 0 6)) in
          POk (mk_new_files f0 (map (fun i => (map_plane None (fst ce) (5 - i), map_plane None (snd ce) (5 - i))) (seq 0 n)))
      end))
  | _, _ => PErr
  end.
