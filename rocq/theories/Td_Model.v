(** The simulated cubes of the tests: RMutils/util_testing.py:18-26 and 57-176.
    Model only. NaN and infinities are None. *)
From Coq Require Import Reals List Arith ZArith Bool Ascii String.
Set Warnings "-ambiguous-paths".
From Coquelicot Require Import Coquelicot.
From Verif Require Import CBase PyRes PyStr PyList NdArray NdIndex Measure_Model.
Import ListNotations.
Local Notation length := List.length.
Local Open Scope R_scope.

(** astropy.constants.c.value *)
Definition light : R := 299792458.

(** numpy broadcasting of two rows *)
Definition bcast {A B} (a : list A) (b : list B) : pyres (list (A * B)) :=
  if (length a =? length b)%nat then POk (combine a b)
  else match a, b with
       | [x], _ => POk (map (fun y => (x, y)) b)
       | _, [y] => POk (map (fun x => (x, y)) a)
       | _, _ => PErr
       end.

(** util_testing.py:23-25 for one source and one channel *)
Definition QU_of (p rm a f : R) : option C :=
  if Req_EM_T f 0 then None
  else let l2 := (light / f) ^ 2 in
       Some (p * cos (2 * (l2 * rm + radians a)), p * sin (2 * (l2 * rm + radians a))).

(** util_testing.py:18-26 [Faraday_thin_complex_polarization]. A scalar argument
    is a list of one. *)
Definition thin_polarization (freq RM pol angle : list R) : pyres (nd (option C)) :=
  pybind (bcast RM angle) (fun cols =>
  pybind (bcast pol cols) (fun cols =>
  POk (squeeze (mk_nd [length cols; length freq]
    (flat_map (fun pc => map (QU_of (fst pc) (fst (snd pc)) (snd (snd pc))) freq) cols))))).

(* -------------------------------------------- scipy.ndimage.gaussian_filter *)

Definition osum (l : list (option R)) : option R := fold_right oadd (Some 0) l.
(** the kernel: radius int(4 sigma + 0.5), weights normalised to one *)
Definition radius (sigma : R) : nat := Z.to_nat (py_int (4 * sigma + / 2)).
Definition offsets (r : nat) : list Z := map (fun i => (Z.of_nat i - Z.of_nat r)%Z) (seq 0 (2 * r + 1)).
Definition bell (sigma : R) (k : Z) : R := exp (- / 2 / sigma ^ 2 * IZR k ^ 2).
Definition weight (sigma : R) (k : Z) : R := bell sigma k / rsum (map (bell sigma) (offsets (radius sigma))).
(** mode="wrap" *)
Definition wrap (n i : nat) (k : Z) : nat := Z.to_nat ((Z.of_nat i + k) mod Z.of_nat n).
Definition put (ax i : nat) (idx : list nat) : list nat := firstn ax idx ++ i :: skipn (S ax) idx.
Definition filter1d (ax : nat) (sigma : R) (a : nd (option R)) : nd (option R) :=
  tab_nd (shape a) (fun idx =>
    osum (map (fun k => omul (Some (weight sigma k)) (at_nd None a (put ax (wrap (nth ax (shape a) 0%nat) (nth ax idx 0%nat) k) idx)))
      (offsets (radius sigma)))).
Definition gaussian_filter (a : nd (option R)) (sigmas : list R) : nd (option R) :=
  fold_left (fun a axs => if Rlt_dec (/ 10 ^ 15) (snd axs) then filter1d (fst axs) (snd axs) a else a)
    (combine (seq 0 (length sigmas)) sigmas) a.

(* ------------------------------------------------------------------ arrays *)

(** elementwise operations on arrays of the same shape *)
Definition zipf (f : option R -> option R -> option R) (a b : nd (option R)) : nd (option R) :=
  mk_nd (shape a) (map (fun xy => f (fst xy) (snd xy)) (combine (flat a) (flat b))).
Definition divall (a : nd (option R)) (s : option R) : nd (option R) := mk_nd (shape a) (map (fun x => odiv x s) (flat a)).
(** numpy.max: NaN if there is one, an error on an empty array *)
Definition omaxi (l : list (option R)) : pyres (option R) :=
  match l with
  | [] => PErr
  | x :: t => POk (fold_left (o2 Rmax) t x)
  end.
(** numpy.std *)
Definition ostd (l : list (option R)) : option R :=
  let n := Some (INR (length l)) in
  let m := odiv (osum l) n in
  osqrt (odiv (osum (map (fun x => o2 (fun x m => (x - m) ^ 2) x m) l)) n).
Definition transpose (a : nd (option R)) : nd (option R) :=
  tab_nd (rev (shape a)) (fun idx => at_nd None a (rev idx)).
Definition hypo (q u : option R) : option R := o2 (fun x y => sqrt (x ^ 2 + y ^ 2)) q u.
Definition re_of (z : option C) : option R := option_map fst z.
Definition im_of (z : option C) : option R := option_map snd z.

(** zeros, then [src_x, src_y, :] = spectrum *)
Definition point_cube (n nf sx sy : nat) (spec : list (option R)) : nd (option R) :=
  tab_nd [n; n; nf] (fun idx =>
    match idx with
    | [x; y; c] => if (x =? sx)%nat && (y =? sy)%nat then nth c spec None else Some 0
    | _ => None
    end).
(** numpy.tile(spectrum[newaxis, newaxis, :], (n, n, 1)) *)
Definition tiled (n nf : nat) (spec : list (option R)) : nd (option R) :=
  tab_nd [n; n; nf] (fun idx => nth (nth 2 idx 0%nat) spec None).

(* ------------------------------------------------------------------- files *)

Inductive hval := HZ (z : Z) | HR (r : R) | HS (s : str).
Inductive piece := Txt (s : str) | Num (r : R).
Record files := mk_files {
  q_file : nd (option R); u_file : nd (option R);
  header : list (str * hval);
  freq_lines : list R;
  truth : list (list piece) }.

Definition T (s : string) : piece := Txt (list_ascii_of_string s).
Definition K (s : string) : str := list_ascii_of_string s.

(** util_testing.py:120-144 *)
Definition mk_header (n nf : nat) (f0 f1 : R) : list (str * hval) :=
  [(K "BITPIX", HZ (-32)); (K "NAXIS", HZ 3);
   (K "NAXIS1", HZ (Z.of_nat n)); (K "NAXIS2", HZ (Z.of_nat n)); (K "NAXIS3", HZ (Z.of_nat nf));
   (K "CTYPE1", HS (K "RA---SIN")); (K "CRVAL1", HZ 90); (K "CDELT1", HR (- (1 / 3600)));
   (K "CRPIX1", HZ 1); (K "CUNIT1", HS (K "deg"));
   (K "CTYPE2", HS (K "DEC--SIN")); (K "CRVAL2", HZ 0); (K "CDELT2", HR (1 / 3600));
   (K "CRPIX2", HZ 1); (K "CUNIT2", HS (K "deg"));
   (K "CTYPE3", HS (K "FREQ")); (K "CRVAL3", HR f0); (K "CDELT3", HR (f1 - f0));
   (K "CRPIX3", HZ 1); (K "CUNIT3", HS (K "Hz")); (K "BUNIT", HS (K "Jy/beam"))].

(** util_testing.py:159-176: the text, one list of pieces for each line *)
Definition mk_truth (srm sang sflux sx sy drm dang dflux noise beam : R) : list (list piece) :=
  [[T "Point source:"]; [T "RM = "; Num srm; T " rad/m^2"];
   [T "Intrsinsic polarization angle = "; Num sang; T " deg"]; [T "Polarized Flux = "; Num sflux; T " Jy/beam"];
   [T "x position = "; Num sx; T " pix"]; [T "y position = "; Num sy; T " pix"]; [];
   [T "Diffuse emission:"]; [T "RM = "; Num drm; T " rad/m^2"];
   [T "Intrsinsic polarization angle = "; Num dang; T " deg"]; [T "Polarized Flux = "; Num dflux; T " Jy/beam"]; [];
   [T "Other:"]; [T "Actual error per channel = "; Num noise; T " Jy/beam"]; [T "Beam FWHM = "; Num beam; T " pix"]].

(** util_testing.py:57-176 [create_3D_data]. [normal k idx] is element idx of the
    k-th array drawn from the random number generator. *)
Definition create_3D_data (normal : nat -> list nat -> R) (freq : list R) (n : nat) : pyres files :=
  let src_RM := 200 in let src_angle := 50 in let src_flux := 2 in
  let sx := (n / 4)%nat in let sy := (n / 4)%nat in
  let diffuse_RM := 50 in let diffuse_angle := - 10 in let diffuse_flux := 1 in
  let noise_amplitude := / 10 in let beam := 20 in
  let nf := length freq in
  let smooth a := gaussian_filter a [beam / (235 / 100); beam / (235 / 100); 0] in
  pybind (thin_polarization freq [src_RM] [src_flux] [src_angle]) (fun src =>
  pybind (thin_polarization freq [diffuse_RM] [diffuse_flux] [diffuse_angle]) (fun dif =>
  if (n =? 0)%nat then PErr else
  let srcQ := smooth (point_cube n nf sx sy (map re_of (flat src))) in
  let srcU := smooth (point_cube n nf sx sy (map im_of (flat src))) in
  pybind (omaxi (flat (zipf hypo srcQ srcU))) (fun peak =>
  let scale := odiv peak (Some src_flux) in
  let srcQ := divall srcQ scale in
  let srcU := divall srcU scale in
  if (length (shape dif) =? 0)%nat then PErr else
  let difQ := tiled n nf (map re_of (flat dif)) in
  let difU := tiled n nf (map im_of (flat dif)) in
  let noiseQ := smooth (tab_nd [n; n; nf] (fun idx => Some (normal 0%nat idx))) in
  let noiseU := smooth (tab_nd [n; n; nf] (fun idx => Some (normal 1%nat idx))) in
  let scale := odiv (ostd (flat noiseQ)) (Some noise_amplitude) in
  let noiseQ := divall noiseQ scale in
  let noiseU := divall noiseU scale in
  let Q := zipf oadd (zipf oadd srcQ noiseQ) difQ in
  let U := zipf oadd (zipf oadd srcU noiseU) difU in
  match freq with
  | f0 :: f1 :: _ =>
      POk (mk_files (transpose Q) (transpose U) (mk_header n nf f0 f1) freq
             (mk_truth src_RM src_angle src_flux (INR sx) (INR sy) diffuse_RM diffuse_angle diffuse_flux noise_amplitude beam))
  | _ => PErr
  end))).
