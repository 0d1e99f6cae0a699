(** Vocabulary for catalogues and for the data simulated from them. *)
From Coq Require Import Reals List Arith ZArith Bool Ascii String.
Set Warnings "-ambiguous-paths".
From Coquelicot Require Import Coquelicot.
From Verif Require Import CBase PyRes PyStr NdArray Synth_Spec QU_Spec Cube_Model Cube_Spec Cat_Model.
Import ListNotations.
Local Open Scope R_scope.

(* --------------------------------------------------------------- the text *)

(** A decimal numeral: sign (true: minus), digits, digits after a point,
    exponent (true: E). *)
Record numeral := mk_num { n_sign : option bool; n_int : list nat; n_frac : option (list nat); n_exp : option (bool * option bool * list nat) }.
Definition frac_digits (n : numeral) : list nat := match n_frac n with Some f => f | None => [] end.
Definition num_ok (n : numeral) : Prop :=
  List.Forall (fun d => (d < 10)%nat) (n_int n) /\ List.Forall (fun d => (d < 10)%nat) (frac_digits n) /\ (n_int n ++ frac_digits n)%list <> [] /\
  match n_exp n with None => True | Some (_, _, l) => List.Forall (fun d => (d < 10)%nat) l /\ l <> [] end.
Definition show_sign (o : option bool) : str := match o with None => [] | Some true => s "-" | Some false => s "+" end.
Definition show (n : numeral) : str :=
  (show_sign (n_sign n) ++ map digit (n_int n) ++ match n_frac n with None => [] | Some f => s "." ++ map digit f end ++
   match n_exp n with None => [] | Some (b, g, l) => (if b then s "E" else s "e") ++ show_sign g ++ map digit l end)%list.
(** the whole number with these digits *)
Fixpoint whole (l : list nat) : R := match l with [] => 0 | d :: t => INR d * 10 ^ List.length t + whole t end.
Fixpoint wholeZ (l : list nat) : Z := match l with [] => 0 | d :: t => Z.of_nat d * 10 ^ Z.of_nat (List.length t) + wholeZ t end%Z.
Definition minus (o : option bool) : bool := match o with Some true => true | _ => false end.
Definition num_value (n : numeral) : R :=
  (if minus (n_sign n) then -1 else 1) * (whole (n_int n) + whole (frac_digits n) / 10 ^ List.length (frac_digits n)) *
  match n_exp n with None => 1 | Some (_, g, l) => powerRZ 10 (if minus g then - wholeZ l else wholeZ l) end.

(** spaces and tabs *)
Definition pad (x : str) : Prop := List.Forall (fun c => c = " "%char \/ c = "009"%char) x.
(** nothing, or # and anything to the end of the line *)
Definition remark (x : str) : Prop := x = [] \/ exists t, x = "#"%char :: t.
Definition field_text (f : str * numeral * str) : str := (fst (fst f) ++ show (snd (fst f)) ++ snd f)%list.
(** the line says these numbers; the line says nothing *)
Definition row_line (row : list numeral) (line : str) : Prop :=
  row <> [] /\ List.Forall num_ok row /\
  exists fields c, map (fun f => snd (fst f)) fields = row /\ List.Forall (fun f => pad (fst (fst f)) /\ pad (snd f)) fields /\ remark c /\
    line = (join (s ",") (map field_text fields) ++ c)%list.
Definition empty_line (line : str) : Prop := exists b c, pad b /\ remark c /\ line = (b ++ c)%list.
(** the text of a catalogue, line by line *)
Definition catalogue (text : str) (rows : list (list numeral)) : Prop :=
  exists lines said, lines <> [] /\ List.Forall (fun l => ~ In "010"%char l) lines /\ text = join ["010"%char] lines /\
    Forall2 (fun l r => match r with Some row => row_line row l | None => empty_line l end) lines said /\
    rows = flat_map (fun r => match r with Some row => [row] | None => [] end) said.

(* ------------------------------------------------------------ the sources *)

(** position, axes and angle, flux and spectral index *)
Record head := mk_head { h_x : R; h_y : R; h_maj : R; h_min : R; h_pa : R; h_flux : R; h_SI : R }.
Record thin_comp := mk_thin { t_p : R; t_psi : R; t_RM : R; t_var : R }.
Record slab_comp := mk_slab { l_p : R; l_psi : R; l_RM : R }.
Inductive entry := Thin (h : head) (l : list thin_comp) | Slabs (h : head) (l : list slab_comp) | Else.
Definition head_row (h : head) : list R := [h_x h; h_y h; h_maj h; h_min h; h_pa h; h_flux h; h_SI h].
(** The columns of a row as the code takes them; an incomplete last component is
    dropped, and so is what follows the decimal point of the type. *)
Definition row_says (row : list R) (e : entry) : Prop :=
  match e with
  | Thin h l => l <> [] /\ exists ty rest, 1 <= ty < 2 /\ (List.length rest < 4)%nat /\
      row = (ty :: head_row h ++ flat_map (fun c => [t_p c; t_psi c; t_RM c; t_var c]) l ++ rest)%list
  | Slabs h l => l <> [] /\ exists ty rest, 2 <= ty < 3 /\ (List.length rest < 3)%nat /\
      row = (ty :: head_row h ++ flat_map (fun c => [l_p c; l_psi c; l_RM c]) l ++ rest)%list
  | Else => exists ty rest, row = ty :: rest /\ ~ (1 <= ty < 3)
  end.
Definition head_of (e : entry) : option head := match e with Thin h _ => Some h | Slabs h _ => Some h | Else => None end.

(** the fractional polarisation of a source against wavelength squared *)
Definition polarised (e : entry) (z : R -> C) : Prop :=
  match e with
  | Thin _ l => forall l2, z l2 = csum (map (fun c => (thin (t_p c) (rad (t_psi c)) (t_RM c) l2 * RtoC (exp (- 2 * t_var c * l2 ^ 2)))%C) l)
  | Slabs _ l => exists y, (forall l2, z l2 = csum (map (fun i => y i l2) (seq 0 (List.length l)))) /\
      forall i c l2, nth_error l i = Some c ->
        is_average (fun t => thin (l_p c) (rad (l_psi c)) (layers_in_front (map l_RM l) i + t * l_RM c) l2) (y i l2)
  | Else => False
  end.

(** n frequencies from a to b *)
Definition channel (a b : R) (n k : nat) : R := a + (b - a) * (INR k / INR (n - 1)).
Definition flagged (flags : list (R * R)) (f : R) : Prop := exists r, In r flags /\ fst r <= f <= snd r.
(** the spectra of a source at frequency f *)
Definition source_I (h : head) (f0 f : R) : R := h_flux h * Rpower (f / f0) (h_SI h).
Definition source_QU (h : head) (f0 f : R) (z : R -> C) : C := (RtoC (source_I h f0 f) * z (l2_of f))%C.

(** One channel of a file: [w] the noise added to I, Q and U, [d] the errors
    written. In a flagged channel nothing is said but for the errors. *)
Definition ascii_row (flags : list (R * R)) (h : head) (f0 f : R) (z : R -> C) (w d : R * R * R) (row : list (option R)) : Prop :=
  (flagged flags f -> exists e1 e2 e3, row = [None; None; None; None; e1; e2; e3]) /\
  (~ flagged flags f ->
   row = [Some f; Some (source_I h f0 f + fst (fst w)); Some (fst (source_QU h f0 f z) + snd (fst w)); Some (snd (source_QU h f0 f z) + snd w);
          Some (fst (fst d)); Some (snd (fst d)); Some (snd d)]).
(** the files are numbered by the place of the source in the catalogue, from one *)
Definition file_numbers (l : list entry) : list nat :=
  flat_map (fun ie => match snd ie with Else => [] | _ => [S (fst ie)] end) (combine (seq 0 (List.length l)) l).

(** The file of the source at place [i], its noise and errors from [gauss] and the
    noise curve [w]. *)
Definition source_file (gauss : nat -> nat -> nat -> R) (start stop : R) (n : nat) (rms : R) (w : nat -> R) (flags : list (R * R)) (f0 : R)
    (i : nat) (e : entry) (h : head) (f : ascii_file) : Prop :=
  a_number f = S i /\ exists rows, a_rows f = Some rows /\ List.length rows = n /\
    forall z, polarised e z -> forall k, (k < n)%nat ->
      ascii_row flags h f0 (channel start stop n k) z
        (rms * gauss i 1%nat k * w k, rms * gauss i 2%nat k * w k, rms * gauss i 3%nat k * w k)
        (w k * rms * (1 + gauss i 4%nat k / 20), w k * rms * (1 + gauss i 5%nat k / 20), w k * rms * (1 + gauss i 6%nat k / 20)) (nth k rows []).

(** The beam at an offset of (dx, dy) pixels: half at half the minor axis along
    (cos pa, - sin pa), and at half the major axis across. *)
Definition beam (k : sky) (dx dy : R) : R :=
  let pa := rad (k_bpa k) in
  let u := (dx * cos pa - dy * sin pa) * k_pix k / k_bmin k in
  let v := (dx * sin pa + dy * cos pa) * k_pix k / k_bmaj k in
  exp (- (4 * ln 2 * (u ^ 2 + v ^ 2))).

(** Stokes I (0), Q (1) and U (2) of a source at frequency f. *)
Definition stokes_of (p : nat) (h : head) (f0 f : R) (z : R -> C) : R :=
  match p with O => source_I h f0 f | S O => fst (source_QU h f0 f z) | _ => snd (source_QU h f0 f z) end.
(** something for every source of a catalogue *)
Definition per_source {A} (l : list entry) (g : entry -> head -> A) : list A := flat_map (fun e => match head_of e with Some h => [g e h] | None => [] end) l.
(** the sky: every source where [pos] puts it, as wide as the beam *)
Definition sky_stokes (k : sky) (pos : R -> R -> R * R) (l : list entry) (zs : entry -> R -> C) (f0 f : R) (p y x : nat) : R :=
  rsum (per_source l (fun e h => stokes_of p h f0 f (zs e) * beam k (INR x - fst (pos (h_x h) (h_y h))) (INR y - snd (pos (h_x h) (h_y h))))).
(** an image of the sky and one plane for each channel *)
Definition cube_axes (k : sky) (n : nat) (f : image (option R)) : Prop :=
  wf_image f /\ i_naxis f = [k_nx k; k_ny k; n; 1%nat] /\ spectral_axis (s "FREQ") (i_ctype f) 3 /\ forall a, nth a (i_ctype f) None <> None \/ (4 <= a)%nat.
(** channel c of the pixel (y, x) *)
Definition cell (f : image (option R)) (c y x : nat) : option R := vox None f (fun a => nth (a - 1) [x; y; c; 0%nat] 0%nat).

(** one source that is Faraday thin and not depolarised; the other rows are none *)
Definition only_source (l : list entry) (h : head) (t : thin_comp) : Prop := per_source l (fun e h => (e, h)) = [(Thin h [t], h)] /\ t_var t = 0.

(** two rows that describe the same source but for the axes and the angle; but for its place as well *)
Definition same_but_shape (e e' : entry) : Prop :=
  match e, e' with
  | Thin h l, Thin h' l' => l = l' /\ h_x h = h_x h' /\ h_y h = h_y h' /\ h_flux h = h_flux h' /\ h_SI h = h_SI h'
  | Slabs h l, Slabs h' l' => l = l' /\ h_x h = h_x h' /\ h_y h = h_y h' /\ h_flux h = h_flux h' /\ h_SI h = h_SI h'
  | Else, Else => True
  | _, _ => False
  end.
Definition same_spectrum (e e' : entry) : Prop :=
  match e, e' with
  | Thin h l, Thin h' l' => l = l' /\ h_flux h = h_flux h' /\ h_SI h = h_SI h'
  | Slabs h l, Slabs h' l' => l = l' /\ h_flux h = h_flux h' /\ h_SI h = h_SI h'
  | Else, Else => True
  | _, _ => False
  end.

(** The columns as the help of both tools has them: angle, then fraction; the
    dispersion in radians per square metre. One component. *)
Definition help_row (ty : R) (h : head) (psi p RM : R) (more row : list R) : Prop := row = (ty :: head_row h ++ [psi; p; RM] ++ more)%list.
Definition help_thin (p psi RM sigma l2 : R) : C := (thin p (rad psi) RM l2 * RtoC (exp (- 2 * sigma ^ 2 * l2 ^ 2)))%C.
(** what a file says about Q and U in channel k *)
Definition file_QU (f : ascii_file) (k : nat) : option (option R * option R) :=
  match a_rows f with Some rs => match nth_error rs k with Some r => Some (nth 2 r None, nth 3 r None) | None => None end | None => None end.
(** ranges in the text of an option: pairs of numbers, all separated by commas *)
Definition flag_text (x : str) (l : list (numeral * numeral)) (odd : list numeral) : Prop :=
  exists fields, x = join (s ",") (map field_text fields) /\ List.Forall (fun f => pad (fst (fst f)) /\ pad (snd f)) fields /\
    map (fun f => snd (fst f)) fields = (flat_map (fun r => [fst r; snd r]) l ++ odd)%list /\ List.Forall num_ok (map (fun f => snd (fst f)) fields) /\
    (List.length odd < 2)%nat.
