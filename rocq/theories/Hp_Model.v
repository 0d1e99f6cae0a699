(** Small helpers for text, lists, records and headers: RMutils/util_misc.py
    (config_read, cleanup_str_input, progress, sort_nicely, xfloat),
    RMutils/util_rec.py, delete_FITSheader_axis of RMtools_3D/RMpeakfit_3D.py and
    l2_to_freq_array of RMtools_1D/rmtools_bwdepol.py. Model only.

    Text is ASCII; a file is its text after Python's newline translation. *)
From Coq Require Import Reals List Arith ZArith Bool Ascii String.
From Verif Require Import CBase PyRes PyStr PyList Cat_Model Pixfit_Model.
Import ListNotations.
Local Notation length := List.length.

(* ------------------------------------------------------------- config_read *)

Inductive cvalue := One (x : str) | Many (l : list str).

(** "=.+" somewhere in x *)
Fixpoint eq_then (x : str) : bool :=
  match x with
  | [] => false
  | c :: t => (ch_eqb c "="%char && match t with [] => false | _ => true end) || eq_then t
  end.
(** re.match("^.+=.+", line), util_misc.py:203 *)
Definition key_val (line : str) : bool := match line with [] => false | _ :: t => eq_then t end.
(** line.split("=", 1); None: only one part *)
Fixpoint split1 (x : str) : option (str * str) :=
  match x with
  | [] => None
  | c :: t => if ch_eqb c "="%char then Some ([], t)
              else match split1 t with Some (a, b) => Some (c :: a, b) | None => None end
  end.
(** re.sub(r",\s+", ",", x); [b]: right after a comma *)
Fixpoint commas (b : bool) (x : str) : str :=
  match x with
  | [] => []
  | c :: t => if b && is_space c then commas true t else c :: commas (ch_eqb c ","%char) t
  end.
(** re.split(r"[\s|,]", x), util_misc.py:199 *)
Definition is_sep (c : ascii) : bool := is_space c || ch_eqb c "|"%char || ch_eqb c ","%char.
Fixpoint split_if (p : ascii -> bool) (x : str) : list str :=
  match x with
  | [] => [[]]
  | a :: t => if p a then [] :: split_if p t
              else match split_if p t with w :: ws => (a :: w) :: ws | [] => [[a]] end
  end.
(** util_misc.py:218-223 *)
Definition clean_value (v : str) : str :=
  commas false (filter (fun c => negb (ch_eqb c "'"%char)) (shrink false (strip v))).
(** util_misc.py:216-217 *)
Definition clean_key (k : str) : str := filter (fun c => negb (is_space c)) (strip k).
(** util_misc.py:206-231, one line; None: nothing is set. ValueError if no "=" is
    left after the comment is cut. *)
Definition config_line (splits : bool) (line : str) : pyres (option (str * cvalue)) :=
  match line with
  | c :: _ =>
      if ch_eqb c "#"%char then POk None
      else if key_val line then
        match split1 (uncomment line) with
        | None => PErr
        | Some (k, v) =>
            let value := clean_value v in
            POk (Some (clean_key k,
              if splits then match split_if is_sep value with [w] => One w | l => Many l end else One value))
        end
      else POk None
  | [] => POk None
  end.
(** util_misc.py:187-233 [config_read] with the delimiter "=" *)
Definition config_read (splits : bool) (text : str) : pyres (list (str * cvalue)) :=
  fold_left (fun d line => pybind d (fun d => pybind (config_line splits line) (fun o =>
    POk (match o with Some (k, v) => dset d k v | None => d end)))) (split "010"%char text) (POk []).

(* ------------------------------------------------------- cleanup_str_input *)

(** re.sub("[p]+", r, x) for a class of characters p; [b]: inside a run *)
Fixpoint runs (p : ascii -> bool) (r : ascii) (b : bool) (x : str) : str :=
  match x with
  | [] => []
  | c :: t => if p c then (if b then runs p r true t else r :: runs p r true t) else c :: runs p r false t
  end.
Definition LF : ascii := "010"%char.
Definition CR : ascii := "013"%char.
(** [^\S\r\n] *)
Definition inline_space (c : ascii) : bool := is_space c && negb (ch_eqb c LF) && negb (ch_eqb c CR).
(** util_misc.py:280-293 *)
Definition cleanup_str_input (x : str) : str :=
  runs inline_space " "%char false (runs (fun c => ch_eqb c LF) LF false (runs (fun c => ch_eqb c CR) LF false (strip x))).

(* ------------------------------------------------------------- sort_nicely *)

Inductive tok := Text (x : str) | Digits (x : str).
(** re.split("([0-9]+)", x), util_misc.py:1129 *)
Fixpoint nat_key (x : str) : list tok :=
  match x with
  | [] => [Text []]
  | c :: t =>
      if is_digit c then
        match nat_key t with
        | Text [] :: Digits d :: r => Text [] :: Digits (c :: d) :: r
        | l => Text [] :: Digits [c] :: l
        end
      else match nat_key t with
           | Text w :: r => Text (c :: w) :: r
           | l => l
           end
  end.
(** int(x) of a run of digits *)
Definition int_of (x : str) : Z := fold_left (fun a c => 10 * a + digit_val c)%Z x 0%Z.
(** <, = and > of two entries. Text against number, a TypeError in Python, does
    not occur: both lists alternate from a text on. *)
Definition tok_cmp (a b : tok) : comparison :=
  match a, b with
  | Text x, Text y => if str_ltb x y then Lt else if str_eqb x y then Eq else Gt
  | Digits x, Digits y => (int_of x ?= int_of y)%Z
  | Text _, Digits _ => Lt
  | Digits _, Text _ => Gt
  end.
(** a < b for lists *)
Fixpoint key_ltb (a b : list tok) : bool :=
  match a, b with
  | _, [] => false
  | [], _ :: _ => true
  | x :: a, y :: b => match tok_cmp x y with Lt => true | Eq => key_ltb a b | Gt => false end
  end.
(** list.sort(key=...): stable, uses < only *)
Fixpoint ins (x : str) (l : list str) : list str :=
  match l with
  | [] => [x]
  | y :: t => if key_ltb (nat_key y) (nat_key x) then y :: ins x t else x :: l
  end.
(** util_misc.py:1123-1131 *)
Definition sort_nicely (l : list str) : list str := fold_right ins [] l.

(* ------------------------------------------------------------------ xfloat *)

(** util_misc.py:1359-1366, for text or None; [inl]: a number (None: not finite) *)
Definition xfloat {D} (x : option str) (default : D) : option R + D :=
  match x with
  | None => inr default
  | Some [] => inr default
  | Some t => match py_float t with POk v => inl v | PErr => inr default end
  end.

(* ---------------------------------------------------------------- progress *)

(** util_misc.py:356-369: the bar between the brackets, and whether the line ends *)
Definition progress (width percent : R) : str * bool :=
  let marks := Rfloor (width * (percent / 100))%R in
  let spaces := Rfloor (width - IZR marks)%R in
  (repeat "="%char (Z.to_nat marks) ++ repeat " "%char (Z.to_nat spaces), if Rle_dec 100 percent then true else false).

(* ---------------------------------------------------------------- util_rec *)

(** Cells of a record array: integers, floats (None: NaN), bytes, unicode text,
    anything else (kept as a number). *)
Inductive cell := CInt (z : Z) | CFloat (x : option R) | CBytes (b : str) | CText (t : str) | CElse (n : nat).
(** Python values *)
Inductive pyval := PyInt (z : Z) | PyFloat (x : option R) | PyStr (t : str) | PySame (c : cell).
(** str(b) of bytes in Python 3, for printable bytes without quotes and backslashes *)
Definition str_bytes (b : str) : str := (s "b'" ++ b ++ s "'")%list.
(** int(x), float(x), str(x). Only cells of the field's own type occur; other
    combinations are an exception here. *)
Definition to_int (c : cell) : pyres pyval := match c with CInt z => POk (PyInt z) | _ => PErr end.
Definition to_float (c : cell) : pyres pyval := match c with CFloat x => POk (PyFloat x) | _ => PErr end.
Definition to_str (c : cell) : pyres pyval :=
  match c with CBytes b => POk (PyStr (str_bytes b)) | CText t => POk (PyStr t) | _ => PErr end.
(** util_rec.py:48-59 [pyify]; a string of one character raises IndexError *)
Definition pyify (typestr : str) : pyres (cell -> pyres pyval) :=
  match typestr with
  | _ :: c :: _ =>
      if ch_eqb c "i"%char || ch_eqb c "u"%char then POk to_int
      else if ch_eqb c "f"%char then POk to_float
      else if ch_eqb c "S"%char then POk to_str
      else POk (fun x => POk (PySame x))
  | _ => PErr
  end.
Fixpoint pyall {A} (l : list (pyres A)) : pyres (list A) :=
  match l with [] => POk [] | a :: t => pybind a (fun a => pybind (pyall t) (fun t => POk (a :: t))) end.
(** an entry of dtype.descr: name, type string and, for a field that is an array,
    its shape *)
Definition descr := list (str * str * option (list nat)).
(** util_rec.py:63-74 [irecarray_to_py], all records of the iterator. Unpacking an
    entry with a shape into two names raises ValueError. *)
Definition irecarray_to_py (d : descr) (a : list (list cell)) : pyres (list (list pyval)) :=
  pybind (pyall (map (fun e => match snd e with None => pyify (snd (fst e)) | Some _ => PErr end) d)) (fun types =>
  pyall (map (fun r => pyall (map (fun cv => fst cv (snd cv)) (combine types r))) a)).

(** Fields of a dtype: name, type, offset in bytes. [mem r o t] of a view is the
    value of type t at offset o of record r. *)
Definition fields := list (str * (str * nat)).
Fixpoint field (l : fields) (n : str) : pyres (str * nat) :=
  match l with [] => PErr | (k, v) :: t => if str_eqb n k then POk v else field t n end.
(** numpy's _usefields sorts the fields of a dict by offset (stable) *)
Fixpoint ins_off (x : str * (str * nat)) (l : fields) : fields :=
  match l with
  | [] => [x]
  | y :: t => if (snd (snd x) <=? snd (snd y))%nat then x :: l else y :: ins_off x t
  end.
(** util_rec.py:78-89 [fields_view]: the fields of the view. The records, their
    number and their strides are those of the array. *)
Definition fields_view (dt : fields) (names : list str) : pyres fields :=
  let names := match names with [] => map fst dt | _ => names end in
  pybind (pyall (map (fun n => pybind (field dt n) (fun v => POk (n, v))) names)) (fun l =>
  POk (fold_right ins_off [] (fold_left (fun d kv => dset d (fst kv) (snd kv)) l []))).

(* ------------------------------------------------- headers and wavelengths *)

(** RMpeakfit_3D.py:153-161. Deleting a keyword removes all its cards; a missing
    one is skipped. *)
Definition axis_words : list str := [s "NAXIS"; s "CRVAL"; s "CRPIX"; s "CDELT"; s "CUNIT"; s "CTYPE"].
Definition delete_axis {V} (h : list (str * V)) (n : nat) : list (str * V) :=
  fold_left (fun h w => filter (fun kv => negb (str_eqb (fst kv) (w ++ str_of_nat n))) h) axis_words h.

(** rmtools_bwdepol.py:153-157; None: infinite or NaN *)
Definition l2_to_freq (x : R) : option R :=
  if Rlt_dec 0 x then Some (sqrt (299792458 ^ 2 / x)) else None.
Definition l2_to_freq_array (l : list R) : list (option R) := map l2_to_freq l.
