(** The command lines of the tools (setup.py:56-73): the arguments each tool
    declares, what argparse makes of a command line, and what the tools then call.
    Model only.

    argparse is Python's, not the project's. It is modelled from its source
    (Lib/argparse.py, [_parse_optional], [_get_option_tuples], [_parse_known_args],
    [consume_optional], [consume_positionals], [_match_arguments_partial]):
    classification of the words, abbreviations, values glued to an option, flags in
    one word, positional arguments in blocks. Left out: a word "--", files of
    arguments, sub-commands (no tool uses the last two). Optional positional
    arguments come last in every tool, so that matching them needs no backtracking. *)
From Coq Require Import Reals List Arith ZArith Bool Ascii String.
From Verif Require Import CBase PyRes PyStr PyList Cat_Model Pixfit_Model.
Import ListNotations.
Local Notation length := List.length.

(* ----------------------------------------------------------------- values *)

(** [VNum None]: NaN or an infinity. [VOf f l]: what the reader [f] returns for the
    arguments [l]; files are not opened here. *)
Inductive value :=
| VNone | VBool (b : bool) | VStr (x : str) | VInt (z : Z) | VNum (x : option R)
| VList (l : list value) | VOf (f : str) (l : list value).

Inductive ptype := PStr | PInt | PFloat.

(** int(x) for text: blanks around, a sign, digits with single underscores *)
Definition int_text (x : str) : option Z :=
  let '(g, t) := sign_of (strip x) in
  match digs t 0 0 with (m, S _, []) => Some (g * m)%Z | _ => None end.
(** argparse [_get_value] *)
Definition conv (t : ptype) (x : str) : option value :=
  match t with
  | PStr => Some (VStr x)
  | PInt => match int_text x with Some z => Some (VInt z) | None => None end
  | PFloat => match py_float x with POk r => Some (VNum r) | PErr => None end
  end.
Fixpoint conv_all (t : ptype) (l : list str) : option (list value) :=
  match l with
  | [] => Some []
  | x :: l => match conv t x, conv_all t l with Some v, Some vs => Some (v :: vs) | _, _ => None end
  end.

(* ------------------------------------------------------------- declarations *)

(** action="store_true", "store_false", the default one, with nargs=n, and help *)
Inductive action := StoreTrue | StoreFalse | Store (t : ptype) | StoreN (n : nat) (t : ptype) | ShowHelp.
Record opt := mk_opt { o_names : list str; o_dest : str; o_act : action; o_default : value }.
(** positional: one word; nargs=1 (a list); nargs="?"; nargs=n *)
Inductive pnum := POne | PList1 | POpt | PMany (n : nat).
Record pos := mk_pos { p_dest : str; p_num : pnum; p_type : ptype; p_default : value }.
(** [c_group]: the members of a mutually exclusive group *)
Record cmd := mk_cmd { c_opts : list opt; c_pos : list pos; c_group : list str }.

Definition nwords (a : action) : nat :=
  match a with Store _ => 1 | StoreN n _ => n | _ => 0 end.
Definition find_opt (c : cmd) (name : str) : option opt := find (fun o => existsb (str_eqb name) (o_names o)) (c_opts c).

(* ------------------------------------------------- classification of a word *)

Inductive kind := KArg | KOpt (o : opt) (name : str) (expl : option str) | KUnknown.
Definition dash : ascii := "-"%char.
(** x.split("=", 1) if x has an "=" *)
Fixpoint split_eq (x : str) : option (str * str) :=
  match x with
  | [] => None
  | a :: t => if ch_eqb a "="%char then Some ([], t)
              else match split_eq t with Some (u, v) => Some (a :: u, v) | None => None end
  end.
(** re.match(r"^-\d+$|^-\d*\.\d+$", x): [_negative_number_matcher] *)
Fixpoint after_digits (x : str) : str := match x with c :: t => if is_digit c then after_digits t else x | [] => [] end.
Definition negative_like (x : str) : bool :=
  match x with
  | a :: t => ch_eqb a dash &&
      (isnumeric t || match after_digits t with c :: u => ch_eqb c "."%char && isnumeric u | [] => false end)
  | [] => false
  end.
Definition names_of (c : cmd) : list (str * opt) := flat_map (fun o => map (fun n => (n, o)) (o_names o)) (c_opts c).
(** [_get_option_tuples] *)
Definition option_tuples (c : cmd) (w : str) : list kind :=
  match w with
  | _ :: b :: _ =>
      if ch_eqb b dash then
        let '(p, e) := match split_eq w with Some (p, e) => (p, Some e) | None => (w, None) end in
        flat_map (fun no => if startswith p (fst no) then [KOpt (snd no) (fst no) e] else []) (names_of c)
      else
        flat_map (fun no => if str_eqb (fst no) (firstn 2 w) then [KOpt (snd no) (fst no) (Some (skipn 2 w))]
                            else if startswith w (fst no) then [KOpt (snd no) (fst no) None] else []) (names_of c)
  | _ => []
  end.
(** [_parse_optional]; None: "ambiguous option" *)
Definition classify (c : cmd) (w : str) : option kind :=
  match w with
  | [] => Some KArg
  | a :: t =>
      if negb (ch_eqb a dash) then Some KArg
      else match find_opt c w with
      | Some o => Some (KOpt o w None)
      | None =>
          match t with
          | [] => Some KArg
          | _ =>
            match (match split_eq w with
                   | Some (p, e) => match find_opt c p with Some o => Some (KOpt o p (Some e)) | None => None end
                   | None => None end) with
            | Some k => Some k
            | None =>
                match option_tuples c w with
                | [k] => Some k
                | _ :: _ :: _ => None
                | [] =>
                    if negative_like w && negb (existsb (fun no => negative_like (fst no)) (names_of c)) then Some KArg
                    else if existsb (ch_eqb " "%char) w then Some KArg
                    else Some KUnknown
                end
            end
          end
      end
  end.
Fixpoint classify_all (c : cmd) (l : list str) : option (list (kind * str)) :=
  match l with
  | [] => Some []
  | w :: l => match classify c w, classify_all c l with Some k, Some r => Some ((k, w) :: r) | _, _ => None end
  end.

(* --------------------------------------------------------------- the parser *)

Definition space := list (str * value).
(** [s_extra]: a word was left over; [s_seen]: options set to something else than
    their default *)
Record state := mk_state { s_ns : space; s_pos : list pos; s_extra : bool; s_seen : list str }.
Inductive outcome := Parsed (n : space) | Refused | Helped.

(** argument_values is action.default, for the numbers CPython keeps *)
Definition same_object (a b : value) : bool :=
  match a, b with VInt x, VInt y => Z.eqb x y && Z.leb (-5) x && Z.leb x 256 | _, _ => false end.
(** [take_action] for an option with the words it was given *)
Definition opt_value (o : opt) (ws : list str) : option value :=
  match o_act o with
  | StoreTrue => Some (VBool true)
  | StoreFalse => Some (VBool false)
  | Store t => match ws with [w] => conv t w | _ => None end
  | StoreN _ t => match conv_all t ws with Some l => Some (VList l) | None => None end
  | ShowHelp => None
  end.
Definition take_option (c : cmd) (st : state) (o : opt) (ws : list str) : state + outcome :=
  match o_act o with
  | ShowHelp => inr Helped
  | _ =>
      match opt_value o ws with
      | None => inr Refused
      | Some v =>
          let member := existsb (str_eqb (o_dest o)) (c_group c) in
          let counts := negb (same_object v (o_default o)) in
          let others := existsb (fun d => negb (str_eqb d (o_dest o)) && existsb (str_eqb d) (c_group c)) (s_seen st) in
          if member && counts && others then inr Refused
          else inl (mk_state (dset (s_ns st) (o_dest o) v) (s_pos st) (s_extra st)
                             (if counts then o_dest o :: s_seen st else s_seen st))
      end
  end.
Fixpoint take_options (c : cmd) (st : state) (l : list (opt * list str)) : state + outcome :=
  match l with
  | [] => inl st
  | (o, ws) :: l => match take_option c st o ws with inl st => take_options c st l | inr r => inr r end
  end.
(** the loop of [consume_optional] over a word of several flags: the flags that
    come first, the last option, what is glued to it *)
Fixpoint unbundle (c : cmd) (o : opt) (e : str) : option (list opt * opt * option str) :=
  match nwords (o_act o) with
  | 1 => Some ([], o, Some e)
  | 0 => match e with
         | [] => None
         | x :: e' =>
             match find_opt c [dash; x] with
             | None => None
             | Some o' => match e' with
                          | [] => Some ([o], o', None)
                          | _ => match unbundle c o' e' with Some (l, p, r) => Some (o :: l, p, r) | None => None end
                          end
             end
         end
  | _ => None
  end.
Definition second_dash (name : str) : bool := match name with _ :: b :: _ => ch_eqb b dash | _ => false end.
(** the words up to the next option *)
Fixpoint args_ahead (l : list (kind * str)) : list str :=
  match l with (KArg, w) :: l => w :: args_ahead l | _ => [] end.

(** "?" without a word: the default; text is converted *)
Definition pos_default (p : pos) : option value := match p_default p with VStr x => conv (p_type p) x | v => Some v end.
Definition pos_value (p : pos) (ws : list str) : option value :=
  match p_num p, ws with
  | POpt, [] => pos_default p
  | PList1, _ | PMany _, _ => match conv_all (p_type p) ws with Some l => Some (VList l) | None => None end
  | _, [w] => conv (p_type p) w
  | _, _ => None
  end.
(** [_match_arguments_partial]: how many words each positional argument gets; those
    not listed get none yet *)
Fixpoint shares (ps : list pos) (k : nat) : list nat :=
  match ps with
  | [] => []
  | p :: ps =>
      match p_num p with
      | POne | PList1 => match k with O => [] | S k => 1%nat :: shares ps k end
      | POpt => match k with O => 0%nat :: shares ps 0 | S k => 1%nat :: shares ps k end
      | PMany n => if (n <=? k)%nat then n :: shares ps (k - n) else []
      end
  end.
(** later Pythons (3.12.7, 3.13.1) keep trailing empty shares if an option follows *)
Fixpoint drop_zeros (l : list nat) : list nat :=
  match l with
  | [] => []
  | n :: l => match drop_zeros l with [] => if (n =? 0)%nat then [] else [n] | r => n :: r end
  end.
Fixpoint take_shares (st : state) (l : list nat) (ws : list str) : option (state * list str) :=
  match l, s_pos st with
  | n :: l, p :: ps =>
      match pos_value p (firstn n ws) with
      | Some v => take_shares (mk_state (dset (s_ns st) (p_dest p) v) ps (s_extra st) (s_seen st)) l (skipn n ws)
      | None => None
      end
  | _, _ => Some (st, ws)
  end.

(** the loop of [_parse_known_args]. [late]: the Pythons of [drop_zeros]. *)
Fixpoint run (late : bool) (c : cmd) (fuel : nat) (st : state) (l : list (kind * str)) : state + outcome :=
  match fuel with
  | O => inr Refused
  | S fuel =>
    match l with
    | [] => inl st
    | (KUnknown, _) :: t => run late c fuel (mk_state (s_ns st) (s_pos st) true (s_seen st)) t
    | (KArg, _) :: _ =>
        let ws := args_ahead l in
        let rest := skipn (length ws) l in
        let sh := shares (s_pos st) (length ws) in
        let sh := if late && (fold_right Nat.add 0 sh =? length ws)%nat && match rest with [] => false | _ => true end
                  then drop_zeros sh else sh in
        match take_shares st sh ws with
        | None => inr Refused
        | Some (st, over) =>
            run late c fuel (mk_state (s_ns st) (s_pos st) (s_extra st || match over with [] => false | _ => true end) (s_seen st)) rest
        end
    | (KOpt o name e, _) :: t =>
        let bundle := match e with
                      | None => Some ([], o, None)
                      | Some x => if second_dash name && (nwords (o_act o) =? 0)%nat then None else unbundle c o x
                      end in
        match bundle with
        | None => inr Refused
        | Some (flags, o, e) =>
            let n := nwords (o_act o) in
            let '(ws, t) := match e with Some x => ([x], t) | None => (firstn n (args_ahead t), skipn n t) end in
            if (length ws =? n)%nat then
              match take_options c st (map (fun f => (f, [])) flags ++ [(o, ws)]) with
              | inl st => run late c fuel st t
              | inr r => inr r
              end
            else inr Refused
        end
    end
  end.

(** add_argument gives every option its default; text defaults of positional
    arguments that got no word are converted at the end *)
Definition defaults (c : cmd) : space :=
  fold_left (fun n p => dset n (p_dest p) (match pos_default p with Some v => v | None => p_default p end)) (c_pos c)
    (fold_left (fun n o => match o_act o with ShowHelp => n | _ => dset n (o_dest o) (o_default o) end) (c_opts c) []).
Definition required (p : pos) : bool := match p_num p with POpt => false | _ => true end.
(** parser.parse_args() on the words after the name of the tool *)
Definition parse (late : bool) (c : cmd) (words : list str) : outcome :=
  match classify_all c words with
  | None => Refused
  | Some l =>
      match run late c (S (length l)) (mk_state (defaults c) (c_pos c) false []) l with
      | inr r => r
      | inl st => if existsb required (s_pos st) || s_extra st then Refused else Parsed (s_ns st)
      end
  end.

(* --------------------------------------------------------- the tools' tables *)

Definition help := mk_opt [s "-h"; s "--help"] (s "help") ShowHelp VNone.
Definition flag (n d : string) := mk_opt [s n] (s d) StoreTrue (VBool false).
Definition unflag (n d : string) := mk_opt [s n] (s d) StoreFalse (VBool true).
Definition store (n d : string) (t : ptype) (v : value) := mk_opt [s n] (s d) (Store t) v.
Definition list1 (d : string) := mk_pos (s d) PList1 PStr VNone.
Definition one (d : string) := mk_pos (s d) POne PStr VNone.
Definition super_res := mk_opt [s "-r"; s "--super-resolution"] (s "super_resolution") StoreTrue (VBool false).
Definition txt (x : string) := VStr (s x).

(** do_RMsynth_1D.py:697-792 *)
Definition rmsynth1d := mk_cmd
  [help; flag "-t" "fitRMSF"; store "-l" "phiMax_radm2" PFloat VNone; store "-d" "dPhi_radm2" PFloat VNone;
   store "-s" "nSamples" PFloat (VInt 10); store "-w" "weightType" PStr (txt "variance");
   store "-f" "fit_function" PStr (txt "log"); store "-o" "polyOrd" PInt (VInt 2); flag "-i" "noStokesI";
   flag "-b" "bit64"; flag "-p" "showPlots"; flag "-v" "verbose"; flag "-S" "saveOutput"; flag "-D" "debug";
   store "-U" "units" PStr (txt "Jy/beam"); super_res] [list1 "dataFile"] [].
(** do_RMsynth_1D_fromFITS.py:87-203 *)
Definition rmsynth1dFITS := mk_cmd
  [help; flag "-c" "sky_coords"; store "-I" "StokesI_fits" PStr VNone; flag "-t" "fitRMSF";
   store "-l" "phiMax_radm2" PFloat VNone; store "-d" "dPhi_radm2" PFloat VNone; store "-s" "nSamples" PFloat (VInt 10);
   store "-w" "weightType" PStr (txt "variance"); store "-o" "polyOrd" PInt (VInt 2); flag "-i" "noStokesI";
   flag "-b" "bit64"; flag "-p" "showPlots"; flag "-v" "verbose"; flag "-S" "saveOutput"; flag "-D" "debug";
   store "-U" "units" PStr VNone; super_res]
  [list1 "dataFile"; list1 "UFile"; mk_pos (s "xcoords") POpt PFloat (txt "1"); mk_pos (s "ycoords") POpt PFloat (txt "1")] [].
(** do_RMclean_1D.py:543-584 *)
Definition rmclean1d := mk_cmd
  [help; store "-c" "cutoff" PFloat (VInt (-3)); store "-w" "window" PFloat VNone; store "-n" "maxIter" PInt (VInt 1000);
   store "-g" "gain" PFloat (VNum (Some (1 / 10)%R)); flag "-p" "showPlots"; flag "-v" "verbose"; flag "-S" "saveOutput"]
  [list1 "dataFile"] [].
(** do_QUfit_1D_mnest.py:113-171 *)
Definition qufit := mk_cmd
  [help; store "-m" "modelNum" PInt (VInt 1); store "-f" "fit_function" PStr (txt "log"); store "-o" "polyOrd" PInt (VInt 2);
   flag "-i" "noStokesI"; flag "-p" "showPlots"; flag "-d" "debug"; flag "-v" "verbose";
   store "--sampler" "sampler" PStr (txt "dynesty"); store "--ncores" "ncores" PInt (VInt 1); store "--nlive" "nlive" PInt (VInt 300)]
  [list1 "dataFile"] [].
(** rmtools_bwdepol.py:1411-1484 *)
Definition bwdepol := mk_cmd
  [help; unflag "-t" "fitRMSF"; store "-l" "phiMax_radm2" PFloat VNone; store "-d" "dPhi_radm2" PFloat VNone;
   store "-s" "nSamples" PFloat (VInt 10); store "-w" "weightType" PStr (txt "variance"); store "-o" "polyOrd" PInt (VInt 2);
   flag "-i" "noStokesI"; flag "-p" "showPlots"; flag "-v" "verbose"; flag "-S" "saveOutput"; flag "-D" "debug";
   store "-U" "units" PStr (txt "Jy/beam")] [list1 "dataFile"] [].
(** rmtools_bwpredict.py:145-177 *)
Definition bwpredict := mk_cmd
  [help; store "-l" "phiMax_radm2" PFloat VNone; store "-d" "dPhi_radm2" PFloat VNone; store "-s" "nSamples" PFloat (VInt 10);
   store "-f" "plotfile" PStr VNone] [list1 "dataFile"] [].
(** calculate_RMSF.py:46-94 *)
Definition calcRMSF := mk_cmd
  [help; mk_opt [s "-f"] (s "freq_parms") (StoreN 3 PStr) VNone; store "-m" "phiMax_radm2" PFloat VNone;
   store "-d" "dphi_radm2" PFloat VNone; store "-s" "plotfile" PStr VNone; store "-n" "plotname" PStr VNone; super_res]
  [mk_pos (s "freqFile") POpt PStr VNone; mk_pos (s "weightFile") POpt PStr VNone] [].
(** mk_test_ascii_data.py:154-209 *)
Definition testdata1D := mk_cmd
  [help; mk_opt [s "-f"] (s "freqRng_MHz") (StoreN 2 PFloat) (VList [VNum (Some 700%R); VNum (Some 1800%R)]);
   store "-f0" "freq0_MHz" PFloat (VNum (Some 0%R)); store "-c" "nChans" PInt (VInt 111);
   store "-n" "rmsNoise" PFloat (VNum (Some (2 / 100)%R)); store "-t" "noiseTmpFile" PStr VNone; store "-l" "flagFreqStr" PStr (txt "")]
  [list1 "inCatFile"; mk_pos (s "dataPath") POpt PStr (txt "data/")] [].
(** mk_test_cube_data.py:191-216 *)
Definition testdata3D := mk_cmd
  [help; store "-n" "noiseTmpFile" PStr VNone; store "-f" "flagFreqStr" PStr (txt "")]
  [list1 "inCatFile"; mk_pos (s "dataPath") POpt PStr (txt "data")] [].
(** do_RMsynth_3D.py:828-917 *)
Definition rmsynth3d := mk_cmd
  [help; store "-i" "fitsI" PStr VNone; store "-n" "noiseFile" PStr VNone; store "-w" "weightType" PStr (txt "uniform");
   flag "-t" "fitRMSF"; store "-l" "phiMax_radm2" PFloat VNone; store "-d" "dPhi_radm2" PFloat VNone; store "-o" "prefixOut" PStr (txt "");
   store "-s" "nSamples" PFloat (VInt 5); unflag "-f" "write_seperate_FDF"; flag "-v" "verbose"; flag "-R" "not_RMSF"; super_res]
  [list1 "fitsQ"; list1 "fitsU"; list1 "freqFile"] [].
(** do_RMclean_3D.py:446-516 *)
Definition rmclean3d := mk_cmd
  [help; store "-c" "cutoff" PFloat (VInt 1); store "-w" "window" PFloat (VNum None); store "-n" "maxIter" PInt (VInt 1000);
   store "-g" "gain" PFloat (VNum (Some (1 / 10)%R)); store "-o" "prefixOut" PStr (txt ""); unflag "-f" "write_separate_FDF";
   flag "-v" "verbose"; store "--ncores" "n_cores" PInt (VInt 1); store "--chunk" "chunk" PInt VNone; flag "--mpi" "mpi"]
  [list1 "fitsFDF"; list1 "fitsRMSF"] [s "n_cores"; s "mpi"].
(** do_fitIcube.py:84-155 *)
Definition fitIcube := mk_cmd
  [help; store "-freqFile" "freq_file" PStr (txt ""); store "-f" "fit_function" PStr (txt "log"); store "-p" "polyOrd" PInt (VInt 2);
   store "-n" "num_cores" PInt (VInt 1); flag "-m" "apply_mask"; store "-c" "chunk_size" PInt (VInt 1);
   store "-t" "threshold" PFloat (VInt (-3)); store "-o" "prefixOut" PStr (txt ""); store "-odir" "outDir" PStr (txt ""); flag "-v" "verbose"]
  [list1 "fitsI"] [].
(** RMpeakfit_3D.py:341-388 *)
Definition peakfitcube := mk_cmd
  [help; flag "-a" "all_products"; flag "-p" "peak_only"; flag "-v" "verbose"; store "-i" "fitsI" PStr VNone;
   store "-n" "noiseFile" PStr VNone; store "-w" "weightType" PStr (txt "uniform")]
  [list1 "FDF_filename"; list1 "freq_file"; list1 "output_name"] [].
(** rescale_I_model_3D.py:84-126 *)
Definition rescale := mk_cmd
  [help; store "-l" "lambda2_0" PStr VNone; store "-f" "new_reffreq" PFloat VNone; store "-o" "outname" PStr VNone;
   store "-n" "num_cores" PInt (VInt 1); flag "-w" "overwrite"] [one "covar_file"] [].
(** extract_region.py:44-81 *)
Definition extractregion := mk_cmd
  [help; flag "-s" "sky"; flag "-c" "center"; mk_opt [s "-z"] (s "zlim") (StoreN 2 PInt) VNone; flag "-o" "overwrite"]
  [one "infile"; one "outfile"; mk_pos (s "box") (PMany 4) PFloat VNone] [].
(** create_chunks.py:41-58 *)
Definition createchunks := mk_cmd
  [help; flag "-v" "verbose"; store "-p" "prefix" PStr VNone; flag "-m" "memmap"] [one "infile"; one "Nperchunk"] [].
(** assemble_chunks.py:35-55 *)
Definition assemblechunks := mk_cmd
  [help; store "-f" "output" PStr VNone; flag "-o" "overwrite"; flag "-m" "memmap"] [one "chunkname"] [].
(** make_freq_file.py:25-33 *)
Definition freqfile := mk_cmd [help] [list1 "fits_file"; one "freq_file"] [].

(* ------------------------------------------------------ what the tools call *)

(** a call of another function of the project, with its arguments *)
Record call := mk_call { k_name : str; k_args : list (str * value) }.
(** [Ended]: sys.exit() without a number, status 0; [Raised]: an exception *)
Inductive done := Ran (l : list call) | Ended | Raised.

Definition get (n : space) (d : string) : value := match dget n (s d) with POk v => v | PErr => VNone end.
(** args.x[0] *)
Definition first_of (v : value) : value := match v with VList (x :: _) => x | _ => VNone end.
Definition text_of (v : value) : str := match v with VStr x => x | _ => [] end.
Definition is_true (v : value) : bool := match v with VBool b => b | _ => false end.
Definition is_none (v : value) : bool := match v with VNone => true | _ => false end.
Definition arg (k : string) (v : value) : str * value := (s k, v).
Definition of (f : string) (l : list value) := VOf (s f) l.

(** os.path.splitext(x)[0]: cut at the last dot of the last part, unless only dots
    come before it there *)
Fixpoint tail_name (x : str) : str := (* of the reversed path *)
  match x with [] => [] | c :: t => if ch_eqb c slash then [] else c :: tail_name t end.
Fixpoint to_dot (x : str) : option str :=
  match x with [] => None | c :: t => if ch_eqb c "."%char then Some t else to_dot t end.
Definition root_of (x : str) : str :=
  let r := rev x in
  let name := tail_name r in
  match to_dot name with
  | Some t => if forallb (ch_eqb "."%char) t then x else rev (t ++ skipn (length name) r)
  | None => x
  end.

Section Mains.
(** os.path.exists *)
Variable exists_ : str -> bool.

(** do_RMsynth_1D.py:795-835 *)
Definition main_rmsynth1d (n : space) : done :=
  let file := text_of (first_of (get n "dataFile")) in
  if negb (exists_ file) then Ended
  else
    let prefix := VStr (root_of file) in
    let nBits := VInt (if is_true (get n "bit64") then 64 else 32) in
    let verbose := get n "verbose" in
    Ran (mk_call (s "run_rmsynth")
      [arg "data" (of "readFile" [VStr file; nBits; verbose; get n "debug"]); arg "polyOrd" (get n "polyOrd");
       arg "phiMax_radm2" (get n "phiMax_radm2"); arg "dPhi_radm2" (get n "dPhi_radm2"); arg "nSamples" (get n "nSamples");
       arg "weightType" (get n "weightType"); arg "fitRMSF" (get n "fitRMSF"); arg "noStokesI" (get n "noStokesI");
       arg "nBits" nBits; arg "showPlots" (get n "showPlots"); arg "debug" (get n "debug"); arg "verbose" verbose;
       arg "units" (get n "units"); arg "prefixOut" prefix; arg "saveFigures" (get n "saveOutput");
       arg "fit_function" (get n "fit_function"); arg "super_resolution" (get n "super_resolution")]
     :: if is_true (get n "saveOutput") then [mk_call (s "saveOutput") [arg "prefixOut" prefix; arg "verbose" verbose]] else []).

(** do_RMclean_1D.py:587-623 *)
Definition main_rmclean1d (n : space) : done :=
  let root := root_of (text_of (first_of (get n "dataFile"))) in
  let fdf := (root ++ s "_FDFdirty.dat")%list in
  let rmsf := (root ++ s "_RMSF.dat")%list in
  let weight := (root ++ s "_weight.dat")%list in
  let synth := (root ++ s "_RMsynth.json")%list in
  if negb (forallb exists_ [weight; fdf; rmsf; synth]) then Ended
  else
    Ran (mk_call (s "run_rmclean")
      [arg "mDict, aDict" (of "readFiles" [VStr fdf; VStr rmsf; VStr weight; VStr synth; VInt 32]);
       arg "cutoff" (get n "cutoff"); arg "maxIter" (get n "maxIter"); arg "gain" (get n "gain"); arg "nBits" (VInt 32);
       arg "showPlots" (get n "showPlots"); arg "prefixOut" (VStr root); arg "verbose" (get n "verbose");
       arg "saveFigures" (get n "saveOutput"); arg "window" (get n "window")]
     :: if is_true (get n "saveOutput") then [mk_call (s "saveOutput") [arg "prefixOut" (VStr root); arg "verbose" (get n "verbose")]] else []).

(** do_QUfit_1D_mnest.py:174-199 *)
Definition main_qufit (n : space) : done :=
  let file := text_of (first_of (get n "dataFile")) in
  if negb (exists_ file) then Ended
  else Ran [mk_call (s "run_qufit")
      [arg "data" (of "readFile" [VStr file; VInt 32; get n "verbose"; get n "debug"]); arg "modelNum" (get n "modelNum");
       arg "polyOrd" (get n "polyOrd"); arg "nBits" (VInt 32); arg "noStokesI" (get n "noStokesI"); arg "showPlots" (get n "showPlots");
       arg "debug" (get n "debug"); arg "verbose" (get n "verbose"); arg "fit_function" (get n "fit_function");
       arg "sampler" (get n "sampler"); arg "ncores" (get n "ncores"); arg "nlive" (get n "nlive"); arg "prefixOut" (VStr (root_of file))]].

(** rmtools_bwdepol.py:1487-1519 *)
Definition main_bwdepol (n : space) : done :=
  let file := text_of (first_of (get n "dataFile")) in
  if negb (exists_ file) then Ended
  else
    let prefix := VStr (root_of file) in
    Ran (mk_call (s "run_adjoint_rmsynth")
      [arg "data" (of "loadtxt" [VStr file; VInt 64]); arg "polyOrd" (get n "polyOrd"); arg "phiMax_radm2" (get n "phiMax_radm2");
       arg "dPhi_radm2" (get n "dPhi_radm2"); arg "nSamples" (get n "nSamples"); arg "weightType" (get n "weightType");
       arg "fitRMSF" (get n "fitRMSF"); arg "noStokesI" (get n "noStokesI"); arg "nBits" (VInt 64); arg "showPlots" (get n "showPlots");
       arg "debug" (get n "debug"); arg "verbose" (get n "verbose"); arg "units" (get n "units")]
     :: if is_true (get n "saveOutput") then [mk_call (s "saveOutput") [arg "prefixOut" prefix; arg "verbose" (get n "verbose")]] else []).

(** rmtools_bwpredict.py:181-209. A file that cannot be read: the name "exit" in the
    handler is not a call, and the next statement finds no frequencies. *)
Definition main_bwpredict (readable : str -> bool) (n : space) : done :=
  let file := text_of (first_of (get n "dataFile")) in
  if negb (readable file) then Raised
  else Ran (mk_call (s "bwdepol_compute_predictions")
      [arg "freqArr_Hz, widths_Hz" (of "loadtxt" [VStr file]); arg "phiMax_radm2" (get n "phiMax_radm2"); arg "dPhi_radm2" (get n "dPhi_radm2")]
     :: mk_call (s "plot_adjoint_info") [arg "units" (txt "arb. units")]
     :: if is_none (get n "plotfile") then [mk_call (s "show") []] else [mk_call (s "savefig") [arg "fname" (get n "plotfile")]]).

(** do_RMsynth_3D.py:920-986; the pause for the warning is left out *)
Definition main_rmsynth3d (n : space) : done :=
  let fq := text_of (first_of (get n "fitsQ")) in
  let fu := text_of (first_of (get n "fitsU")) in
  if negb (exists_ fq && exists_ fu) then Ended
  else
    let v := get n "verbose" in
    let opt_file (f d : string) := if is_none (get n d) then VNone else of f [get n d; v] in
    Ran [mk_call (s "run_rmsynth")
           [arg "dataQ" (of "readFitsCube" [VStr fq; v]); arg "dataU" (of "readFitsCube" [VStr fu; v]);
            arg "freqArr_Hz" (of "readFreqFile" [first_of (get n "freqFile"); v]); arg "dataI" (opt_file "readFitsCube"%string "fitsI"%string);
            arg "rmsArr" (opt_file "readFreqFile"%string "noiseFile"%string); arg "phiMax_radm2" (get n "phiMax_radm2");
            arg "dPhi_radm2" (get n "dPhi_radm2"); arg "nSamples" (get n "nSamples"); arg "weightType" (get n "weightType");
            arg "fitRMSF" (get n "fitRMSF"); arg "nBits" (VInt 32); arg "verbose" v; arg "not_rmsf" (get n "not_RMSF");
            arg "super_resolution" (get n "super_resolution")];
         mk_call (s "writefits")
           [arg "fitRMSF" (VBool false); arg "prefixOut" (get n "prefixOut"); arg "outDir" (VStr (dirname fq));
            arg "write_seperate_FDF" (get n "write_seperate_FDF"); arg "not_rmsf" (get n "not_RMSF"); arg "nBits" (VInt 32); arg "verbose" v]].

(** do_RMclean_3D.py:520-579; [parallel]: schwimmbad is installed. The branch of the
    MPI workers is left out. *)
Definition main_rmclean3d (parallel : bool) (n : space) : done :=
  let one_core := match get n "n_cores" with VInt 1 => true | _ => false end in
  let many := match get n "n_cores" with VInt z => Z.ltb 1 z | _ => false end in
  let asked := negb one_core || negb (is_none (get n "chunk")) || is_true (get n "mpi") in
  if negb parallel && asked then Raised
  else
    let pool := if parallel && asked then of "choose_pool" [get n "mpi"; get n "n_cores"] else VNone in
    let chunk := if parallel && asked && many then get n "chunk" else VNone in
    let ff := text_of (first_of (get n "fitsFDF")) in
    let fr := text_of (first_of (get n "fitsRMSF")) in
    if negb (exists_ ff && exists_ fr) then Ended
    else Ran [mk_call (s "run_rmclean")
           [arg "fitsFDF" (VStr ff); arg "fitsRMSF" (VStr fr); arg "cutoff" (get n "cutoff"); arg "maxIter" (get n "maxIter");
            arg "gain" (get n "gain"); arg "chunksize" chunk; arg "pool" pool; arg "nBits" (VInt 32); arg "window" (get n "window");
            arg "verbose" (get n "verbose")];
         mk_call (s "writefits")
           [arg "prefixOut" (get n "prefixOut"); arg "outDir" (VStr (dirname ff)); arg "write_separate_FDF" (get n "write_separate_FDF");
            arg "verbose" (get n "verbose")]].

(** do_fitIcube.py:158-194 *)
Definition main_fitIcube (n : space) : done :=
  let f := text_of (first_of (get n "fitsI")) in
  if negb (exists_ f) then Ended
  else
    let out := match text_of (get n "outDir") with [] => VStr (dirname f) | d => VStr d end in
    let freq := match text_of (get n "freq_file") with
                | [] => of "get_freq_array" [VStr f]
                | x => of "get_frequencies" [of "open_datacube" [VStr f]; VStr x] end in
    Ran [mk_call (s "make_model_I")
           [arg "datacube, header" (of "open_datacube" [VStr f]); arg "freqArr_Hz" freq; arg "polyOrd" (get n "polyOrd");
            arg "prefixOut" (get n "prefixOut"); arg "outDir" out; arg "nBits" (VInt 32); arg "threshold" (get n "threshold");
            arg "apply_mask" (get n "apply_mask"); arg "num_cores" (get n "num_cores"); arg "chunk_size" (get n "chunk_size");
            arg "verbose" (get n "verbose"); arg "fit_function" (get n "fit_function")]].

(** RMpeakfit_3D.py:393-495; the lists of products are named, not spelled out. An
    empty output name has no first character. *)
Definition main_peakfitcube (n : space) : done :=
  let f := text_of (first_of (get n "FDF_filename")) in
  let fr := text_of (first_of (get n "freq_file")) in
  if is_true (get n "peak_only") && is_true (get n "all_products") then Ended
  else if negb (exists_ f) then Ended
  else if negb (exists_ fr) then Ended
  else match text_of (first_of (get n "output_name")) with
  | [] => Raised
  | a :: t =>
      let out := (if ch_eqb a slash then a :: t else s "./" ++ a :: t)%list in
      let products := if is_true (get n "peak_only") then txt "peak" else if is_true (get n "all_products") then txt "all" else txt "useful" in
      let opt_file (g d : string) := if is_none (get n d) then VNone else of g [get n d; get n "verbose"] in
      Ran [mk_call (s "pixelwise_peak_fitting")
             [arg "FDF, phiArr_radm2, fwhmRMSF, lambdaSqArr_m2, lam0Sq" (of "read_files" [VStr f; VStr fr]); arg "product_list" products;
              arg "noiseArr" (opt_file "readFreqFile"%string "noiseFile"%string); arg "stokesIcube" (opt_file "readFitsCube"%string "fitsI"%string);
              arg "weightType" (get n "weightType")];
           mk_call (s "save_maps") [arg "prefix_path" (VStr out)]]
  end.

(** rescale_I_model_3D.py:129-160 up to the reading of the maps: which reference
    frequency is used and which names *)
Definition main_rescale (n : space) : done :=
  let f := text_of (get n "covar_file") in
  if negb (is_none (get n "new_reffreq")) && negb (is_none (get n "lambda2_0")) then Raised
  else if negb (exists_ f) then Raised
  else if negb (endswith (s "covariance.fits") f) then Raised
  else
    let base := VStr (firstn (length f - 15) f) in
    let out := if is_none (get n "outname") then base else get n "outname" in
    let freq := if is_none (get n "lambda2_0") then (if is_none (get n "new_reffreq") then txt "mean" else get n "new_reffreq")
                else of "LAMSQ0" [get n "lambda2_0"] in
    Ran [mk_call (s "rescale_I_model_3D") [arg "data" (of "read_data" [base]); arg "new_freq" freq; arg "num_cores" (get n "num_cores")];
         mk_call (s "write_new_parameters") [arg "out_basename" out; arg "overwrite" (get n "overwrite")]].

(** create_chunks.py:62-77, up to the opening of the file: the size, the prefix and
    the memory map *)
Definition main_createchunks (n : space) : done :=
  match int_text (text_of (get n "Nperchunk")) with
  | None => Raised
  | Some z =>
      let f := text_of (get n "infile") in
      if negb (exists_ f) then Raised
      else Ran [mk_call (s "open") [arg "name" (VStr f); arg "memmap" (VBool (negb (is_true (get n "memmap"))))];
                mk_call (s "chunks") [arg "Nperchunk" (VInt z); arg "prefix" (if is_none (get n "prefix") then VStr (root_of f) else get n "prefix")]]
  end.
End Mains.

(** a tool on a command line: what it does, or that argparse ended it *)
Inductive told := Told (d : done) | Usage | HelpText.
Definition tool (late : bool) (c : cmd) (main : space -> done) (words : list str) : told :=
  match parse late c words with Parsed n => Told (main n) | Refused => Usage | Helped => HelpText end.
