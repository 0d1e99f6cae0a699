(** Vocabulary for the command lines: what the help says about the options of a
    tool, ways to type them, and what a command line then means. *)
From Coq Require Import Reals List Arith ZArith Bool Ascii String.
From Verif Require Import CBase PyRes PyStr Cat_Model Cat_Spec Cl_Model.
Import ListNotations.
Local Notation length := List.length.
Local Notation Forall := List.Forall.
Local Open Scope list_scope.

(** What an option takes: nothing (and is then on, or off), text, a whole number, a
    number, or several of these. *)
Inductive takes := On | Off | Text | Whole | Number | Several (n : nat) (t : takes).
(** the options of a tool, with their names *)
Definition docs := list (list str * takes).
Definition listed (D : docs) (n : str) (t : takes) : Prop := exists names, In (names, t) D /\ In n names.

Definition digits (l : list nat) : Prop := Forall (fun d => (d < 10)%nat) l.
(** what a word means *)
Definition reads_as (t : takes) (w : str) (v : value) : Prop :=
  match t with
  | Text => v = VStr w
  | Whole => exists g ds, digits ds /\ ds <> [] /\ w = show_sign g ++ map digit ds /\ v = VInt ((if minus g then -1 else 1) * wholeZ ds)
  | Number => (exists n, num_ok n /\ w = show n /\ v = VNum (Some (num_value n))) \/ (w = s "nan" /\ v = VNum None)
  | _ => False
  end.
(** -12, -0.5, -.5; not -5. and not -1e3 *)
Definition negative (w : str) : Prop :=
  exists a b, digits a /\ digits b /\
    ((a <> [] /\ w = s "-" ++ map digit a) \/ (b <> [] /\ w = s "-" ++ map digit a ++ s "." ++ map digit b)).
(** cannot be taken for an option *)
Definition plain (w : str) : Prop := w = [] \/ (exists c t, w = c :: t /\ c <> "-"%char) \/ w = s "-" \/ negative w.

(** Ways to type options: as words of their own, with the value glued to the name or
    after an equals sign, several flags in one word. *)
Inductive item := Words (name : str) (ws : list str) | Glued (name w : str) | Equals (name w : str) | Flags (cs : str).
Definition words_of (i : item) : list str :=
  match i with
  | Words n ws => n :: ws
  | Glued n w => [n ++ w]
  | Equals n w => [n ++ s "=" ++ w]
  | Flags cs => [s "-" ++ cs]
  end.
(** no option begins like this *)
Definition no_start (D : docs) (w : str) : Prop := forall n t r, listed D n t -> n <> w ++ r.
Inductive means (D : docs) : item -> list (str * value) -> Prop :=
| M_on : forall n, listed D n On -> means D (Words n []) [(n, VBool true)]
| M_off : forall n, listed D n Off -> means D (Words n []) [(n, VBool false)]
| M_one : forall n t w v, listed D n t -> plain w -> reads_as t w v -> means D (Words n [w]) [(n, v)]
| M_several : forall n k t ws vs, listed D n (Several k t) -> length ws = k -> Forall plain ws -> Forall2 (reads_as t) ws vs ->
    means D (Words n ws) [(n, VList vs)]
| M_glued : forall a t c w v, listed D ["-"%char; a] t -> a <> "-"%char -> reads_as t (c :: w) v -> ~ In "="%char (c :: w) ->
    no_start D ("-"%char :: a :: c :: w) -> means D (Glued ["-"%char; a] (c :: w)) [(["-"%char; a], v)]
| M_equals : forall n t w v, listed D n t -> reads_as t w v -> means D (Equals n w) [(n, v)]
| M_flags : forall cs l, (2 <= length cs)%nat -> ~ In "-"%char cs -> no_start D ("-"%char :: cs) ->
    Forall2 (fun a p => fst p = ["-"%char; a] /\ ((listed D (fst p) On /\ snd p = VBool true) \/ (listed D (fst p) Off /\ snd p = VBool false))) cs l ->
    means D (Flags cs) l.

(** the value typed last for an option with these names, or else what it is then *)
Fixpoint said (typed : list (str * value)) (names : list str) (other : value) : value :=
  match typed with
  | [] => other
  | (n, v) :: l => said l names (if existsb (fun m => if list_eq_dec ascii_dec n m then true else false) names then v else other)
  end.

(** A command line: options and other words. It sets these options to these values,
    and these words are left for the positional arguments. *)
Inductive piece := Opt (i : item) | Arg (w : str).
Definition line_words (l : list piece) : list str := flat_map (fun p => match p with Opt i => words_of i | Arg w => [w] end) l.
Inductive says (D : docs) : list piece -> list (str * value) -> list str -> Prop :=
| S_nil : says D [] [] []
| S_opt : forall i l ty t ws, means D i ty -> says D l t ws -> says D (Opt i :: l) (ty ++ t) ws
| S_arg : forall w l t ws, plain w -> says D l t ws -> says D (Arg w :: l) t (w :: ws).

(** the positional arguments get these words; [pv]: their values *)
Definition type_of (t : ptype) : takes := match t with PStr => Text | PInt => Whole | PFloat => Number end.
Definition default_of (p : pos) (v : value) : Prop :=
  match p_default p with VStr x => reads_as (type_of (p_type p)) x v | d => v = d end.
Inductive filled : list pos -> list str -> list (str * value) -> Prop :=
| F_nil : filled [] [] []
| F_one : forall p ps w ws v pv, p_num p = POne \/ p_num p = POpt -> reads_as (type_of (p_type p)) w v -> filled ps ws pv ->
    filled (p :: ps) (w :: ws) ((p_dest p, v) :: pv)
| F_list : forall p ps w ws v pv, p_num p = PList1 -> reads_as (type_of (p_type p)) w v -> filled ps ws pv ->
    filled (p :: ps) (w :: ws) ((p_dest p, VList [v]) :: pv)
| F_many : forall p ps k w ws vs pv, p_num p = PMany k -> length w = k -> (0 < k)%nat -> Forall2 (reads_as (type_of (p_type p))) w vs -> filled ps ws pv ->
    filled (p :: ps) (w ++ ws) ((p_dest p, VList vs) :: pv)
| F_none : forall p ps v pv, p_num p = POpt -> default_of p v -> filled ps [] pv -> filled (p :: ps) [] ((p_dest p, v) :: pv).

(** the declarations say what the help says *)
Definition act_of (t : takes) : action :=
  match t with
  | On => StoreTrue | Off => StoreFalse | Text => Store PStr | Whole => Store PInt | Number => Store PFloat
  | Several n t => StoreN n (match t with Whole => PInt | Number => PFloat | _ => PStr end)
  end.
Definition simple (t : takes) : Prop := match t with Text | Whole | Number => True | _ => False end.
Definition documented (c : cmd) (D : docs) : Prop :=
  exists os, c_opts c = help :: os /\ map (fun o => (o_names o, o_act o)) os = map (fun d => (fst d, act_of (snd d))) D /\
    Forall (fun d => match snd d with Several _ t => simple t | _ => True end) D.
(** names are distinct, start with a dash and a character that is no digit and no
    point, and have no equals sign; every argument has its own place *)
Definition all_names (c : cmd) : list str := flat_map o_names (c_opts c).
Definition all_dests (c : cmd) : list str := map o_dest (c_opts c) ++ map p_dest (c_pos c).
Definition good_name (n : str) : Prop :=
  exists a t, n = "-"%char :: a :: t /\ (forall d, (d < 10)%nat -> a <> digit d) /\ a <> "."%char /\ ~ In "="%char n.
Definition usual (c : cmd) : Prop := NoDup (all_names c) /\ NoDup (all_dests c) /\ Forall good_name (all_names c).
(** of options that exclude each other at most one is typed *)
Definition compatible (c : cmd) (typed : list (str * value)) : Prop :=
  forall o1 o2 n1 n2 v1 v2, In o1 (c_opts c) -> In o2 (c_opts c) -> In (o_dest o1) (c_group c) -> In (o_dest o2) (c_group c) ->
    In n1 (o_names o1) -> In n2 (o_names o2) -> In (n1, v1) typed -> In (n2, v2) typed -> o1 = o2.

(** the name space holds what was typed, the defaults and the positional arguments *)
Definition holds (c : cmd) (typed pv : list (str * value)) (n : space) : Prop :=
  (forall o, In o (c_opts c) -> o_act o <> ShowHelp -> In (o_dest o, said typed (o_names o) (o_default o)) n) /\
  (forall p, In p pv -> In p n) /\ NoDup (map fst n).

(** an option nobody declared *)
Definition stray (c : cmd) (w : str) : Prop :=
  exists a t, w = "-"%char :: a :: t /\ ~ In "="%char w /\ ~ In " "%char w /\ ~ negative w /\
    (forall n r, In n (all_names c) -> n <> w ++ r) /\ ~ In ["-"%char; a] (all_names c).

(* ------------------------------------------------------ what the help says *)

Definition line (n : string) (t : takes) : list str * takes := ([s n], t).
Definition res_line : list str * takes := ([s "-r"; s "--super-resolution"], On).
Definition doc_rmsynth1d : docs :=
  [line "-t" On; line "-l" Number; line "-d" Number; line "-s" Number; line "-w" Text; line "-f" Text; line "-o" Whole; line "-i" On;
   line "-b" On; line "-p" On; line "-v" On; line "-S" On; line "-D" On; line "-U" Text; res_line].
Definition doc_rmsynth1dFITS : docs :=
  [line "-c" On; line "-I" Text; line "-t" On; line "-l" Number; line "-d" Number; line "-s" Number; line "-w" Text; line "-o" Whole;
   line "-i" On; line "-b" On; line "-p" On; line "-v" On; line "-S" On; line "-D" On; line "-U" Text; res_line].
Definition doc_rmclean1d : docs :=
  [line "-c" Number; line "-w" Number; line "-n" Whole; line "-g" Number; line "-p" On; line "-v" On; line "-S" On].
Definition doc_qufit : docs :=
  [line "-m" Whole; line "-f" Text; line "-o" Whole; line "-i" On; line "-p" On; line "-d" On; line "-v" On;
   line "--sampler" Text; line "--ncores" Whole; line "--nlive" Whole].
Definition doc_bwdepol : docs :=
  [line "-t" Off; line "-l" Number; line "-d" Number; line "-s" Number; line "-w" Text; line "-o" Whole; line "-i" On; line "-p" On;
   line "-v" On; line "-S" On; line "-D" On; line "-U" Text].
Definition doc_bwpredict : docs := [line "-l" Number; line "-d" Number; line "-s" Number; line "-f" Text].
Definition doc_calcRMSF : docs :=
  [line "-f" (Several 3 Text); line "-m" Number; line "-d" Number; line "-s" Text; line "-n" Text; res_line].
Definition doc_testdata1D : docs :=
  [line "-f" (Several 2 Number); line "-f0" Number; line "-c" Whole; line "-n" Number; line "-t" Text; line "-l" Text].
Definition doc_testdata3D : docs := [line "-n" Text; line "-f" Text].
Definition doc_rmsynth3d : docs :=
  [line "-i" Text; line "-n" Text; line "-w" Text; line "-t" On; line "-l" Number; line "-d" Number; line "-o" Text; line "-s" Number;
   line "-f" Off; line "-v" On; line "-R" On; res_line].
Definition doc_rmclean3d : docs :=
  [line "-c" Number; line "-w" Number; line "-n" Whole; line "-g" Number; line "-o" Text; line "-f" Off; line "-v" On;
   line "--ncores" Whole; line "--chunk" Whole; line "--mpi" On].
Definition doc_fitIcube : docs :=
  [line "-freqFile" Text; line "-f" Text; line "-p" Whole; line "-n" Whole; line "-m" On; line "-c" Whole; line "-t" Number;
   line "-o" Text; line "-odir" Text; line "-v" On].
Definition doc_peakfitcube : docs := [line "-a" On; line "-p" On; line "-v" On; line "-i" Text; line "-n" Text; line "-w" Text].
Definition doc_rescale : docs := [line "-l" Text; line "-f" Number; line "-o" Text; line "-n" Whole; line "-w" On].
Definition doc_extractregion : docs := [line "-s" On; line "-c" On; line "-z" (Several 2 Whole); line "-o" On].
Definition doc_createchunks : docs := [line "-v" On; line "-p" Text; line "-m" On].
Definition doc_assemblechunks : docs := [line "-f" Text; line "-o" On; line "-m" On].
Definition doc_freqfile : docs := [].

Definition opt_said (typed : list (str * value)) (n : string) (other : value) : value := said typed [s n] other.
(** -r or --super-resolution *)
Definition res_said (typed : list (str * value)) : value := said typed [s "-r"; s "--super-resolution"] (VBool false).
(** the name without what follows the last dot of the last part of the path *)
Definition without_ending (path root : str) : Prop :=
  exists dir name e, path = dir ++ name ++ s "." ++ e /\ root = dir ++ name /\ (dir = [] \/ exists d, dir = d ++ s "/") /\
    ~ In "/"%char name /\ ~ In "/"%char e /\ ~ In "."%char e /\ (exists c, In c name /\ c <> "."%char).

(** the whole name if its last part has no dot *)
Definition stem (path root : str) : Prop :=
  without_ending path root \/
  (root = path /\ exists dir name, path = dir ++ name /\ (dir = [] \/ exists d, dir = d ++ s "/") /\ ~ In "/"%char name /\ ~ In "."%char name).

(* -------------------------------------------- what a command line then starts *)

Definition on (v : value) : bool := match v with VBool b => b | _ => false end.
Definition given (v : value) : bool := match v with VNone => false | _ => true end.
Definition par (k : string) (v : value) : str * value := (s k, v).
Definition from (f : string) (l : list value) := VOf (s f) l.
Definition starts (f : string) (l : list (str * value)) := mk_call (s f) l.
Definition word (x : string) := VStr (s x).
Definition with_files (ty : list (str * value)) (root : str) : list call :=
  if on (opt_said ty "-S" (VBool false)) then [starts "saveOutput" [par "prefixOut" (VStr root); par "verbose" (opt_said ty "-v" (VBool false))]] else [].

Definition runs_rmsynth1d (file root : str) (ty : list (str * value)) : list call :=
  let bits := VInt (if on (opt_said ty "-b" (VBool false)) then 64 else 32) in
  let v := opt_said ty "-v" (VBool false) in
  let d := opt_said ty "-D" (VBool false) in
  starts "run_rmsynth"
    [par "data" (from "readFile" [VStr file; bits; v; d]); par "polyOrd" (opt_said ty "-o" (VInt 2)); par "phiMax_radm2" (opt_said ty "-l" VNone);
     par "dPhi_radm2" (opt_said ty "-d" VNone); par "nSamples" (opt_said ty "-s" (VInt 10)); par "weightType" (opt_said ty "-w" (word "variance"));
     par "fitRMSF" (opt_said ty "-t" (VBool false)); par "noStokesI" (opt_said ty "-i" (VBool false)); par "nBits" bits;
     par "showPlots" (opt_said ty "-p" (VBool false)); par "debug" d; par "verbose" v; par "units" (opt_said ty "-U" (word "Jy/beam"));
     par "prefixOut" (VStr root); par "saveFigures" (opt_said ty "-S" (VBool false)); par "fit_function" (opt_said ty "-f" (word "log"));
     par "super_resolution" (res_said ty)] :: with_files ty root.
Definition runs_rmclean1d (root : str) (ty : list (str * value)) : list call :=
  starts "run_rmclean"
    [par "mDict, aDict" (from "readFiles" [VStr (root ++ s "_FDFdirty.dat"); VStr (root ++ s "_RMSF.dat"); VStr (root ++ s "_weight.dat"); VStr (root ++ s "_RMsynth.json"); VInt 32]);
     par "cutoff" (opt_said ty "-c" (VInt (-3))); par "maxIter" (opt_said ty "-n" (VInt 1000)); par "gain" (opt_said ty "-g" (VNum (Some (1 / 10)%R)));
     par "nBits" (VInt 32); par "showPlots" (opt_said ty "-p" (VBool false)); par "prefixOut" (VStr root); par "verbose" (opt_said ty "-v" (VBool false));
     par "saveFigures" (opt_said ty "-S" (VBool false)); par "window" (opt_said ty "-w" VNone)] :: with_files ty root.
Definition runs_qufit (file root : str) (ty : list (str * value)) : list call :=
  [starts "run_qufit"
    [par "data" (from "readFile" [VStr file; VInt 32; opt_said ty "-v" (VBool false); opt_said ty "-d" (VBool false)]); par "modelNum" (opt_said ty "-m" (VInt 1));
     par "polyOrd" (opt_said ty "-o" (VInt 2)); par "nBits" (VInt 32); par "noStokesI" (opt_said ty "-i" (VBool false)); par "showPlots" (opt_said ty "-p" (VBool false));
     par "debug" (opt_said ty "-d" (VBool false)); par "verbose" (opt_said ty "-v" (VBool false)); par "fit_function" (opt_said ty "-f" (word "log"));
     par "sampler" (opt_said ty "--sampler" (word "dynesty")); par "ncores" (opt_said ty "--ncores" (VInt 1)); par "nlive" (opt_said ty "--nlive" (VInt 300));
     par "prefixOut" (VStr root)]].
Definition runs_bwdepol (file root : str) (ty : list (str * value)) : list call :=
  starts "run_adjoint_rmsynth"
    [par "data" (from "loadtxt" [VStr file; VInt 64]); par "polyOrd" (opt_said ty "-o" (VInt 2)); par "phiMax_radm2" (opt_said ty "-l" VNone);
     par "dPhi_radm2" (opt_said ty "-d" VNone); par "nSamples" (opt_said ty "-s" (VInt 10)); par "weightType" (opt_said ty "-w" (word "variance"));
     par "fitRMSF" (opt_said ty "-t" (VBool true)); par "noStokesI" (opt_said ty "-i" (VBool false)); par "nBits" (VInt 64);
     par "showPlots" (opt_said ty "-p" (VBool false)); par "debug" (opt_said ty "-D" (VBool false)); par "verbose" (opt_said ty "-v" (VBool false));
     par "units" (opt_said ty "-U" (word "Jy/beam"))] :: with_files ty root.
(** the number of samples ("-s") is nowhere in it *)
Definition runs_bwpredict (file : str) (ty : list (str * value)) : list call :=
  [starts "bwdepol_compute_predictions" [par "freqArr_Hz, widths_Hz" (from "loadtxt" [VStr file]); par "phiMax_radm2" (opt_said ty "-l" VNone); par "dPhi_radm2" (opt_said ty "-d" VNone)];
   starts "plot_adjoint_info" [par "units" (word "arb. units")];
   if given (opt_said ty "-f" VNone) then starts "savefig" [par "fname" (opt_said ty "-f" VNone)] else starts "show" []].
(** [dir]: the directory of the Q cube *)
Definition runs_rmsynth3d (q u freq dir : str) (ty : list (str * value)) : list call :=
  let v := opt_said ty "-v" (VBool false) in
  let file (f : string) (x : value) := if given x then from f [x; v] else VNone in
  [starts "run_rmsynth"
    [par "dataQ" (from "readFitsCube" [VStr q; v]); par "dataU" (from "readFitsCube" [VStr u; v]); par "freqArr_Hz" (from "readFreqFile" [VStr freq; v]);
     par "dataI" (file "readFitsCube"%string (opt_said ty "-i" VNone)); par "rmsArr" (file "readFreqFile"%string (opt_said ty "-n" VNone)); par "phiMax_radm2" (opt_said ty "-l" VNone);
     par "dPhi_radm2" (opt_said ty "-d" VNone); par "nSamples" (opt_said ty "-s" (VInt 5)); par "weightType" (opt_said ty "-w" (word "uniform"));
     par "fitRMSF" (opt_said ty "-t" (VBool false)); par "nBits" (VInt 32); par "verbose" v; par "not_rmsf" (opt_said ty "-R" (VBool false)); par "super_resolution" (res_said ty)];
   starts "writefits"
    [par "fitRMSF" (VBool false); par "prefixOut" (opt_said ty "-o" (word "")); par "outDir" (VStr dir); par "write_seperate_FDF" (opt_said ty "-f" (VBool true));
     par "not_rmsf" (opt_said ty "-R" (VBool false)); par "nBits" (VInt 32); par "verbose" v]].
(** [pool]: how the work is shared out; [chunk]: its pieces *)
Definition runs_rmclean3d (fdf rmsf dir : str) (pool chunk : value) (ty : list (str * value)) : list call :=
  let v := opt_said ty "-v" (VBool false) in
  [starts "run_rmclean"
    [par "fitsFDF" (VStr fdf); par "fitsRMSF" (VStr rmsf); par "cutoff" (opt_said ty "-c" (VInt 1)); par "maxIter" (opt_said ty "-n" (VInt 1000));
     par "gain" (opt_said ty "-g" (VNum (Some (1 / 10)%R))); par "chunksize" chunk; par "pool" pool; par "nBits" (VInt 32); par "window" (opt_said ty "-w" (VNum None)); par "verbose" v];
   starts "writefits" [par "prefixOut" (opt_said ty "-o" (word "")); par "outDir" (VStr dir); par "write_separate_FDF" (opt_said ty "-f" (VBool true)); par "verbose" v]].
(** [freq]: the frequencies; [out]: the output directory *)
Definition runs_fitIcube (file : str) (freq : value) (out : str) (ty : list (str * value)) : list call :=
  [starts "make_model_I"
    [par "datacube, header" (from "open_datacube" [VStr file]); par "freqArr_Hz" freq; par "polyOrd" (opt_said ty "-p" (VInt 2)); par "prefixOut" (opt_said ty "-o" (word ""));
     par "outDir" (VStr out); par "nBits" (VInt 32); par "threshold" (opt_said ty "-t" (VInt (-3))); par "apply_mask" (opt_said ty "-m" (VBool false));
     par "num_cores" (opt_said ty "-n" (VInt 1)); par "chunk_size" (opt_said ty "-c" (VInt 1)); par "verbose" (opt_said ty "-v" (VBool false));
     par "fit_function" (opt_said ty "-f" (word "log"))]].
Definition runs_peakfitcube (fdf freq out : str) (products : string) (ty : list (str * value)) : list call :=
  let v := opt_said ty "-v" (VBool false) in
  let file (f : string) (x : value) := if given x then from f [x; v] else VNone in
  [starts "pixelwise_peak_fitting"
    [par "FDF, phiArr_radm2, fwhmRMSF, lambdaSqArr_m2, lam0Sq" (from "read_files" [VStr fdf; VStr freq]); par "product_list" (word products);
     par "noiseArr" (file "readFreqFile"%string (opt_said ty "-n" VNone)); par "stokesIcube" (file "readFitsCube"%string (opt_said ty "-i" VNone));
     par "weightType" (opt_said ty "-w" (word "uniform"))];
   starts "save_maps" [par "prefix_path" (VStr out)]].

(** where the tools that have no [runs_] above keep their options: place, names, and
    what is there if none of them is typed *)
Definition places := list (string * list str * value).
Definition place (d n : string) (v : value) : string * list str * value := (d, [s n], v).
Definition kept (ty : list (str * value)) (n : space) (t : places) : Prop :=
  Forall (fun x => let '(d, names, v) := x in In (s d, said ty names v) n) t.
Definition at_rmsynth1dFITS : places :=
  [place "sky_coords" "-c" (VBool false); place "StokesI_fits" "-I" VNone; place "fitRMSF" "-t" (VBool false); place "phiMax_radm2" "-l" VNone;
   place "dPhi_radm2" "-d" VNone; place "nSamples" "-s" (VInt 10); place "weightType" "-w" (word "variance"); place "polyOrd" "-o" (VInt 2);
   place "noStokesI" "-i" (VBool false); place "bit64" "-b" (VBool false); place "showPlots" "-p" (VBool false); place "verbose" "-v" (VBool false);
   place "saveOutput" "-S" (VBool false); place "debug" "-D" (VBool false); place "units" "-U" VNone;
   ("super_resolution"%string, [s "-r"; s "--super-resolution"], VBool false)].
Definition at_calcRMSF : places :=
  [place "freq_parms" "-f" VNone; place "phiMax_radm2" "-m" VNone; place "dphi_radm2" "-d" VNone; place "plotfile" "-s" VNone; place "plotname" "-n" VNone;
   ("super_resolution"%string, [s "-r"; s "--super-resolution"], VBool false)].
Definition at_testdata1D : places :=
  [place "freqRng_MHz" "-f" (VList [VNum (Some 700%R); VNum (Some 1800%R)]); place "freq0_MHz" "-f0" (VNum (Some 0%R)); place "nChans" "-c" (VInt 111);
   place "rmsNoise" "-n" (VNum (Some (2 / 100)%R)); place "noiseTmpFile" "-t" VNone; place "flagFreqStr" "-l" (word "")].
Definition at_testdata3D : places := [place "noiseTmpFile" "-n" VNone; place "flagFreqStr" "-f" (word "")].
Definition at_extractregion : places :=
  [place "sky" "-s" (VBool false); place "center" "-c" (VBool false); place "zlim" "-z" VNone; place "overwrite" "-o" (VBool false)].
Definition at_assemblechunks : places := [place "output" "-f" VNone; place "overwrite" "-o" (VBool false); place "memmap" "-m" (VBool false)].

(** the directory a path names: nothing if it has no slash *)
Definition folder (path dir : str) : Prop :=
  (dir = [] /\ ~ In "/"%char path) \/
  exists d c name, dir = d ++ [c] /\ c <> "/"%char /\ path = dir ++ s "/" ++ name /\ ~ In "/"%char name.
(** more than one core, or pieces, or MPI *)
Definition shared (ty : list (str * value)) : bool :=
  negb (match opt_said ty "--ncores" (VInt 1) with VInt 1 => true | _ => false end) || given (opt_said ty "--chunk" VNone) || on (opt_said ty "--mpi" (VBool false)).
Definition several_cores (ty : list (str * value)) : bool := match opt_said ty "--ncores" (VInt 1) with VInt z => Z.ltb 1 z | _ => false end.
Definition chars (v : value) : str := match v with VStr x => x | _ => [] end.
