(** The command lines of the tools: claim C91. *)
From Coq Require Import Reals List Arith ZArith Lia Lra Bool Permutation.
Set Warnings "-ambiguous-paths".
From Coquelicot Require Import Coquelicot.
From Verif Require Import PyRes PyStr PyStr_Proofs Pixfit_Model Cat_Model Cat_Spec Cl_Model Cl_Spec Cl_Words Cl_Parse Cl_Line Cl_Block Cl_Tools Cl_More.
From Coq Require Import String Ascii ZArith.
Local Notation length := List.length.
Local Notation Forall := List.Forall.
Local Open Scope list_scope.
Import ListNotations.
Local Open Scope R_scope.

(** C91. The options of all eighteen tools are declared as the help lists them; no name and no place is used twice. *)
Theorem C91_documented : Forall (fun t => documented (fst t) (snd t) /\ usual (fst t)) tools.
Proof. exact @tools_documented. Qed.
Print Assumptions C91_documented.


(** C91. If every positional argument is one word: options in any form and words, in any order, are accepted. Each option has the value typed last or else its default, and the words go to the positional arguments in order. *)
Theorem C91_any_order : forall late c D l ty ws pv, documented c D -> usual c -> Forall single (c_pos c) -> says D l ty ws -> filled (c_pos c) ws pv -> compatible c ty ->
  exists n, parse late c (line_words l) = Parsed n /\ holds c ty pv n.
Proof. exact @parse_any. Qed.
Print Assumptions C91_any_order.
Lemma is_plain : forall w, match w with [] => false | c :: _ => negb (ch_eqb c "-"%char) end = true -> plain w.
Proof. intros [|c t] H; [discriminate H|]. right. left. exists c, t. split; [reflexivity|]. intros ->. discriminate H. Qed.
(** rmsynth1d -o 3 data/a.dat -vS -wuniform --super-resolution -U=mJy *)
Definition line1 : list piece :=
  [Opt (Words (s "-o") [s "3"]); Arg (s "data/a.dat"); Opt (Flags (s "vS")); Opt (Glued (s "-w") (s "uniform")); Opt (Words (s "--super-resolution") []); Opt (Equals (s "-U") (s "mJy"))].
Definition typed1 : list (str * value) :=
  [(s "-o", VInt 3)] ++ [(s "-v", VBool true); (s "-S", VBool true)] ++ [(s "-w", VStr (s "uniform"))] ++ [(s "--super-resolution", VBool true)] ++ [(s "-U", VStr (s "mJy"))] ++ [].
Lemma line1_says : says doc_rmsynth1d line1 typed1 [s "data/a.dat"].
Proof.
  assert (St : forall w, existsb (fun d => existsb (startswith w) (fst d)) doc_rmsynth1d = false -> no_start doc_rmsynth1d w).
  { intros w H n t r (names & I & J) E. apply not_true_iff_false in H. apply H. apply existsb_exists. exists (names, t). split; [exact I|]. apply existsb_exists. exists n. split; [exact J|]. apply startswith_spec. now exists r. }
  apply S_opt; [apply (M_one _ (s "-o") Whole)|].
  { exists [s "-o"]. cbn; tauto. } { now apply is_plain. } { exists None, [3%nat]. repeat split; [constructor; [lia|constructor]|discriminate]. }
  apply S_arg; [now apply is_plain|]. apply S_opt.
  { apply M_flags; [cbn; lia|cbn; intuition discriminate|now apply St|]. constructor; [|constructor; [|constructor]]; (split; [reflexivity|left; split; [|reflexivity]]); [exists [s "-v"]|exists [s "-S"]]; cbn; tauto. }
  apply S_opt. { apply (M_glued _ "w" Text); [exists [s "-w"]; cbn; tauto|discriminate|reflexivity|cbn; intuition discriminate|now apply St]. }
  apply S_opt. { apply M_on. exists [s "-r"; s "--super-resolution"]. cbn. tauto. }
  apply S_opt. { apply (M_equals _ (s "-U") Text); [exists [s "-U"]; cbn; tauto|reflexivity]. }
  apply S_nil.
Qed.
Example C91_any_order_nonvacuous : forall late, exists n, parse late rmsynth1d (map s ["-o"; "3"; "data/a.dat"; "-vS"; "-wuniform"; "--super-resolution"; "-U=mJy"]%string) = Parsed n /\ holds rmsynth1d typed1 [(s "dataFile", VList [VStr (s "data/a.dat")])] n.
Proof.
  intros late. destruct (tool_doc rmsynth1d doc_rmsynth1d) as (Dc & U); [cbn; tauto|].
  apply (C91_any_order late rmsynth1d doc_rmsynth1d line1 typed1 [s "data/a.dat"]); auto; [singles|exact line1_says|fill|now apply no_group].
Qed.


(** C91. Any positional arguments (optional ones, groups of several words): one block of words with options before and after it. *)
Theorem C91_block : forall late c D a b ta tb ws pv, documented c D -> usual c -> says D (map Opt a) ta [] -> says D (map Opt b) tb [] ->
  Forall plain ws -> filled (c_pos c) ws pv -> compatible c (ta ++ tb) ->
  exists n, parse late c (line_words (map Opt a ++ map Arg ws ++ map Opt b)) = Parsed n /\ holds c (ta ++ tb) pv n.
Proof. exact @parse_block. Qed.
Print Assumptions C91_block.
(** rmtools_extractregion in.fits out.fits 1 2 30 40 -o *)
Example C91_block_nonvacuous : forall late, exists n pv, parse late extractregion (map s ["in.fits"; "out.fits"; "1"; "2"; "30"; "40"; "-o"]%string) = Parsed n /\ holds extractregion [(s "-o", VBool true)] pv n /\ In (s "outfile", VStr (s "out.fits")) pv /\ exists v, In (s "box", VList v) pv /\ length v = 4%nat.
Proof.
  intros late. destruct (tool_doc extractregion doc_extractregion) as (Dc & U); [cbn; tauto|].
  set (num := fun ds => VNum (Some (num_value (mk_num None ds None None)))).
  assert (Rd : forall ds, digits ds -> ds <> [] -> reads_as Number (map digit ds) (num ds)).
  { intros ds D N. left. exists (mk_num None ds None None). split; [|split; [cbn [show n_sign n_int n_frac n_exp show_sign app]; now rewrite app_nil_r|reflexivity]].
    split; [exact D|]. split; [constructor|]. split; [cbn [n_int frac_digits n_frac]; now rewrite app_nil_r|exact Logic.I]. }
  destruct (C91_block late extractregion doc_extractregion [] [Words (s "-o") []] [] [(s "-o", VBool true)] (map s ["in.fits"; "out.fits"; "1"; "2"; "30"; "40"]%string)
    [(s "infile", VStr (s "in.fits")); (s "outfile", VStr (s "out.fits")); (s "box", VList [num [1%nat]; num [2%nat]; num [3%nat; 0%nat]; num [4%nat; 0%nat]])] Dc U) as (n & P & H).
  - apply S_nil.
  - apply (S_opt _ (Words (s "-o") []) [] [(s "-o", VBool true)]); [|apply S_nil]. apply M_on. exists [s "-o"]. cbn. tauto.
  - repeat (constructor; [now apply is_plain|]). constructor.
  - cbn [extractregion c_pos map]. apply F_one; [left; reflexivity|reflexivity|]. apply F_one; [left; reflexivity|reflexivity|].
    apply (F_many (mk_pos (s "box") (PMany 4) PFloat VNone) [] 4 (map s ["1"; "2"; "30"; "40"]%string) []); [reflexivity|reflexivity|lia| |apply F_nil].
    constructor; [apply (Rd [1%nat])|constructor; [apply (Rd [2%nat])|constructor; [apply (Rd [3%nat; 0%nat])|constructor; [apply (Rd [4%nat; 0%nat])|constructor]]]];
      try discriminate; repeat (constructor; [lia|]); constructor.
  - now apply no_group.
  - eexists n, _. split; [exact P|]. split; [exact H|]. split; [cbn; tauto|]. eexists. split; [cbn; eauto|reflexivity].
Qed.


(** C91. A word that starts with a dash and is no option, no beginning of one and no number is never accepted, wherever it is. *)
Theorem C91_stray : forall late c words w n, usual c -> stray c w -> In w words -> parse late c words <> Parsed n.
Proof. exact @stray_refused. Qed.
Print Assumptions C91_stray.
Example C91_stray_nonvacuous : stray rmsynth1d (s "-q").
Proof.
  exists "q"%char, []. split; [reflexivity|]. split; [cbn; intuition discriminate|]. split; [cbn; intuition discriminate|]. split; [intros N; apply negative_iff in N; discriminate N|]. split.
  - intros n r I E. cbn in I. repeat (destruct I as [I|I]; [rewrite <- I in E; discriminate E|]). destruct I.
  - intros I. cbn in I. repeat (destruct I as [I|I]; [discriminate I|]). destruct I.
Qed.


(** C91. An option with too few words after it is never accepted. *)
Theorem C91_too_few : forall late c D a m t ws b n, documented c D -> usual c -> listed D m t -> (length ws < takes_words t)%nat -> Forall plain ws ->
  (b = [] \/ exists x r, b = x :: r /\ In x (all_names c)) -> parse late c (a ++ m :: ws ++ b) <> Parsed n.
Proof. exact @short_refused. Qed.
Print Assumptions C91_too_few.
Example C91_too_few_nonvacuous : forall n, parse false calcRMSF (map s ["f.dat"; "-f"; "1e9"; "2e9"; "-r"]%string) <> Parsed n.
Proof.
  intros n. destruct (tool_doc calcRMSF doc_calcRMSF) as (Dc & U); [cbn; tauto|].
  apply (C91_too_few false calcRMSF doc_calcRMSF [s "f.dat"] (s "-f") (Several 3 Text) [s "1e9"; s "2e9"] [s "-r"]); auto.
  - exists [s "-f"]. cbn. tauto.
  - repeat (constructor; [now apply is_plain|]). constructor.
  - right. exists (s "-r"), []. split; [reflexivity|]. cbn. tauto.
Qed.


(** C91. One word for each positional argument: any other number of words is refused. *)
Theorem C91_count : forall late c D l ty ws, documented c D -> usual c -> Forall single (c_pos c) -> says D l ty ws -> compatible c ty -> length ws <> length (c_pos c) ->
  parse late c (line_words l) = Refused.
Proof. exact @count_refused. Qed.
Print Assumptions C91_count.
Example C91_count_nonvacuous : forall late, parse late rmsynth3d (map s ["Q.fits"; "U.fits"]%string) = Refused.
Proof.
  intros late. destruct (tool_doc rmsynth3d doc_rmsynth3d) as (Dc & U); [cbn; tauto|].
  apply (C91_count late rmsynth3d doc_rmsynth3d [Arg (s "Q.fits"); Arg (s "U.fits")] [] [s "Q.fits"; s "U.fits"]); auto; [singles| |now apply no_group|discriminate].
  apply S_arg; [now apply is_plain|]. apply S_arg; [now apply is_plain|]. apply S_nil.
Qed.


(** C91. File names without their ending. *)
Theorem C91_stem : forall path root, stem path root -> root_of path = root.
Proof. exact @stem_root. Qed.
Print Assumptions C91_stem.
Example C91_stem_nonvacuous : stem (s "data.v2/a.dat") (s "data.v2/a") /\ stem (s "data.v2/a") (s "data.v2/a").
Proof.
  split.
  - left. exists (s "data.v2/"), (s "a"), (s "dat"). repeat split; try (cbn; intuition discriminate); [right; now exists (s "data.v2")|]. exists "a"%char. split; [now left|discriminate].
  - right. split; [reflexivity|]. exists (s "data.v2/"), (s "a"). repeat split; try (cbn; intuition discriminate). right. now exists (s "data.v2").
Qed.


(** C91. rmsynth1d: what the command line starts. A missing file ends the tool without an error. *)
Theorem C91_rmsynth1d : forall late ex l ty file root, says doc_rmsynth1d l ty [file] -> stem file root ->
  tool late rmsynth1d (main_rmsynth1d ex) (line_words l) = Told (if ex file then Ran (runs_rmsynth1d file root ty) else Ended).
Proof. exact @tool_rmsynth1d. Qed.
Print Assumptions C91_rmsynth1d.
Example C91_rmsynth1d_nonvacuous : forall late, tool late rmsynth1d (main_rmsynth1d (fun _ => true)) (line_words line1) = Told (Ran (runs_rmsynth1d (s "data/a.dat") (s "data/a") typed1)).
Proof.
  intros late. apply (C91_rmsynth1d late (fun _ => true) line1 typed1); [exact line1_says|]. left. exists (s "data/"), (s "a"), (s "dat"). repeat split; try (cbn; intuition discriminate); [right; now exists (s "data")|]. exists "a"%char. split; [now left|discriminate].
Qed.


(** C91. rmclean1d *)
Theorem C91_rmclean1d : forall late ex l ty file root, says doc_rmclean1d l ty [file] -> stem file root ->
  tool late rmclean1d (main_rmclean1d ex) (line_words l) =
    Told (if ex (root ++ s "_weight.dat") && ex (root ++ s "_FDFdirty.dat") && ex (root ++ s "_RMSF.dat") && ex (root ++ s "_RMsynth.json")
          then Ran (runs_rmclean1d root ty) else Ended).
Proof. exact @tool_rmclean1d. Qed.
Print Assumptions C91_rmclean1d.


(** C91. qufit *)
Theorem C91_qufit : forall late ex l ty file root, says doc_qufit l ty [file] -> stem file root ->
  tool late qufit (main_qufit ex) (line_words l) = Told (if ex file then Ran (runs_qufit file root ty) else Ended).
Proof. exact @tool_qufit. Qed.
Print Assumptions C91_qufit.


(** C91. rmtools_bwdepol *)
Theorem C91_bwdepol : forall late ex l ty file root, says doc_bwdepol l ty [file] -> stem file root ->
  tool late bwdepol (main_bwdepol ex) (line_words l) = Told (if ex file then Ran (runs_bwdepol file root ty) else Ended).
Proof. exact @tool_bwdepol. Qed.
Print Assumptions C91_bwdepol.


(** C91. rmtools_bwpredict; a file that cannot be read raises. *)
Theorem C91_bwpredict : forall late readable l ty file, says doc_bwpredict l ty [file] ->
  tool late bwpredict (main_bwpredict readable) (line_words l) = Told (if readable file then Ran (runs_bwpredict file ty) else Raised).
Proof. exact @tool_bwpredict. Qed.
Print Assumptions C91_bwpredict.


(** C91. rmsynth3d *)
Theorem C91_rmsynth3d : forall late ex l ty q u freq dir, says doc_rmsynth3d l ty [q; u; freq] -> folder q dir ->
  tool late rmsynth3d (main_rmsynth3d ex) (line_words l) = Told (if ex q && ex u then Ran (runs_rmsynth3d q u freq dir ty) else Ended).
Proof. exact @tool_rmsynth3d. Qed.
Print Assumptions C91_rmsynth3d.


(** C91. rmclean3d: pieces only with several cores; a missing package raises. *)
Theorem C91_rmclean3d : forall late ex parallel l ty fdf rmsf dir, says doc_rmclean3d l ty [fdf; rmsf] -> compatible rmclean3d ty -> folder fdf dir ->
  tool late rmclean3d (main_rmclean3d ex parallel) (line_words l) =
    Told (if shared ty && negb parallel then Raised
          else if ex fdf && ex rmsf then
            Ran (runs_rmclean3d fdf rmsf dir
                   (if shared ty then from "choose_pool" [opt_said ty "--mpi" (VBool false); opt_said ty "--ncores" (VInt 1)] else VNone)
                   (if several_cores ty then opt_said ty "--chunk" VNone else VNone) ty)
          else Ended).
Proof. exact @tool_rmclean3d. Qed.
Print Assumptions C91_rmclean3d.


(** C91. rmtools_fitIcube *)
Theorem C91_fitIcube : forall late ex l ty file dir, says doc_fitIcube l ty [file] -> folder file dir ->
  tool late fitIcube (main_fitIcube ex) (line_words l) =
    Told (if ex file then
      Ran (runs_fitIcube file
             (match chars (opt_said ty "-freqFile" (word "")) with
              | [] => from "get_freq_array" [VStr file]
              | x => from "get_frequencies" [from "open_datacube" [VStr file]; VStr x] end)
             (match chars (opt_said ty "-odir" (word "")) with [] => dir | d => d end) ty)
      else Ended).
Proof. exact @tool_fitIcube. Qed.
Print Assumptions C91_fitIcube.


(** C91. rmtools_peakfitcube; an empty output name raises. *)
Theorem C91_peakfitcube : forall late ex l ty fdf freq out, says doc_peakfitcube l ty [fdf; freq; out] ->
  let peak := on (opt_said ty "-p" (VBool false)) in
  let all := on (opt_said ty "-a" (VBool false)) in
  tool late peakfitcube (main_peakfitcube ex) (line_words l) =
    Told (if peak && all then Ended
          else if ex fdf && ex freq then
            match out with
            | [] => Raised
            | c :: _ => Ran (runs_peakfitcube fdf freq (if ascii_dec c "/" then out else s "./" ++ out)
                               (if peak then "peak" else if all then "all" else "useful")%string ty)
            end
          else Ended).
Proof. exact @tool_peakfitcube. Qed.
Print Assumptions C91_peakfitcube.


(** C91. rmtools_3DIrescale *)
Theorem C91_rescale : forall late ex l ty file, says doc_rescale l ty [file] ->
  let fdf := opt_said ty "-l" VNone in
  let freq := opt_said ty "-f" VNone in
  (given fdf && given freq = true \/ ex file = false \/ (forall b, file <> b ++ s "covariance.fits") ->
    tool late rescale (main_rescale ex) (line_words l) = Told Raised) /\
  (forall base, given fdf && given freq = false -> ex file = true -> file = base ++ s "covariance.fits" ->
    tool late rescale (main_rescale ex) (line_words l) =
      Told (Ran [starts "rescale_I_model_3D"
                   [par "data" (from "read_data" [VStr base]);
                    par "new_freq" (if given fdf then from "LAMSQ0" [fdf] else if given freq then freq else word "mean");
                    par "num_cores" (opt_said ty "-n" (VInt 1))];
                 starts "write_new_parameters"
                   [par "out_basename" (if given (opt_said ty "-o" VNone) then opt_said ty "-o" VNone else VStr base);
                    par "overwrite" (opt_said ty "-w" (VBool false))]])).
Proof. exact @tool_rescale. Qed.
Print Assumptions C91_rescale.


(** C91. rmtools_createchunks: without a prefix the chunks go where the cube is. *)
Theorem C91_createchunks : forall late ex l ty file num z root, says doc_createchunks l ty [file; num] -> reads_as Whole num (VInt z) -> stem file root ->
  tool late createchunks (main_createchunks ex) (line_words l) =
    Told (if ex file then
      Ran [starts "open" [par "name" (VStr file); par "memmap" (VBool (negb (on (opt_said ty "-m" (VBool false)))))];
           starts "chunks" [par "Nperchunk" (VInt z); par "prefix" (if given (opt_said ty "-p" VNone) then opt_said ty "-p" VNone else VStr root)]]
      else Raised).
Proof. exact @tool_createchunks. Qed.
Print Assumptions C91_createchunks.


(** C91. The tools with optional positional arguments or several words for one. *)
Theorem C91_optional : forall late t l ty ws pv,
  In t [(rmsynth1dFITS, doc_rmsynth1dFITS, at_rmsynth1dFITS); (calcRMSF, doc_calcRMSF, at_calcRMSF); (testdata1D, doc_testdata1D, at_testdata1D);
        (testdata3D, doc_testdata3D, at_testdata3D); (extractregion, doc_extractregion, at_extractregion)] ->
  around (snd (fst t)) l ty ws -> filled (c_pos (fst (fst t))) ws pv ->
  exists n, parse late (fst (fst t)) (line_words l) = Parsed n /\ kept ty n (snd t) /\ incl pv n /\ NoDup (map fst n).
Proof. exact @with_optional. Qed.
Print Assumptions C91_optional.
Example C91_optional_nonvacuous : forall late, exists n, parse late testdata3D (map s ["-f"; "1.1e9,1.2e9"; "cat.csv"]%string) = Parsed n /\ In (s "dataPath", VStr (s "data")) n /\ In (s "flagFreqStr", VStr (s "1.1e9,1.2e9")) n.
Proof.
  intros late. destruct (C91_optional late (testdata3D, doc_testdata3D, at_testdata3D) [Opt (Words (s "-f") [s "1.1e9,1.2e9"]); Arg (s "cat.csv")] [(s "-f", VStr (s "1.1e9,1.2e9"))] [s "cat.csv"]
    [(s "inCatFile", VList [VStr (s "cat.csv")]); (s "dataPath", VStr (s "data"))]) as (n & P & K & I & _).
  - cbn. tauto.
  - exists [Words (s "-f") [s "1.1e9,1.2e9"]], [], [(s "-f", VStr (s "1.1e9,1.2e9"))], []. split; [reflexivity|]. split; [reflexivity|]. split; [|split; [apply S_nil|constructor; [now apply is_plain|constructor]]].
    apply (S_opt _ _ [] [(s "-f", VStr (s "1.1e9,1.2e9"))]); [|apply S_nil]. apply (M_one _ (s "-f") Text); [exists [s "-f"]; cbn; tauto|now apply is_plain|reflexivity].
  - cbn [fst testdata3D c_pos]. apply F_list; [reflexivity|reflexivity|]. apply F_none; [reflexivity|reflexivity|]. apply F_nil.
  - exists n. split; [exact P|]. split; [apply I; right; now left|]. inversion K as [|? ? _ K2]; subst. inversion K2 as [|? ? X _]; subst. exact X.
Qed.


(** C91. rmtools_assemblechunks *)
Theorem C91_assemblechunks : forall late l ty chunk, says doc_assemblechunks l ty [chunk] ->
  exists n, parse late assemblechunks (line_words l) = Parsed n /\ kept ty n at_assemblechunks /\ In (s "chunkname", VStr chunk) n.
Proof. exact @with_one_each. Qed.
Print Assumptions C91_assemblechunks.


(** C91. rmtools_freqfile *)
Theorem C91_freqfile : forall late fits freq, plain fits -> plain freq ->
  exists n, parse late freqfile [fits; freq] = Parsed n /\ In (s "fits_file", VList [VStr fits]) n /\ In (s "freq_file", VStr freq) n.
Proof. exact @with_none. Qed.
Print Assumptions C91_freqfile.


(** C91. Refuted: negative numbers can be typed as words. One with a digit first that is not of the form -12, -0.5 or -.5 is never accepted. *)
Theorem C91_negative_refuted : forall late c D words d t n, In (c, D) tools -> (d < 10)%nat -> ~ In "="%char t -> ~ In " "%char t -> ~ negative (s "-" ++ digit d :: t) ->
  In (s "-" ++ digit d :: t) words -> parse late c words <> Parsed n.
Proof. exact @minus_refused. Qed.
Print Assumptions C91_negative_refuted.
Example C91_negative_refuted_nonvacuous : (forall late n, parse late rmclean1d (map s ["a.dat"; "-c"; "-5."]%string) <> Parsed n) /\ (forall late n, parse late rmclean1d (map s ["a.dat"; "-c"; "-1e-3"]%string) <> Parsed n).
Proof.
  split; intros late n.
  - apply (C91_negative_refuted late rmclean1d doc_rmclean1d _ 5 (s ".")); [cbn; tauto|lia|cbn; intuition discriminate|cbn; intuition discriminate| |right; right; left; reflexivity].
    intros N. apply negative_iff in N. discriminate N.
  - apply (C91_negative_refuted late rmclean1d doc_rmclean1d _ 1 (s "e-3")); [cbn; tauto|lia|cbn; intuition discriminate|cbn; intuition discriminate| |right; right; left; reflexivity].
    intros N. apply negative_iff in N. discriminate N.
Qed.
(** glued to the option it is accepted *)
Example C91_negative_glued : exists v, means doc_rmclean1d (Glued (s "-c") (s "-5.")) [(s "-c", v)].
Proof.
  eexists. apply (M_glued _ "c" Number); [exists [s "-c"]; cbn; tauto|discriminate| |cbn; intuition discriminate|].
  - left. exists (mk_num (Some true) [5%nat] (Some []) None). split; [|split; reflexivity]. split; [constructor; [lia|constructor]|]. split; [constructor|]. split; [discriminate|exact Logic.I].
  - intros n t r (names & I & J) E. cbn in I. repeat (destruct I as [I|I]; [injection I as <- <-; cbn in J; repeat (destruct J as [J|J]; [rewrite <- J in E; discriminate E|]); destruct J|]). destruct I.
Qed.


(** C91. Refuted: options may be shortened. rmtools_fitIcube refuses the short forms of -freqFile and -odir. *)
Theorem C91_short_forms_refuted : forall late w words, In w (map s ["-fr"; "-fre"; "-freq"; "-freqF"; "-freqFi"; "-freqFil"; "-od"; "-odi"]%string) -> In w words ->
  parse late fitIcube words = Refused.
Proof. exact @abbreviations_refused. Qed.
Print Assumptions C91_short_forms_refuted.


(** C91. Refuted: rmsynth1dFITS takes the flag -c between the files and the coordinates. Pythons before 3.12.7 refuse it. *)
Theorem C91_fits_order_refuted : forall q u x y, plain q -> plain u -> plain x -> plain y -> parse false rmsynth1dFITS [q; u; s "-c"; x; y] = Refused.
Proof. exact @fits_early. Qed.
Print Assumptions C91_fits_order_refuted.
Example C91_fits_order_late : exists n, parse true rmsynth1dFITS (map s ["Q.fits"; "U.fits"; "-c"; "10"; "20"]%string) = Parsed n.
Proof. eexists. reflexivity. Qed.


(** C91. Refuted: the number of samples matters in rmtools_bwpredict. Lines that agree in the other options start the same. *)
Theorem C91_bwpredict_samples_refuted : forall late r l ty l' ty' file, says doc_bwpredict l ty [file] -> says doc_bwpredict l' ty' [file] ->
  Forall (fun n => opt_said ty n VNone = opt_said ty' n VNone) ["-l"; "-d"; "-f"]%string ->
  tool late bwpredict (main_bwpredict r) (line_words l) = tool late bwpredict (main_bwpredict r) (line_words l').
Proof. exact @bwpredict_same. Qed.
Print Assumptions C91_bwpredict_samples_refuted.


(** C91. Refuted: the examples in the help of rmtools_testdata1D work. *)
Theorem C91_testdata_help_refuted : forall late,
  parse late testdata1D (map s ["catalogue.csv"; "-f"; "1.10e9,1.20e9,1.60e9,1.65e9"]%string) = Refused /\
  parse late testdata1D (map s ["catalogue.csv"; "-n"; "NOISE.TXT"]%string) = Refused.
Proof. exact @testdata_help. Qed.
Print Assumptions C91_testdata_help_refuted.


(** C91. Several cores exclude MPI; one core, typed, does not. *)
Theorem C91_cores_mpi : forall late,
  parse late rmclean3d (map s ["F.fits"; "R.fits"; "--ncores"; "2"; "--mpi"]%string) = Refused /\
  exists n, parse late rmclean3d (map s ["F.fits"; "R.fits"; "--ncores"; "1"; "--mpi"]%string) = Parsed n.
Proof. exact @cores_and_mpi. Qed.
Print Assumptions C91_cores_mpi.

