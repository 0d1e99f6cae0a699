(** Command lines: further tools, and lines the tools refuse. *)
From Coq Require Import Reals List Arith ZArith Bool Ascii String Lia.
From Verif Require Import CBase PyRes PyStr PyStr_Proofs Pixfit_Model Pixfit_Proofs Pixfit_Files Cat_Model Cat_Spec Cat_Text Cl_Model Cl_Spec Cl_Words Cl_Parse Cl_Line Cl_Block Cl_Tools.
Import ListNotations.
Local Notation length := List.length.
Local Notation Forall := List.Forall.
Local Open Scope list_scope.

Theorem tool_fitIcube : forall late ex l ty file dir, says doc_fitIcube l ty [file] -> folder file dir ->
  tool late fitIcube (main_fitIcube ex) (line_words l) =
    Told (if ex file then
      Ran (runs_fitIcube file
             (match chars (opt_said ty "-freqFile" (word "")) with
              | [] => from "get_freq_array" [VStr file]
              | x => from "get_frequencies" [from "open_datacube" [VStr file]; VStr x] end)
             (match chars (opt_said ty "-odir" (word "")) with [] => dir | d => d end) ty)
      else Ended).
Proof.
  intros late ex l ty file dir S Fd. rewrite <- (folder_dirname _ _ Fd). destruct (tool_doc fitIcube doc_fitIcube) as (Dc & U); [cbn; tauto|].
  destruct (parse_any late fitIcube doc_fitIcube l ty [file] [(s "fitsI", VList [VStr file])] Dc U) as (n & P & H); auto; [singles|fill|now apply no_group|].
  unfold tool. rewrite P. f_equal. unfold main_fitIcube. cbv zeta. opts H. cbn [first_of text_of]. destruct (ex file); [|reflexivity]. cbn [negb]. unfold runs_fitIcube, opt_said. cbn [o_names o_default store flag].
  change chars with text_of. change (txt "") with (word ""). destruct (text_of (said ty [s "-odir"] (word ""))); reflexivity.
Qed.
Theorem tool_peakfitcube : forall late ex l ty fdf freq out, says doc_peakfitcube l ty [fdf; freq; out] ->
  let peak := on (opt_said ty "-p" (VBool false)) in
  let all := on (opt_said ty "-a" (VBool false)) in
  tool late peakfitcube (main_peakfitcube ex) (line_words l) =
    Told (if peak && all then Ended
          else if ex fdf && ex freq then
            match out with
            | [] => Raised
            | c :: _ => Ran (runs_peakfitcube fdf freq (if ascii_dec c "/" then out else s "./" ++ out)
                               (if peak then "peak" else if all then "all" else "useful")%string ty)
            end
          else Ended).
Proof.
  intros late ex l ty fdf freq out S peak all. destruct (tool_doc peakfitcube doc_peakfitcube) as (Dc & U); [cbn; tauto|].
  destruct (parse_any late peakfitcube doc_peakfitcube l ty [fdf; freq; out] [(s "FDF_filename", VList [VStr fdf]); (s "freq_file", VList [VStr freq]); (s "output_name", VList [VStr out])] Dc U) as (n & P & H); auto; [singles|fill|now apply no_group|].
  unfold tool. rewrite P. f_equal. unfold main_peakfitcube. cbv zeta beta. opts H. cbn [first_of text_of]. unfold runs_peakfitcube, peak, all, opt_said. cbv zeta beta. cbn [o_names o_default store flag].
  change on with is_true. destruct (is_true (said ty [s "-p"] (VBool false))), (is_true (said ty [s "-a"] (VBool false))); cbn [andb]; try reflexivity;
  (destruct (ex fdf), (ex freq); cbn [negb andb]; try reflexivity; destruct out as [|c t]; [reflexivity|];
   destruct (ascii_dec c "/") as [->|N]; [change (ch_eqb "/" slash) with true|rewrite (ch_eqb_neq c slash N)];
   destruct (said ty [s "-n"] VNone), (said ty [s "-i"] VNone); reflexivity).
Qed.
Theorem tool_rescale : forall late ex l ty file, says doc_rescale l ty [file] ->
  let fdf := opt_said ty "-l" VNone in
  let freq := opt_said ty "-f" VNone in
  (given fdf && given freq = true \/ ex file = false \/ (forall b, file <> b ++ s "covariance.fits") ->
    tool late rescale (main_rescale ex) (line_words l) = Told Raised) /\
  (forall base, given fdf && given freq = false -> ex file = true -> file = base ++ s "covariance.fits" ->
    tool late rescale (main_rescale ex) (line_words l) =
      Told (Ran [starts "rescale_I_model_3D"
                   [par "data" (from "read_data" [VStr base]);
                    par "new_freq" (if given fdf then from "LAMSQ0" [fdf] else if given freq then freq else word "mean");
                    par "num_cores" (opt_said ty "-n" (VInt 1))];
                 starts "write_new_parameters"
                   [par "out_basename" (if given (opt_said ty "-o" VNone) then opt_said ty "-o" VNone else VStr base);
                    par "overwrite" (opt_said ty "-w" (VBool false))]])).
Proof.
  intros late ex l ty file S fdf freq. destruct (tool_doc rescale doc_rescale) as (Dc & U); [cbn; tauto|].
  destruct (parse_any late rescale doc_rescale l ty [file] [(s "covar_file", VStr file)] Dc U) as (n & P & H); auto; [singles|fill|now apply no_group|].
  unfold tool. rewrite P. unfold main_rescale. cbv zeta. opts H. cbn [text_of]. unfold fdf, freq, opt_said. cbn [o_names o_default store flag].
  set (fd := said ty [s "-l"] VNone). set (fq := said ty [s "-f"] VNone).
  assert (G : forall v, given v = negb (is_none v)) by (intros []; reflexivity). rewrite !G. rewrite (andb_comm (negb (is_none fd))). split.
  - intros [X|[X|X]].
    + now rewrite X.
    + rewrite X. destruct (negb (is_none fq) && negb (is_none fd)); reflexivity.
    + destruct (endswith (s "covariance.fits") file) eqn:E; [apply endswith_spec in E; destruct E as (y & E); now apply X in E|]. destruct (negb (is_none fq) && negb (is_none fd)), (ex file); reflexivity.
  - intros base X1 X2 ->. rewrite X1, X2. cbn [negb]. rewrite (proj2 (endswith_spec (s "covariance.fits") (base ++ s "covariance.fits"))) by (now exists base). cbn [negb].
    rewrite app_length. change (length (s "covariance.fits")) with 15%nat. replace (length base + 15 - 15)%nat with (length base) by lia. rewrite firstn_app, Nat.sub_diag, firstn_all, firstn_O, app_nil_r.
    destruct (is_none fd), (is_none fq), (is_none (said ty [s "-o"] VNone)); reflexivity.
Qed.
Theorem tool_createchunks : forall late ex l ty file num z root, says doc_createchunks l ty [file; num] -> reads_as Whole num (VInt z) -> stem file root ->
  tool late createchunks (main_createchunks ex) (line_words l) =
    Told (if ex file then
      Ran [starts "open" [par "name" (VStr file); par "memmap" (VBool (negb (on (opt_said ty "-m" (VBool false)))))];
           starts "chunks" [par "Nperchunk" (VInt z); par "prefix" (if given (opt_said ty "-p" VNone) then opt_said ty "-p" VNone else VStr root)]]
      else Raised).
Proof.
  intros late ex l ty file num z root S W R. destruct (tool_doc createchunks doc_createchunks) as (Dc & U); [cbn; tauto|].
  destruct (parse_any late createchunks doc_createchunks l ty [file; num] [(s "infile", VStr file); (s "Nperchunk", VStr num)] Dc U) as (n & P & H); auto; [singles|fill|now apply no_group|].
  unfold tool. rewrite P. f_equal. unfold main_createchunks. cbv zeta. opts H. cbn [text_of]. pose proof (conv_reads PInt num (VInt z) W) as I. cbn [conv] in I. destruct (int_text num) as [x|]; [|discriminate I]. injection I as ->.
  rewrite (stem_root _ _ R). unfold opt_said. cbn [o_names o_default store flag]. destruct (ex file); [|reflexivity]. cbn [negb]. destruct (said ty [s "-p"] VNone); reflexivity.
Qed.

(* ----------------------------------------- tools with optional arguments *)

Lemma kept_ok : forall c ty pv n (t : places), holds c ty pv n ->
  Forall (fun x => let '(d, names, v) := x in exists o, find (fun o => str_eqb (s d) (o_dest o)) (c_opts c) = Some o /\ o_act o <> ShowHelp /\ o_names o = names /\ o_default o = v) t -> kept ty n t.
Proof.
  intros c ty pv n t (H & _) F. unfold kept. eapply List.Forall_impl; [|exact F]. intros [[d names] v] (o & I & A & <- & <-). apply find_some in I. destruct I as [I E]. apply str_eqb_eq in E. rewrite E. now apply H.
Qed.
Ltac kept_tac := cbv [at_rmsynth1dFITS at_calcRMSF at_testdata1D at_testdata3D at_extractregion at_assemblechunks]; repeat (apply List.Forall_cons; [eexists; split; [reflexivity|]; split; [discriminate|]; split; reflexivity|]); apply List.Forall_nil.

Definition around (D : docs) (l : list piece) (ty : list (str * value)) (ws : list str) : Prop :=
  exists a b ta tb, l = map Opt a ++ map Arg ws ++ map Opt b /\ ty = ta ++ tb /\ says D (map Opt a) ta [] /\ says D (map Opt b) tb [] /\ Forall plain ws.

Lemma around_parse : forall late c D l ty ws pv, In (c, D) tools -> c_group c = [] -> around D l ty ws -> filled (c_pos c) ws pv ->
  exists n, parse late c (line_words l) = Parsed n /\ holds c ty pv n.
Proof.
  intros late c D l ty ws pv T G (a & b & ta & tb & -> & -> & Sa & Sb & P) F. destruct (tool_doc c D T) as (Dc & U). apply (parse_block late c D a b ta tb ws pv); auto. now apply no_group.
Qed.
Definition filled_by (c : cmd) (ws : list str) (pv : list (str * value)) : Prop := filled (c_pos c) ws pv.

Theorem with_optional : forall late t l ty ws pv,
  In t [(rmsynth1dFITS, doc_rmsynth1dFITS, at_rmsynth1dFITS); (calcRMSF, doc_calcRMSF, at_calcRMSF); (testdata1D, doc_testdata1D, at_testdata1D);
        (testdata3D, doc_testdata3D, at_testdata3D); (extractregion, doc_extractregion, at_extractregion)] ->
  around (snd (fst t)) l ty ws -> filled (c_pos (fst (fst t))) ws pv ->
  exists n, parse late (fst (fst t)) (line_words l) = Parsed n /\ kept ty n (snd t) /\ incl pv n /\ NoDup (map fst n).
Proof.
  intros late t l ty ws pv I A F.
  assert (X : In (fst t) tools /\ c_group (fst (fst t)) = [] /\
    Forall (fun x => let '(d, names, v) := x in exists o, find (fun o => str_eqb (s d) (o_dest o)) (c_opts (fst (fst t))) = Some o /\ o_act o <> ShowHelp /\ o_names o = names /\ o_default o = v) (snd t)).
  { cbn [In] in I. destruct I as [<-|[<-|[<-|[<-|[<-|[]]]]]]; cbn [fst snd]; (split; [unfold tools; cbn [In]; tauto|]; split; [reflexivity|]; kept_tac). }
  destruct X as (T & G & K). destruct (around_parse late (fst (fst t)) (snd (fst t)) l ty ws pv) as (n & P & H); [rewrite <- surjective_pairing; exact T|exact G|exact A|exact F|].
  exists n. split; [exact P|]. split; [exact (kept_ok _ _ _ _ _ H K)|]. split; [intros p Ip; now apply H|apply H].
Qed.
Theorem with_one_each : forall late l ty chunk, says doc_assemblechunks l ty [chunk] ->
  exists n, parse late assemblechunks (line_words l) = Parsed n /\ kept ty n at_assemblechunks /\ In (s "chunkname", VStr chunk) n.
Proof.
  intros late l ty chunk S. destruct (tool_doc assemblechunks doc_assemblechunks) as (Dc & U); [cbn; tauto|].
  destruct (parse_any late assemblechunks doc_assemblechunks l ty [chunk] [(s "chunkname", VStr chunk)] Dc U) as (n & P & H); auto; [singles|fill|now apply no_group|].
  exists n. split; [exact P|]. split; [apply (kept_ok _ _ _ _ at_assemblechunks H); kept_tac|]. apply H. now left.
Qed.
Theorem with_none : forall late fits freq, plain fits -> plain freq ->
  exists n, parse late freqfile [fits; freq] = Parsed n /\ In (s "fits_file", VList [VStr fits]) n /\ In (s "freq_file", VStr freq) n.
Proof.
  intros late fits freq P1 P2. destruct (tool_doc freqfile doc_freqfile) as (Dc & U); [cbn; tauto|].
  destruct (parse_any late freqfile doc_freqfile [Arg fits; Arg freq] [] [fits; freq] [(s "fits_file", VList [VStr fits]); (s "freq_file", VStr freq)] Dc U) as (n & P & H); [singles| |fill|now apply no_group|].
  { apply S_arg; [exact P1|]. apply S_arg; [exact P2|]. apply S_nil. }
  exists n. split; [exact P|]. split; apply H; cbn; tauto.
Qed.

(* ----------------------------------------------------------------- findings *)

Lemma digit_ne : forall c d, (d < 10)%nat -> is_digit c = false -> digit d <> c.
Proof. intros c d D N E. rewrite <- E, digit_is in N by exact D. discriminate N. Qed.
(** numbers such as -5. and -1e-3 are taken for options *)
Theorem minus_stray : forall c d t, usual c -> (d < 10)%nat -> ~ In "="%char t -> ~ In " "%char t -> ~ negative (s "-" ++ digit d :: t) -> stray c (s "-" ++ digit d :: t).
Proof.
  intros c d t U L E B N. pose proof (digit_ne "=" d L eq_refl) as N1. pose proof (digit_ne " " d L eq_refl) as N2.
  assert (G : forall n, In n (all_names c) -> forall r, n <> "-"%char :: digit d :: r).
  { destruct U as (_ & _ & U). rewrite List.Forall_forall in U. intros n I r X. destruct (U _ I) as (a & t' & Y & A & _). specialize (A d L). remember (digit d) as g. rewrite X in Y. injection Y as Y _. now apply A. }
  clear U L. change (s "-" ++ digit d :: t) with ("-"%char :: digit d :: t) in *. remember (digit d) as g eqn:Eg. clear d Eg.
  exists g, t. split; [reflexivity|]. split; [|split; [|split; [exact N|split]]].
  - intros [X|[X|X]]; [discriminate X|now apply N1|now apply E].
  - intros [X|[X|X]]; [discriminate X|now apply N2|now apply B].
  - intros n r I X. apply (G n I (t ++ r)). exact X.
  - intros I. now apply (G _ I []).
Qed.
Theorem minus_refused : forall late c D words d t n, In (c, D) tools -> (d < 10)%nat -> ~ In "="%char t -> ~ In " "%char t -> ~ negative (s "-" ++ digit d :: t) ->
  In (s "-" ++ digit d :: t) words -> parse late c words <> Parsed n.
Proof.
  intros late c D words d t n T L E B N I. destruct (tool_doc c D T) as (_ & U). apply (stray_refused late c words (s "-" ++ digit d :: t)); auto. now apply minus_stray.
Qed.
Lemma no_dot : forall l, digits l -> ~ In "."%char (map digit l).
Proof. intros l F I. apply in_map_iff in I. destruct I as (x & X & I). unfold digits in F. rewrite List.Forall_forall in F. now apply (digit_ne "." x (F x I) eq_refl). Qed.
Lemma points_not_negative : forall d t, digits (d :: t) -> ~ negative (s "-" ++ digit d :: map digit t ++ s ".").
Proof.
  intros d t F (a & b & A & B & [(_ & H)|(Nb & H)]); apply app_inv_head in H.
  - apply (no_dot a A). rewrite <- H. right. apply in_or_app. right. now left.
  - change (digit d :: map digit t ++ s ".") with (map digit (d :: t) ++ s ".") in H. pose proof (no_dot _ F) as N1. pose proof (no_dot _ B) as N2.
    assert (Nm : map digit b <> []) by (destruct b; [congruence|discriminate]). revert H N1 N2 Nm. generalize (map digit (d :: t)), (map digit a), (map digit b). clear. intros x y z H N1 N2 Nm.
    destruct (exists_last Nm) as (z' & c & ->). rewrite !app_assoc in H. apply app_inj_tail in H. destruct H as [_ <-]. apply N2. apply in_or_app. right. now left.
Qed.

(** the short forms of two options of rmtools_fitIcube *)
Lemma classify_none : forall c w words, classify c w = None -> In w words -> classify_all c words = None.
Proof.
  intros c w words N I. apply in_split in I. destruct I as (a & b & ->). rewrite classify_app. cbn [classify_all]. rewrite N. now destruct (classify_all c a).
Qed.
Theorem abbreviations_refused : forall late w words, In w (map s ["-fr"; "-fre"; "-freq"; "-freqF"; "-freqFi"; "-freqFil"; "-od"; "-odi"]%string) -> In w words ->
  parse late fitIcube words = Refused.
Proof.
  intros late w words Iw I. unfold parse. rewrite (classify_none fitIcube w words); [reflexivity| |exact I]. cbn [map In] in Iw.
  repeat (destruct Iw as [<-|Iw]; [vm_compute; reflexivity|]). destruct Iw.
Qed.

Lemma fits_early : forall q u x y, plain q -> plain u -> plain x -> plain y -> parse false rmsynth1dFITS [q; u; s "-c"; x; y] = Refused.
Proof.
  intros q u x y Pq Pu Px Py. destruct (tool_doc rmsynth1dFITS doc_rmsynth1dFITS) as (Dc & U); [cbn; tauto|].
  assert (C : classify_all rmsynth1dFITS [q; u; s "-c"; x; y] = Some [(KArg, q); (KArg, u); (KOpt (flag "-c" "sky_coords") (s "-c") None, s "-c"); (KArg, x); (KArg, y)]).
  { cbn [classify_all]. rewrite (word_plain _ q U Pq), (word_plain _ u U Pu), (word_plain _ x U Px), (word_plain _ y U Py). reflexivity. }
  unfold parse. rewrite C. change (run false rmsynth1dFITS (S (length ?l)) ?st ?l) with (go false rmsynth1dFITS st l).
  rewrite go_arg. cbv zeta. cbn [args_ahead List.length skipn andb s_pos rmsynth1dFITS c_pos shares list1 p_num].
  assert (T : forall st st' ov, s_pos st = c_pos rmsynth1dFITS -> take_shares st [1; 1; 0; 0]%nat [q; u] = Some (st', ov) -> s_pos st' = []).
  { intros st st' ov E T. cbn [take_shares] in T. rewrite E in T. cbn [rmsynth1dFITS c_pos firstn skipn] in T.
    repeat match type of T with context [match pos_value ?p ?w with _ => _ end] => destruct (pos_value p w); [|discriminate T]; cbn [take_shares s_pos firstn skipn] in T end. injection T as <- _. reflexivity. }
  match goal with |- context [take_shares ?st [1; 1; 0; 0]%nat [q; u]] => destruct (take_shares st [1; 1; 0; 0]%nat [q; u]) as [[st' ov]|] eqn:E; [|reflexivity]; apply T in E; [|reflexivity] end.
  match goal with |- context [go false rmsynth1dFITS ?st ?l] => set (st2 := st); change l with ((KOpt (flag "-c" "sky_coords") (s "-c") None, s "-c") :: plains [] ++ [(KArg, x); (KArg, y)]) end.
  rewrite (go_option false rmsynth1dFITS st2 (flag "-c" "sky_coords") (s "-c") (VBool true) []); [|reflexivity|discriminate|reflexivity|reflexivity|intros d e _ _ []].
  set (st3 := app1 _ _ _). assert (P3 : s_pos st3 = []). { unfold st3, app1. destruct (find_opt _ _); exact E. }
  rewrite (go_over false _ st3 x _ P3). rewrite (go_over false _ (over st3) y _ P3). change (go false rmsynth1dFITS (over (over st3)) []) with (@inl state outcome (over (over st3))). cbn [over s_extra]. now rewrite orb_true_r.
Qed.

(** the number of samples changes nothing *)
Theorem bwpredict_same : forall late r l ty l' ty' file, says doc_bwpredict l ty [file] -> says doc_bwpredict l' ty' [file] ->
  Forall (fun n => opt_said ty n VNone = opt_said ty' n VNone) ["-l"; "-d"; "-f"]%string ->
  tool late bwpredict (main_bwpredict r) (line_words l) = tool late bwpredict (main_bwpredict r) (line_words l').
Proof.
  intros late r l ty l' ty' file S S' F. rewrite (tool_bwpredict late r l ty file S), (tool_bwpredict late r l' ty' file S').
  inversion F as [|? ? E1 F1]; subst. inversion F1 as [|? ? E2 F2]; subst. inversion F2 as [|? ? E3 _]; subst. unfold runs_bwpredict. now rewrite E1, E2, E3.
Qed.
(** the examples of the help of rmtools_testdata1D *)
Theorem testdata_help : forall late,
  parse late testdata1D (map s ["catalogue.csv"; "-f"; "1.10e9,1.20e9,1.60e9,1.65e9"]%string) = Refused /\
  parse late testdata1D (map s ["catalogue.csv"; "-n"; "NOISE.TXT"]%string) = Refused.
Proof. intros []; split; reflexivity. Qed.
Theorem cores_and_mpi : forall late,
  parse late rmclean3d (map s ["F.fits"; "R.fits"; "--ncores"; "2"; "--mpi"]%string) = Refused /\
  exists n, parse late rmclean3d (map s ["F.fits"; "R.fits"; "--ncores"; "1"; "--mpi"]%string) = Parsed n.
Proof. intros []; (split; [reflexivity|eexists; reflexivity]). Qed.
