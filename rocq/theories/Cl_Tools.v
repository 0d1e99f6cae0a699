(** Command lines: the tools. *)
From Coq Require Import Reals List Arith ZArith Bool Ascii String Lia.
From Verif Require Import CBase PyRes PyStr PyStr_Proofs Pixfit_Model Pixfit_Proofs Pixfit_Files Cat_Model Cat_Spec Cat_Text Cl_Model Cl_Spec Cl_Words Cl_Parse Cl_Line Cl_Block.
Import ListNotations.
Local Notation length := List.length.
Local Notation Forall := List.Forall.
Local Open Scope list_scope.

(* ------------------------------------------------------------------- tables *)

Fixpoint nodupb (l : list str) : bool := match l with [] => true | x :: l => negb (existsb (str_eqb x) l) && nodupb l end.
Lemma nodupb_ok : forall l, nodupb l = true -> NoDup l.
Proof.
  induction l as [|x l IH]; intros H; [constructor|]. cbn [nodupb] in H. apply andb_true_iff in H. destruct H as [A B]. constructor; [|now apply IH].
  intros I. apply negb_true_iff in A. apply not_true_iff_false in A. apply A. apply existsb_exists. exists x. split; [exact I|apply str_eqb_refl].
Qed.
Definition goodb (n : str) : bool :=
  match n with
  | c :: a :: _ => ch_eqb c "-"%char && negb (existsb (fun d => ch_eqb a (digit d)) (seq 0 10)) && negb (ch_eqb a "."%char) && negb (existsb (ch_eqb "="%char) n)
  | _ => false
  end.
Lemma goodb_ok : forall n, goodb n = true -> good_name n.
Proof.
  intros [|c [|a t]] H; try discriminate H. unfold goodb in H. rewrite !andb_true_iff, !negb_true_iff in H. destruct H as (((A & B) & C) & D).
  apply ch_eqb_eq in A. subst c. exists a, t. split; [reflexivity|]. split; [|split].
  - intros d L ->. apply not_true_iff_false in B. apply B. apply existsb_exists. exists d. split; [apply in_seq; lia|apply ch_eqb_refl].
  - intros ->. rewrite ch_eqb_refl in C. discriminate C.
  - intros I. apply not_true_iff_false in D. apply D. apply existsb_exists. exists "="%char. split; [exact I|apply ch_eqb_refl].
Qed.
Definition usualb (c : cmd) : bool := nodupb (all_names c) && nodupb (all_dests c) && forallb goodb (all_names c).
Lemma usualb_ok : forall c, usualb c = true -> usual c.
Proof.
  intros c H. unfold usualb in H. rewrite !andb_true_iff in H. destruct H as ((A & B) & C). split; [now apply nodupb_ok|]. split; [now apply nodupb_ok|].
  apply List.Forall_forall. intros n I. rewrite forallb_forall in C. now apply goodb_ok, C.
Qed.

Definition tools : list (cmd * docs) :=
  [(rmsynth1d, doc_rmsynth1d); (rmsynth1dFITS, doc_rmsynth1dFITS); (rmclean1d, doc_rmclean1d); (qufit, doc_qufit); (bwdepol, doc_bwdepol);
   (bwpredict, doc_bwpredict); (calcRMSF, doc_calcRMSF); (testdata1D, doc_testdata1D); (testdata3D, doc_testdata3D); (rmsynth3d, doc_rmsynth3d);
   (rmclean3d, doc_rmclean3d); (fitIcube, doc_fitIcube); (peakfitcube, doc_peakfitcube); (rescale, doc_rescale); (extractregion, doc_extractregion);
   (createchunks, doc_createchunks); (assemblechunks, doc_assemblechunks); (freqfile, doc_freqfile)].
Theorem tools_documented : Forall (fun t => documented (fst t) (snd t) /\ usual (fst t)) tools.
Proof.
  unfold tools. repeat (apply List.Forall_cons; [cbn [fst snd]; split; [|apply usualb_ok; vm_compute; reflexivity]|]); [..|apply List.Forall_nil];
  (eexists; split; [reflexivity|]; split; [reflexivity|]; repeat (apply List.Forall_cons; [cbn; exact Logic.I|]); apply List.Forall_nil).
Qed.
Lemma tool_doc : forall c D, In (c, D) tools -> documented c D /\ usual c.
Proof. intros c D I. pose proof tools_documented as T. rewrite List.Forall_forall in T. exact (T (c, D) I). Qed.

(* ---------------------------------------------------------------- splitext *)

Lemma tail_name_app : forall a b, ~ In "/"%char a -> (b = [] \/ exists t, b = "/"%char :: t) -> tail_name (a ++ b) = a.
Proof.
  induction a as [|c a IH]; intros b N B.
  - destruct B as [->|(t & ->)]; reflexivity.
  - cbn [app tail_name]. rewrite ch_eqb_neq by (intros ->; apply N; now left). f_equal. apply IH; auto. intros I. apply N. now right.
Qed.
Lemma to_dot_app : forall a b, ~ In "."%char a -> to_dot (a ++ "."%char :: b) = Some b.
Proof.
  induction a as [|c a IH]; intros b N; [reflexivity|]. cbn [app to_dot]. rewrite ch_eqb_neq by (intros ->; apply N; now left). apply IH. intros I. apply N. now right.
Qed.
Lemma to_dot_none : forall a, ~ In "."%char a -> to_dot a = None.
Proof. induction a as [|c a IH]; intros N; [reflexivity|]. cbn [to_dot]. rewrite ch_eqb_neq by (intros ->; apply N; now left). apply IH. intros I. apply N. now right. Qed.
Lemma rev_dir : forall dir : str, (dir = [] \/ exists d, dir = d ++ s "/") -> rev dir = [] \/ exists t, rev dir = "/"%char :: t.
Proof. intros dir [->|(d & ->)]; [now left|]. right. rewrite rev_app_distr. now exists (rev d). Qed.
Theorem stem_root : forall path root, stem path root -> root_of path = root.
Proof.
  intros path root [(dir & name & e & -> & -> & Hd & N1 & N2 & N3 & (c & Ic & Nc))|(-> & dir & name & -> & Hd & N1 & N2)]; unfold root_of; cbv zeta.
  - assert (R : rev (dir ++ name ++ s "." ++ e) = (rev e ++ "."%char :: rev name) ++ rev dir).
    { rewrite !rev_app_distr. change (rev (s ".")) with ["."%char]. rewrite <- !app_assoc. reflexivity. }
    rewrite R. rewrite (tail_name_app _ (rev dir)).
    + rewrite to_dot_app by (intros I; apply N3; now apply in_rev).
      assert (F : forallb (ch_eqb "."%char) (rev name) = false).
      { apply not_true_iff_false. intros F. rewrite forallb_forall in F. apply Nc. symmetry. apply ch_eqb_eq. apply F. now apply in_rev in Ic. }
      rewrite F, skipn_app, skipn_all, Nat.sub_diag. cbn [skipn app]. rewrite rev_app_distr, !rev_involutive. reflexivity.
    + intros I. apply in_app_or in I. destruct I as [I|[I|I]]; [apply N2; now apply in_rev|discriminate I|apply N1; now apply in_rev].
    + now apply rev_dir.
  - rewrite rev_app_distr. rewrite (tail_name_app _ (rev dir)); [|intros I; apply N1; now apply in_rev|now apply rev_dir].
    now rewrite to_dot_none by (intros I; apply N2; now apply in_rev).
Qed.

Lemma folder_dirname : forall path dir, folder path dir -> dirname path = dir.
Proof.
  intros path dir [(-> & N)|(d & c & name & -> & Nc & -> & N)].
  - apply dirname_none. intros x I ->. now apply N.
  - rewrite <- app_assoc. apply dirname_spec; [exact Nc|]. intros x I ->. now apply N.
Qed.

(* --------------------------------------------------------------- name space *)

Lemma get_in : forall n d v, NoDup (map fst n) -> In (s d, v) n -> get n d = v.
Proof. intros n d v N I. unfold get. now rewrite (dget_nodup n (s d) v N I). Qed.
Lemma get_opt : forall c ty pv n d o, holds c ty pv n -> find (fun o => str_eqb (s d) (o_dest o)) (c_opts c) = Some o -> o_act o <> ShowHelp ->
  get n d = said ty (o_names o) (o_default o).
Proof.
  intros c ty pv n d o (H & _ & N) F A. apply find_some in F. destruct F as [I E]. apply str_eqb_eq in E. apply get_in; [exact N|]. rewrite E. now apply H.
Qed.
Lemma get_pos : forall c ty pv n d v, holds c ty pv n -> In (s d, v) pv -> get n d = v.
Proof. intros c ty pv n d v (_ & H & N) I. apply get_in; [exact N|]. now apply H. Qed.
Lemma no_group : forall c ty, c_group c = [] -> compatible c ty.
Proof. intros c ty E o1 o2 n1 n2 v1 v2 _ _ G. rewrite E in G. destruct G. Qed.
Ltac opts H := repeat match goal with |- context [get ?n ?d] => first [erewrite (get_opt _ _ _ n d _ H) by (try reflexivity; discriminate) | erewrite (get_pos _ _ _ n d _ H) by (cbn; tauto)] end.
Ltac fill := unfold list1, one; repeat first [apply F_nil | apply F_list; [reflexivity|reflexivity|] | apply F_one; [left; reflexivity|reflexivity|]].
Ltac singles := repeat (apply List.Forall_cons; [first [left; reflexivity | right; reflexivity]|]); apply List.Forall_nil.

Theorem tool_rmsynth1d : forall late ex l ty file root, says doc_rmsynth1d l ty [file] -> stem file root ->
  tool late rmsynth1d (main_rmsynth1d ex) (line_words l) = Told (if ex file then Ran (runs_rmsynth1d file root ty) else Ended).
Proof.
  intros late ex l ty file root S R. destruct (tool_doc rmsynth1d doc_rmsynth1d) as (Dc & U); [cbn; tauto|].
  destruct (parse_any late rmsynth1d doc_rmsynth1d l ty [file] [(s "dataFile", VList [VStr file])] Dc U) as (n & P & H); auto; [singles|fill|now apply no_group|].
  unfold tool. rewrite P. f_equal. unfold main_rmsynth1d. opts H. cbn [first_of text_of]. rewrite (stem_root _ _ R). destruct (ex file); reflexivity.
Qed.
Theorem tool_rmclean1d : forall late ex l ty file root, says doc_rmclean1d l ty [file] -> stem file root ->
  tool late rmclean1d (main_rmclean1d ex) (line_words l) =
    Told (if ex (root ++ s "_weight.dat") && ex (root ++ s "_FDFdirty.dat") && ex (root ++ s "_RMSF.dat") && ex (root ++ s "_RMsynth.json")
          then Ran (runs_rmclean1d root ty) else Ended).
Proof.
  intros late ex l ty file root S R. destruct (tool_doc rmclean1d doc_rmclean1d) as (Dc & U); [cbn; tauto|].
  destruct (parse_any late rmclean1d doc_rmclean1d l ty [file] [(s "dataFile", VList [VStr file])] Dc U) as (n & P & H); auto; [singles|fill|now apply no_group|].
  unfold tool. rewrite P. f_equal. unfold main_rmclean1d. opts H. cbn [first_of text_of]. rewrite (stem_root _ _ R). cbn [forallb]. rewrite andb_true_r, !andb_assoc.
  destruct (ex (root ++ s "_weight.dat") && ex (root ++ s "_FDFdirty.dat") && ex (root ++ s "_RMSF.dat") && ex (root ++ s "_RMsynth.json")); reflexivity.
Qed.
Theorem tool_qufit : forall late ex l ty file root, says doc_qufit l ty [file] -> stem file root ->
  tool late qufit (main_qufit ex) (line_words l) = Told (if ex file then Ran (runs_qufit file root ty) else Ended).
Proof.
  intros late ex l ty file root S R. destruct (tool_doc qufit doc_qufit) as (Dc & U); [cbn; tauto|].
  destruct (parse_any late qufit doc_qufit l ty [file] [(s "dataFile", VList [VStr file])] Dc U) as (n & P & H); auto; [singles|fill|now apply no_group|].
  unfold tool. rewrite P. f_equal. unfold main_qufit. opts H. cbn [first_of text_of]. rewrite (stem_root _ _ R). destruct (ex file); reflexivity.
Qed.
Theorem tool_bwdepol : forall late ex l ty file root, says doc_bwdepol l ty [file] -> stem file root ->
  tool late bwdepol (main_bwdepol ex) (line_words l) = Told (if ex file then Ran (runs_bwdepol file root ty) else Ended).
Proof.
  intros late ex l ty file root S R. destruct (tool_doc bwdepol doc_bwdepol) as (Dc & U); [cbn; tauto|].
  destruct (parse_any late bwdepol doc_bwdepol l ty [file] [(s "dataFile", VList [VStr file])] Dc U) as (n & P & H); auto; [singles|fill|now apply no_group|].
  unfold tool. rewrite P. f_equal. unfold main_bwdepol. opts H. cbn [first_of text_of]. rewrite (stem_root _ _ R). destruct (ex file); reflexivity.
Qed.
Theorem tool_bwpredict : forall late readable l ty file, says doc_bwpredict l ty [file] ->
  tool late bwpredict (main_bwpredict readable) (line_words l) = Told (if readable file then Ran (runs_bwpredict file ty) else Raised).
Proof.
  intros late ex l ty file S. destruct (tool_doc bwpredict doc_bwpredict) as (Dc & U); [cbn; tauto|].
  destruct (parse_any late bwpredict doc_bwpredict l ty [file] [(s "dataFile", VList [VStr file])] Dc U) as (n & P & H); auto; [singles|fill|now apply no_group|].
  unfold tool. rewrite P. f_equal. unfold main_bwpredict. opts H. cbn [first_of text_of]. destruct (ex file); [|reflexivity]. cbn [negb]. unfold runs_bwpredict, opt_said. cbn [o_names o_default store].
  destruct (said ty [s "-f"] VNone); reflexivity.
Qed.
Theorem tool_rmsynth3d : forall late ex l ty q u freq dir, says doc_rmsynth3d l ty [q; u; freq] -> folder q dir ->
  tool late rmsynth3d (main_rmsynth3d ex) (line_words l) = Told (if ex q && ex u then Ran (runs_rmsynth3d q u freq dir ty) else Ended).
Proof.
  intros late ex l ty q u freq dir S Fd. rewrite <- (folder_dirname _ _ Fd). destruct (tool_doc rmsynth3d doc_rmsynth3d) as (Dc & U); [cbn; tauto|].
  destruct (parse_any late rmsynth3d doc_rmsynth3d l ty [q; u; freq] [(s "fitsQ", VList [VStr q]); (s "fitsU", VList [VStr u]); (s "freqFile", VList [VStr freq])] Dc U) as (n & P & H); auto; [singles|fill|now apply no_group|].
  unfold tool. rewrite P. f_equal. unfold main_rmsynth3d. cbv zeta beta. opts H. cbn [first_of text_of]. destruct (ex q && ex u); [|reflexivity]. cbn [negb]. unfold runs_rmsynth3d, opt_said. cbv zeta beta. cbn [o_names o_default store flag].
  destruct (said ty [s "-i"] VNone), (said ty [s "-n"] VNone); reflexivity.
Qed.
Theorem tool_rmclean3d : forall late ex parallel l ty fdf rmsf dir, says doc_rmclean3d l ty [fdf; rmsf] -> compatible rmclean3d ty -> folder fdf dir ->
  tool late rmclean3d (main_rmclean3d ex parallel) (line_words l) =
    Told (if shared ty && negb parallel then Raised
          else if ex fdf && ex rmsf then
            Ran (runs_rmclean3d fdf rmsf dir
                   (if shared ty then from "choose_pool" [opt_said ty "--mpi" (VBool false); opt_said ty "--ncores" (VInt 1)] else VNone)
                   (if several_cores ty then opt_said ty "--chunk" VNone else VNone) ty)
          else Ended).
Proof.
  intros late ex parallel l ty fdf rmsf dir S K Fd. rewrite <- (folder_dirname _ _ Fd). destruct (tool_doc rmclean3d doc_rmclean3d) as (Dc & U); [cbn; tauto|].
  destruct (parse_any late rmclean3d doc_rmclean3d l ty [fdf; rmsf] [(s "fitsFDF", VList [VStr fdf]); (s "fitsRMSF", VList [VStr rmsf])] Dc U) as (n & P & H); auto; [singles|fill|].
  unfold tool. rewrite P. f_equal. unfold main_rmclean3d. cbv zeta beta. opts H. cbn [first_of text_of]. cbn [o_names o_default store flag].
  unfold shared, several_cores, runs_rmclean3d, opt_said. cbv zeta beta.
  set (nc := said ty [s "--ncores"] (VInt 1)). set (ch := said ty [s "--chunk"] VNone). set (mp := said ty [s "--mpi"] (VBool false)).
  assert (G : given ch = negb (is_none ch)) by (destruct ch; reflexivity). rewrite G.
  assert (M : match nc with VInt z => Z.ltb 1 z | _ => false end = true -> match nc with VInt 1 => true | _ => false end = false).
  { destruct nc as [| | |z| | |]; try reflexivity. intros Z1. apply Z.ltb_lt in Z1. destruct z as [|[p|p|]|p]; try reflexivity; lia. }
  destruct (match nc with VInt z => Z.ltb 1 z | _ => false end).
  - rewrite M by reflexivity. cbn [negb orb]. destruct parallel; cbn [negb andb]; [|reflexivity]. destruct (ex fdf && ex rmsf); reflexivity.
  - rewrite andb_false_r. destruct (negb _ || negb (is_none ch) || is_true mp) eqn:Sh.
    + change (on mp) with (is_true mp). rewrite Sh. destruct parallel; cbn [negb andb]; [|reflexivity]. destruct (ex fdf && ex rmsf); reflexivity.
    + change (on mp) with (is_true mp). rewrite Sh. rewrite !andb_false_r. destruct (ex fdf && ex rmsf); reflexivity.
Qed.
