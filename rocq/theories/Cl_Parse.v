(** Command lines: what a whole line is taken for. *)
From Coq Require Import Reals List Arith ZArith Bool Ascii String Lia.
From Verif Require Import CBase PyRes PyStr PyStr_Proofs Pixfit_Model Pixfit_Proofs Cat_Model Cat_Spec Cl_Model Cl_Spec Cl_Words.
Import ListNotations.
Local Notation length := List.length.
Local Notation Forall := List.Forall.
Local Open Scope list_scope.

(* -------------------------------------------------------------------- fuel *)

Lemma fuel_enough : forall late c f g st l, (length l < f)%nat -> (length l < g)%nat -> run late c f st l = run late c g st l.
Proof.
  intros late c. induction f as [|f IH]; intros g st l Hf Hg; [lia|]. destruct g as [|g]; [lia|]. cbn [run].
  destruct l as [|[k w] t]; [reflexivity|]. cbn [List.length] in *. destruct k as [|o n e|].
  - destruct (take_shares _ _ _) as [[st' over]|]; [|reflexivity]. apply IH; cbn [args_ahead List.length skipn]; rewrite skipn_length; lia.
  - destruct (match e with None => _ | Some _ => _ end) as [[[fl o'] e']|]; [|reflexivity].
    destruct e' as [x|].
    + destruct (_ =? _)%nat; [|reflexivity]. destruct (take_options _ _ _); [|reflexivity]. apply IH; lia.
    + destruct (_ =? _)%nat; [|reflexivity]. destruct (take_options _ _ _); [|reflexivity]. apply IH; rewrite skipn_length; lia.
  - apply IH; lia.
Qed.
Definition go late c st l := run late c (S (length l)) st l.
Lemma go_run : forall late c f st l, (length l < f)%nat -> run late c f st l = go late c st l.
Proof. intros. apply fuel_enough; cbn; lia. Qed.

Lemma classify_app : forall c a b, classify_all c (a ++ b) =
  match classify_all c a, classify_all c b with Some x, Some y => Some (x ++ y) | _, _ => None end.
Proof.
  intros c a b. induction a as [|w a IH]; cbn [app classify_all].
  - destruct (classify_all c b); reflexivity.
  - rewrite IH. destruct (classify c w); [|reflexivity]. destruct (classify_all c a); [|reflexivity]. destruct (classify_all c b); reflexivity.
Qed.
Definition plains (ws : list str) : list (kind * str) := map (fun w => (KArg, w)) ws.
Lemma classify_plains : forall c ws, usual c -> Forall plain ws -> classify_all c ws = Some (plains ws).
Proof. intros c ws U H. induction H as [|w ws P _ IH]; [reflexivity|]. cbn [classify_all plains map]. rewrite (word_plain c w U P). unfold plains in IH. now rewrite IH. Qed.
Lemma ahead_plains : forall ws l, args_ahead (plains ws ++ l) = ws ++ args_ahead l.
Proof. induction ws as [|w ws IH]; intros l; [reflexivity|]. cbn. f_equal. apply IH. Qed.
Lemma skip_plains : forall ws l, skipn (length ws) (plains ws ++ l) = l.
Proof. induction ws as [|w ws IH]; intros l; [reflexivity|]. apply IH. Qed.

(* ----------------------------------------------------------------- options *)

(** an option set, and several *)
Definition app1 (c : cmd) (st : state) (p : str * value) : state :=
  match find_opt c (fst p) with
  | Some o => mk_state (dset (s_ns st) (o_dest o) (snd p)) (s_pos st) (s_extra st)
                (if negb (same_object (snd p) (o_default o)) then o_dest o :: s_seen st else s_seen st)
  | None => st
  end.
Definition appl (c : cmd) (st : state) (ty : list (str * value)) : state := fold_left (app1 c) ty st.
Definition dests (c : cmd) (ty : list (str * value)) : list str :=
  flat_map (fun p => match find_opt c (fst p) with Some o => [o_dest o] | None => [] end) ty.
Definition calm (c : cmd) (seen : list str) (ty : list (str * value)) : Prop :=
  forall d e, In d (seen ++ dests c ty) -> In e (seen ++ dests c ty) -> In d (c_group c) -> In e (c_group c) -> d = e.

Lemma seen_app1 : forall c st p d, In d (s_seen (app1 c st p)) -> In d (s_seen st ++ dests c [p]).
Proof.
  intros c st p d. unfold app1, dests. cbn [flat_map]. rewrite app_nil_r. destruct (find_opt c (fst p)) as [o|]; [|now rewrite app_nil_r].
  cbn [s_seen]. rewrite in_app_iff. destruct (negb _); cbn; tauto.
Qed.
Lemma dests_app : forall c a b, dests c (a ++ b) = dests c a ++ dests c b.
Proof. intros. unfold dests. apply flat_map_app. Qed.
Lemma calm_head : forall c seen a b, calm c seen (a ++ b) -> calm c seen a.
Proof. intros c seen a b H d e I J. unfold calm in H. rewrite dests_app in H. apply H; rewrite !in_app_iff in *; tauto. Qed.
Lemma calm_step : forall c st p ty, calm c (s_seen st) (p :: ty) -> calm c (s_seen (app1 c st p)) ty.
Proof.
  intros c st p ty H d e I J. change (p :: ty) with ([p] ++ ty) in H. unfold calm in H. rewrite dests_app in H.
  apply H; rewrite !in_app_iff in *; [destruct I as [X|X]|destruct J as [X|X]]; try tauto; apply seen_app1 in X; rewrite in_app_iff in X; tauto.
Qed.
Lemma calm_tail : forall c a st b, calm c (s_seen st) (a ++ b) -> calm c (s_seen (appl c st a)) b.
Proof. intros c. induction a as [|p a IH]; intros st b H; [exact H|]. cbn [app appl fold_left] in *. apply IH. now apply calm_step. Qed.

Lemma take_one : forall c st n v o ws, find_opt c n = Some o -> o_act o <> ShowHelp -> opt_value o ws = Some v -> calm c (s_seen st) [(n, v)] ->
  take_option c st o ws = inl (app1 c st (n, v)).
Proof.
  intros c st n v o ws F A V K. unfold take_option, app1. cbn [fst snd]. rewrite F, V.
  assert (O : existsb (str_eqb (o_dest o)) (c_group c) = true -> existsb (fun d => negb (str_eqb d (o_dest o)) && existsb (str_eqb d) (c_group c)) (s_seen st) = false).
  { intros M. apply not_true_iff_false. intros X. apply existsb_exists in X. destruct X as (d & I & X). apply andb_true_iff in X. destruct X as [X Y].
    apply existsb_exists in M. destruct M as (m & Im & Em). apply str_eqb_eq in Em. subst m. apply existsb_exists in Y. destruct Y as (m & Id & Em). apply str_eqb_eq in Em. subst m.
    assert (E : d = o_dest o). { apply K; auto; rewrite in_app_iff; [now left|]. right. unfold dests. cbn [flat_map fst]. rewrite F. now left. }
    subst d. rewrite str_eqb_refl in X. discriminate X. }
  destruct (o_act o) eqn:Ea; try congruence; (destruct (existsb (str_eqb (o_dest o)) (c_group c)); [rewrite O by reflexivity; now rewrite andb_false_r|reflexivity]).
Qed.

(* -------------------------------------------------------------------- docs *)

Lemma doc_opt : forall c D n t, documented c D -> listed D n t -> exists o, In o (c_opts c) /\ In n (o_names o) /\ o_act o = act_of t.
Proof.
  intros c D n t (os & E & M & _) (names & I & J). apply (in_map (fun d => (fst d, act_of (snd d)))) in I. rewrite <- M in I. apply in_map_iff in I.
  destruct I as (o & X & I). cbn [fst snd] in X. injection X as X1 X2. exists o. rewrite E, X1, X2. split; [now right|auto].
Qed.
Lemma doc_simple : forall c D n k t, documented c D -> listed D n (Several k t) -> simple t.
Proof. intros c D n k t (os & _ & _ & F) (names & I & _). rewrite List.Forall_forall in F. exact (F _ I). Qed.
Lemma doc_name : forall c D n, documented c D -> In n (all_names c) -> n = s "-h" \/ n = s "--help" \/ exists t, listed D n t.
Proof.
  intros c D n (os & E & M & _) I. unfold all_names in I. rewrite E in I. cbn [flat_map help o_names] in I. apply in_app_or in I. destruct I as [I|I]; [destruct I as [<-|[<-|[]]]; auto|].
  right. right. apply in_flat_map in I. destruct I as (o & I & J). apply (in_map (fun o => (o_names o, o_act o))) in I. rewrite M in I. apply in_map_iff in I. destruct I as ([names t] & X & I). cbn [fst snd] in X. injection X as X1 X2.
  exists t, names. split; [exact I|]. now rewrite X1.
Qed.
Lemma act_help : forall t, act_of t <> ShowHelp.
Proof. intros []; discriminate. Qed.

Lemma reads_act : forall t w v, reads_as t w v -> exists q, act_of t = Store q /\ conv q w = Some v.
Proof.
  intros t w v R. assert (T : exists q, t = type_of q). { destruct t; cbn in R; try contradiction; [exists PStr|exists PInt|exists PFloat]; reflexivity. }
  destruct T as (q & ->). exists q. split; [destruct q; reflexivity|now apply conv_reads].
Qed.

Lemma go_option : forall late c st o n v ws w l, find_opt c n = Some o -> o_act o <> ShowHelp -> nwords (o_act o) = length ws -> opt_value o ws = Some v ->
  calm c (s_seen st) [(n, v)] -> go late c st ((KOpt o n None, w) :: plains ws ++ l) = go late c (app1 c st (n, v)) l.
Proof.
  intros late c st o n v ws w l F A N V K. unfold go at 1. cbn [run]. rewrite N, ahead_plains, skip_plains.
  rewrite firstn_app, Nat.sub_diag, firstn_all, firstn_O, app_nil_r, Nat.eqb_refl. cbn [map app take_options]. rewrite (take_one c st n v o ws F A V K).
  apply go_run. cbn [List.length]. rewrite app_length. lia.
Qed.
Lemma go_glued : forall late c st o n v x w l, find_opt c n = Some o -> nwords (o_act o) = 1%nat -> opt_value o [x] = Some v ->
  calm c (s_seen st) [(n, v)] -> go late c st ((KOpt o n (Some x), w) :: l) = go late c (app1 c st (n, v)) l.
Proof.
  intros late c st o n v x w l F N V K. unfold go at 1. cbn [run]. rewrite N. cbn [Nat.eqb]. rewrite andb_false_r.
  assert (B : unbundle c o x = Some ([], o, Some x)) by (destruct x; cbn [unbundle]; rewrite N; reflexivity). rewrite B, N. cbn [List.length Nat.eqb map app take_options].
  assert (A : o_act o <> ShowHelp) by (intros A; rewrite A in N; discriminate N).
  rewrite (take_one c st n v o [x] F A V K). apply go_run. cbn. lia.
Qed.

(** several flags in one word *)
Definition flag_as (D : docs) (a : ascii) (p : str * value) : Prop :=
  fst p = ["-"%char; a] /\ ((listed D (fst p) On /\ snd p = VBool true) \/ (listed D (fst p) Off /\ snd p = VBool false)).
Lemma flag_opt : forall c D a p, documented c D -> usual c -> flag_as D a p ->
  exists o, In o (c_opts c) /\ In ["-"%char; a] (o_names o) /\ find_opt c ["-"%char; a] = Some o /\ nwords (o_act o) = 0%nat /\ o_act o <> ShowHelp /\ opt_value o [] = Some (snd p).
Proof.
  intros c D a [n v] Dc U (E & H). cbn [fst snd] in *. subst n.
  assert (X : exists t, listed D ["-"%char; a] t /\ ((t = On /\ v = VBool true) \/ (t = Off /\ v = VBool false))) by (destruct H as [[L ->]|[L ->]]; eauto).
  destruct X as (t & L & Ht). destruct (doc_opt c D _ t Dc L) as (o & I & J & A). exists o. split; [exact I|]. split; [exact J|]. split; [now apply find_declared; try apply U|].
  unfold opt_value. rewrite A. destruct Ht as [[-> ->]|[-> ->]]; cbn; repeat split; congruence.
Qed.
Lemma unbundle_flags : forall c D cs ty o p a0, documented c D -> usual c -> flag_as D a0 p -> find_opt c ["-"%char; a0] = Some o -> nwords (o_act o) = 0%nat ->
  cs <> [] -> Forall2 (flag_as D) cs ty ->
  exists fl last ty1 tl, unbundle c o cs = Some (fl, last, None) /\ ty = ty1 ++ [tl] /\ nwords (o_act last) = 0%nat /\
    Forall2 (fun f q => find_opt c (fst q) = Some f /\ o_act f <> ShowHelp /\ opt_value f [] = Some (snd q)) (fl ++ [last]) (p :: ty).
Proof.
  intros c D cs. induction cs as [|x cs IH]; intros ty o p a0 Dc U P F N NE H; [congruence|]. inversion H as [|? q ? ty' Q R]; subst. cbn [unbundle]. rewrite N.
  destruct (flag_opt c D a0 p Dc U P) as (o0 & _ & _ & F0 & _ & A0 & V0). rewrite F in F0. injection F0 as <-.
  destruct (flag_opt c D x q Dc U Q) as (o' & _ & _ & F' & N' & A' & V'). change dash with "-"%char. rewrite F'.
  assert (E0 : fst p = ["-"%char; a0]) by apply P. assert (E1 : fst q = ["-"%char; x]) by apply Q.
  destruct cs as [|y cs].
  - inversion R; subst. exists [o], o', [], q. split; [reflexivity|]. split; [reflexivity|]. split; [exact N'|]. cbn. constructor; [rewrite E0; auto|]. constructor; [rewrite E1; auto|constructor].
  - destruct (IH ty' o' q x Dc U Q F' N' ltac:(discriminate) R) as (fl & last & ty1 & tl & E & E2 & NL & G). rewrite E. exists (o :: fl), last, (q :: ty1), tl. split; [reflexivity|]. split; [cbn; now rewrite E2|]. split; [exact NL|].
    cbn [app]. constructor; [rewrite E0; auto|exact G].
Qed.
Lemma take_flags : forall c fl ty st, Forall2 (fun f (q : str * value) => find_opt c (fst q) = Some f /\ o_act f <> ShowHelp /\ opt_value f [] = Some (snd q)) fl ty ->
  calm c (s_seen st) ty -> take_options c st (map (fun f => (f, [])) fl) = inl (appl c st ty).
Proof.
  intros c fl ty st H. revert st. induction H as [|f q fl ty (F & A & V) _ IH]; intros st K; [reflexivity|]. cbn [map take_options appl fold_left].
  destruct q as [n v]. cbn [fst snd] in *. rewrite (take_one c st n v f [] F A V) by (change ((n, v) :: ty) with ([(n, v)] ++ ty) in K; now apply calm_head in K).
  apply IH. now apply calm_step.
Qed.

(** one item *)
Theorem item_step : forall late c D i ty, documented c D -> usual c -> means D i ty ->
  exists ks, classify_all c (words_of i) = Some ks /\ (exists k w t, ks = (k, w) :: t /\ k <> KArg) /\
    forall st l, calm c (s_seen st) ty -> go late c st (ks ++ l) = go late c (appl c st ty) l.
Proof.
  intros late c D i ty Dc U M.
  assert (W : forall n t o ws vs, listed D n t -> In o (c_opts c) -> In n (o_names o) -> o_act o = act_of t -> Forall plain ws -> nwords (act_of t) = length ws -> opt_value o ws = Some vs ->
    exists ks, classify_all c (n :: ws) = Some ks /\ (exists k w t, ks = (k, w) :: t /\ k <> KArg) /\ forall st l, calm c (s_seen st) [(n, vs)] -> go late c st (ks ++ l) = go late c (appl c st [(n, vs)]) l).
  { intros n t o ws vs L I J A P N V. exists ((KOpt o n None, n) :: plains ws). split; [|split].
    - cbn [classify_all]. rewrite (word_name c o n U I J). now rewrite (classify_plains c ws U P).
    - exists (KOpt o n None), n, (plains ws). split; [reflexivity|discriminate].
    - intros st l K. cbn [app appl fold_left]. apply go_option; auto.
      + now apply find_declared; try apply U.
      + rewrite A. apply act_help.
      + now rewrite A. }
  destruct M as [n L|n L|n t w v L P R|n k t ws vs L E P R|a t b w v L Na R Q S|n t w v L R|cs l H2 Nd S F].
  - destruct (doc_opt c D n On Dc L) as (o & I & J & A). apply (W n On o [] (VBool true) L I J A); [constructor|reflexivity|]. unfold opt_value. now rewrite A.
  - destruct (doc_opt c D n Off Dc L) as (o & I & J & A). apply (W n Off o [] (VBool false) L I J A); [constructor|reflexivity|]. unfold opt_value. now rewrite A.
  - destruct (doc_opt c D n t Dc L) as (o & I & J & A). destruct (reads_act t w v R) as (q & A' & V). apply (W n t o [w] v L I J A); [constructor; [exact P|constructor]|now rewrite A'|]. unfold opt_value. now rewrite A, A'.
  - destruct (doc_opt c D n _ Dc L) as (o & I & J & A). apply (W n _ o ws (VList vs) L I J A P); [cbn; congruence|]. unfold opt_value. rewrite A. cbn [act_of].
    pose proof (doc_simple c D n k t Dc L) as Sm. replace (conv_all _ ws) with (Some vs); [reflexivity|]. symmetry.
    destruct t; cbn in Sm; try contradiction; [apply (conv_all_reads PStr)|apply (conv_all_reads PInt)|apply (conv_all_reads PFloat)]; exact R.
  - destruct (doc_opt c D _ t Dc L) as (o & I & J & A). destruct (reads_act t _ v R) as (q & A' & V).
    exists [(KOpt o ["-"%char; a] (Some (b :: w)), "-"%char :: a :: b :: w)]. split; [|split].
    + cbn [words_of app classify_all]. rewrite (word_short c o a b w U I J Na); [reflexivity| |].
      * intros [X|X]; [|now apply Q]. destruct (good_cases c _ U (proj2 (opt_named c _) (ex_intro _ o (conj I J)))) as (x & y & Ex & _ & _ & G). apply G. rewrite X. right. now left.
      * intros n y In0 ->. destruct (doc_name c D _ Dc In0) as [X|[X|(t' & X)]]; [discriminate X| |now apply (S _ t' y X)]. injection X as X _. congruence.
    + eexists _, _, _. split; [reflexivity|discriminate].
    + intros st l K. cbn [app appl fold_left]. apply go_glued; auto; [now apply find_declared; try apply U|now rewrite A, A'|]. unfold opt_value. now rewrite A, A'.
  - destruct (doc_opt c D n t Dc L) as (o & I & J & A). destruct (reads_act t w v R) as (q & A' & V).
    exists [(KOpt o n (Some w), n ++ s "=" ++ w)]. split; [|split].
    + cbn [words_of classify_all]. now rewrite (word_equals c o n w U I J).
    + eexists _, _, _. split; [reflexivity|discriminate].
    + intros st l K. cbn [app appl fold_left]. apply go_glued; auto; [now apply find_declared; try apply U|now rewrite A, A'|]. unfold opt_value. now rewrite A, A'.
  - change (Forall2 (flag_as D) cs l) in F. destruct cs as [|a [|b cs]]; cbn [List.length] in H2; try lia. inversion F as [|? p ? l' P F']; subst.
    destruct (flag_opt c D a p Dc U P) as (o & I & J & Fo & N & A & V).
    destruct (unbundle_flags c D (b :: cs) l' o p a Dc U P Fo N ltac:(discriminate) F') as (fl & last & ty1 & tl & E & E2 & NL & G).
    exists [(KOpt o ["-"%char; a] (Some (b :: cs)), "-"%char :: a :: b :: cs)]. split; [|split].
    + cbn [words_of app classify_all s list_ascii_of_string]. rewrite (word_short c o a b cs U I J); [reflexivity| | |].
      * intros ->. apply Nd. now left.
      * intros X. assert (Y : exists q, flag_as D "="%char q).
        { clear - F X. revert l' F X. generalize (a :: b :: cs) as xs. intros xs l' F X.
          assert (Z : forall xs ys, Forall2 (flag_as D) xs ys -> In "="%char xs -> exists q, flag_as D "="%char q).
          { clear. intros xs ys H. induction H as [|x y xs ys H _ IH]; intros [].
            - subst. eauto.
            - auto. }
          exact (Z xs (p :: l') F X). }
        destruct Y as (q & Y). destruct (flag_opt c D _ q Dc U Y) as (o2 & I2 & J2 & _). destruct (good_cases c _ U (proj2 (opt_named c _) (ex_intro _ o2 (conj I2 J2)))) as (x & y & _ & _ & _ & G2). apply G2. right. now left.
      * intros n y In0 ->. destruct (doc_name c D _ Dc In0) as [X|[X|(t' & X)]]; [discriminate X| |now apply (S _ t' y X)]. injection X as X _. apply Nd. left. exact X.
    + eexists _, _, _. split; [reflexivity|discriminate].
    + intros st l K. unfold go at 1. cbn [app run]. assert (SD : second_dash ["-"%char; a] = false). { cbn. apply ch_eqb_neq. intros ->. apply Nd. now left. }
      rewrite SD. cbn [andb]. rewrite E, NL. cbn [firstn List.length Nat.eqb skipn].
      replace (map (fun f => (f, [])) fl ++ [(last, [])]) with (map (fun f : opt => (f, @nil str)) (fl ++ [last])) by (now rewrite map_app).
      rewrite (take_flags c (fl ++ [last]) (p :: l') st G K). apply go_run. cbn. lia.
Qed.
