(** Command lines: optional positional arguments and those of several words; lines
    that are refused. *)
From Coq Require Import Reals List Arith ZArith Bool Ascii String Lia.
From Verif Require Import CBase PyRes PyStr PyStr_Proofs Pixfit_Model Pixfit_Proofs Cat_Model Cat_Spec Cl_Model Cl_Spec Cl_Words Cl_Parse Cl_Line.
Import ListNotations.
Local Notation length := List.length.
Local Notation Forall := List.Forall.
Local Open Scope list_scope.

Lemma items_run : forall late c D, documented c D -> usual c -> forall b ty, says D (map Opt b) ty [] ->
  exists ks, classify_all c (line_words (map Opt b)) = Some ks /\ args_ahead ks = [] /\
  forall st l, calm c (s_seen st) ty -> go late c st (ks ++ l) = go late c (appl c st ty) l.
Proof.
  intros late c D Dc U. induction b as [|i b IH]; intros ty H.
  - inversion H; subst. exists []. split; [reflexivity|]. split; [reflexivity|]. reflexivity.
  - cbn [map] in H. inversion H as [|i0 l0 ty1 t ws M H'|]; subst. destruct (IH t H') as (ks & E & _ & G).
    destruct (item_step late c D i ty1 Dc U M) as (k1 & E1 & (k & w & tl & Ek & Nk) & St). exists (k1 ++ ks). split.
    { cbn [map line_words flat_map]. fold (line_words (map Opt b)). now rewrite classify_app, E1, E. }
    split. { subst k1. destruct k; [congruence|reflexivity|reflexivity]. }
    intros st l K. rewrite <- app_assoc, (St st _ (calm_head _ _ _ _ K)), G by now apply calm_tail. unfold appl. now rewrite fold_left_app.
Qed.

Lemma filled_none : forall ps pv, filled ps [] pv -> Forall (fun p => p_num p = POpt) ps /\ drop_zeros (shares ps 0) = [] /\
  (forall d v, In (d, v) pv -> exists p, In p ps /\ p_dest p = d /\ default_of p v).
Proof.
  intros ps pv H. remember [] as ws eqn:E. induction H as [|p ps w ws v pv| p ps w ws v pv|p ps k w ws vs pv Pn L Z _ _ _|p ps v pv Pn Df _ IH]; try discriminate E.
  - repeat split; [constructor|]. intros d v [].
  - destruct w; [cbn in L; lia|discriminate E].
  - destruct (IH E) as (A & B & C). split; [now constructor|]. split; [cbn [shares]; rewrite Pn; cbn [drop_zeros]; now rewrite B|].
    intros d x [X|X]; [injection X as <- <-; exists p; repeat split; auto; now left|]. destruct (C d x X) as (q & I & Q). exists q. split; [now right|exact Q].
Qed.
Lemma drop_cons : forall n l, (0 < n)%nat -> drop_zeros (n :: l) = n :: drop_zeros l.
Proof. intros n l H. cbn [drop_zeros]. destruct (drop_zeros l); [|reflexivity]. now destruct n; [lia|]. Qed.

Lemma filled_take : forall (late : bool) ps ws pv, filled ps ws pv ->
  fold_right Nat.add 0%nat (shares ps (length ws)) = length ws /\
  forall st, s_pos st = ps -> NoDup (map p_dest ps) -> (forall p v, In p ps -> default_of p v -> dget (s_ns st) (p_dest p) = POk v) ->
  exists st', take_shares st (if late then drop_zeros (shares ps (length ws)) else shares ps (length ws)) ws = Some (st', []) /\
    existsb required (s_pos st') = false /\ s_extra st' = s_extra st /\ s_seen st' = s_seen st /\
    (forall d, ~ In d (map p_dest ps) -> dget (s_ns st') d = dget (s_ns st) d) /\
    (forall d v, In (d, v) pv -> dget (s_ns st') d = POk v) /\ (NoDup (map fst (s_ns st)) -> NoDup (map fst (s_ns st'))).
Proof.
  intros late ps ws pv H.
  assert (Step : forall p ps n w ws v pv,
    (fold_right Nat.add 0%nat (shares ps (length ws)) = length ws /\
     forall st, s_pos st = ps -> NoDup (map p_dest ps) -> (forall p v, In p ps -> default_of p v -> dget (s_ns st) (p_dest p) = POk v) ->
     exists st', take_shares st (if late then drop_zeros (shares ps (length ws)) else shares ps (length ws)) ws = Some (st', []) /\
      existsb required (s_pos st') = false /\ s_extra st' = s_extra st /\ s_seen st' = s_seen st /\
      (forall d, ~ In d (map p_dest ps) -> dget (s_ns st') d = dget (s_ns st) d) /\
      (forall d v, In (d, v) pv -> dget (s_ns st') d = POk v) /\ (NoDup (map fst (s_ns st)) -> NoDup (map fst (s_ns st')))) ->
    length w = n -> pos_value p w = Some v -> (0 < n)%nat \/ late = false -> shares (p :: ps) (length (w ++ ws)) = n :: shares ps (length ws) ->
    fold_right Nat.add 0%nat (shares (p :: ps) (length (w ++ ws))) = length (w ++ ws) /\
     forall st, s_pos st = p :: ps -> NoDup (map p_dest (p :: ps)) -> (forall q v, In q (p :: ps) -> default_of q v -> dget (s_ns st) (p_dest q) = POk v) ->
     exists st', take_shares st (if late then drop_zeros (shares (p :: ps) (length (w ++ ws))) else shares (p :: ps) (length (w ++ ws))) (w ++ ws) = Some (st', []) /\
      existsb required (s_pos st') = false /\ s_extra st' = s_extra st /\ s_seen st' = s_seen st /\
      (forall d, ~ In d (map p_dest (p :: ps)) -> dget (s_ns st') d = dget (s_ns st) d) /\
      (forall d x, In (d, x) ((p_dest p, v) :: pv) -> dget (s_ns st') d = POk x) /\ (NoDup (map fst (s_ns st)) -> NoDup (map fst (s_ns st')))).
  { clear. intros p ps n w ws v pv (Sm & IH) L V Z Sh. rewrite Sh. split; [cbn [fold_right]; rewrite Sm, app_length; lia|].
    intros st E N Df. cbn [map] in N. inversion N as [|? ? N1 N2]; subst.
    set (st1 := mk_state (dset (s_ns st) (p_dest p) v) ps (s_extra st) (s_seen st)).
    destruct (IH st1 eq_refl N2) as (st' & T & G1 & G2 & G3 & G4 & G5 & G6).
    { intros q x I Dq. unfold st1. cbn [s_ns]. rewrite dget_dset, str_eqb_neq; [apply Df; [now right|exact Dq]|]. intros X. apply N1. rewrite <- X. now apply in_map. }
    exists st'. split.
    { assert (X : (if late then drop_zeros (length w :: shares ps (length ws)) else length w :: shares ps (length ws)) = length w :: (if late then drop_zeros (shares ps (length ws)) else shares ps (length ws))).
      { destruct late; [|reflexivity]. destruct Z as [Z|Z]; [now apply drop_cons|discriminate Z]. }
      rewrite X. cbn [take_shares]. rewrite E, firstn_app, Nat.sub_diag, firstn_all, firstn_O, app_nil_r, V, skipn_app, Nat.sub_diag, skipn_all. exact T. }
    split; [exact G1|]. split; [exact G2|]. split; [exact G3|]. split; [|split].
    - intros d Nd. cbn [map] in Nd. rewrite G4 by (intros I; apply Nd; now right). unfold st1. cbn [s_ns]. rewrite dget_dset, str_eqb_neq; [reflexivity|]. intros ->. apply Nd. now left.
    - intros d x [X|I]; [|now apply G5]. injection X as <- <-. rewrite G4 by exact N1. unfold st1. cbn [s_ns]. now rewrite dget_dset, str_eqb_refl.
    - intros Nn. apply G6. unfold st1. cbn [s_ns]. now apply dset_nodup. }
  induction H as [|p ps w ws v pv Pn R H IH|p ps w ws v pv Pn R H IH|p ps k w ws vs pv Pn L Z R H IH|p ps v pv Pn Df H IH].
  - split; [reflexivity|]. intros st E _ _. exists st. assert (X : (if late then drop_zeros (shares [] (length (@nil str))) else shares [] (length (@nil str))) = []) by now destruct late.
    rewrite X, E. repeat split; auto. intros d v [].
  - apply (Step p ps 1%nat [w] ws v pv IH eq_refl); [|left; lia|].
    + unfold pos_value. destruct Pn as [-> | ->]; now apply conv_reads.
    + cbn [app List.length shares]. destruct Pn as [-> | ->]; reflexivity.
  - apply (Step p ps 1%nat [w] ws (VList [v]) pv IH eq_refl); [|left; lia|].
    + unfold pos_value. rewrite Pn. cbn [conv_all]. now rewrite (conv_reads _ _ _ R).
    + cbn [app List.length shares]. rewrite Pn. reflexivity.
  - apply (Step p ps k w ws (VList vs) pv IH L); [|left; exact Z|].
    + unfold pos_value. rewrite Pn. now rewrite (conv_all_reads _ _ _ R).
    + cbn [shares]. rewrite Pn, app_length, L. replace (k <=? k + length ws)%nat with true by (symmetry; apply Nat.leb_le; lia). do 2 f_equal. lia.
  - destruct late.
    + assert (Hn : filled (p :: ps) [] ((p_dest p, v) :: pv)) by now constructor. destruct (filled_none _ _ Hn) as (A & B & C). split.
      { cbn [List.length shares]. rewrite Pn. cbn [fold_right]. apply IH. }
      intros st E N Dd. exists st. change (length (@nil str)) with 0%nat. rewrite B. split; [reflexivity|]. repeat split; auto.
      * rewrite E. apply not_true_iff_false. intros X. apply existsb_exists in X. destruct X as (q & I & X). rewrite List.Forall_forall in A. unfold required in X. rewrite (A q I) in X. discriminate X.
      * intros d x I. destruct (C d x I) as (q & J & <- & Dq). now apply Dd.
    + apply (Step p ps 0%nat [] [] v pv IH eq_refl); [|now right|].
      * unfold pos_value. rewrite Pn. unfold default_of in Df. unfold pos_default. destruct (p_default p); try (now subst). now apply conv_reads.
      * cbn [app List.length shares]. now rewrite Pn.
Qed.

Lemma classify_args : forall c ws, usual c -> Forall plain ws -> classify_all c (line_words (map Arg ws)) = Some (plains ws).
Proof.
  intros c ws U P. replace (line_words (map Arg ws)) with ws; [now apply classify_plains|]. clear. induction ws as [|w ws IH]; [reflexivity|]. cbn. now f_equal.
Qed.
Lemma ahead_skip : forall ks, args_ahead ks = [] -> skipn (length (args_ahead ks)) ks = ks.
Proof. intros ks ->. reflexivity. Qed.

(** options before and after a block of words *)
Theorem parse_block : forall late c D a b ta tb ws pv, documented c D -> usual c -> says D (map Opt a) ta [] -> says D (map Opt b) tb [] ->
  Forall plain ws -> filled (c_pos c) ws pv -> compatible c (ta ++ tb) ->
  exists n, parse late c (line_words (map Opt a ++ map Arg ws ++ map Opt b)) = Parsed n /\ holds c (ta ++ tb) pv n.
Proof.
  intros late c D a b ta tb ws pv Dc U Ha Hb P F K. destruct (items_run late c D Dc U a ta Ha) as (ka & Ea & _ & Ga). destruct (items_run late c D Dc U b tb Hb) as (kb & Eb & Ab & Gb).
  destruct (defaults_spec c U) as (N & Do & Dp). assert (U' := U). destruct U' as (_ & U' & _). unfold all_dests in U'. apply nodup_app in U'. destruct U' as (U1 & U2 & U3).
  pose proof (compatible_calm c _ U K) as Cm. set (st0 := mk_state (defaults c) (c_pos c) false []).
  assert (C : classify_all c (line_words (map Opt a ++ map Arg ws ++ map Opt b)) = Some (ka ++ plains ws ++ kb)).
  { unfold line_words. rewrite !flat_map_app. fold (line_words (map Opt a)) (line_words (map Arg ws)) (line_words (map Opt b)). rewrite !classify_app, Ea, Eb, (classify_args c ws U P). reflexivity. }
  unfold parse. rewrite C. fold st0. change (run late c (S (length (ka ++ plains ws ++ kb))) st0 (ka ++ plains ws ++ kb)) with (go late c st0 (ka ++ plains ws ++ kb)).
  rewrite (Ga st0) by exact (calm_head _ _ _ _ Cm). set (st1 := appl c st0 ta). destruct (appl_pos c ta st0) as [P1 X1]. fold st1 in P1, X1. cbn [st0 s_pos s_extra] in P1, X1.
  assert (Q : forall p, In p (c_pos c) -> ~ In (p_dest p) (map o_dest (c_opts c))) by (intros p I J; apply (U3 _ J); now apply in_map).
  assert (D1 : forall p v, In p (s_pos st1) -> default_of p v -> dget (s_ns st1) (p_dest p) = POk v).
  { intros p v I Df. rewrite P1 in I. unfold st1. rewrite appl_look. rewrite lastval_other by now apply Q. cbn [st0 s_ns]. now apply Dp. }
  assert (T : exists st2, go late c st1 (plains ws ++ kb) = go late c st2 kb /\ existsb required (s_pos st2) = false /\ s_extra st2 = false /\ s_seen st2 = s_seen st1 /\
    (forall d, ~ In d (map p_dest (c_pos c)) -> dget (s_ns st2) d = dget (s_ns st1) d) /\
    (forall d v, In (d, v) pv -> dget (s_ns st2) d = POk v) /\ (NoDup (map fst (s_ns st1)) -> NoDup (map fst (s_ns st2)))).
  { destruct ws as [|w ws].
    - exists st1. split; [reflexivity|]. destruct (filled_none _ _ F) as (A & _ & B). repeat split; auto.
      + rewrite P1. apply not_true_iff_false. intros X. apply existsb_exists in X. destruct X as (q & I & X). rewrite List.Forall_forall in A. unfold required in X. rewrite (A q I) in X. discriminate X.
      + intros d v I. destruct (B d v I) as (q & J & <- & Dq). apply D1; [now rewrite P1|exact Dq].
    - cbn [plains map app]. fold (plains ws). rewrite go_arg. cbv zeta. rewrite ahead_plains, Ab, app_nil_r, skip_plains.
      set (lt := late && (fold_right Nat.add 0%nat (shares (s_pos st1) (length (w :: ws))) =? length (w :: ws))%nat && match kb with [] => false | _ => true end).
      destruct (filled_take lt _ _ _ F) as (_ & T). destruct (T st1 P1 U2) as (st2 & T2 & G1 & G2 & G3 & G4 & G5 & G6). { intros p v I. apply D1. now rewrite P1. }
      rewrite P1 in *. rewrite T2. exists st2. rewrite extra_false. repeat split; auto. now rewrite G2, X1. }
  destruct T as (st2 & T & G1 & G2 & G3 & G4 & G5 & G6). rewrite T.
  assert (B : go late c st2 kb = inl (appl c st2 tb)).
  { rewrite <- (app_nil_r kb). rewrite Gb; [reflexivity|]. rewrite G3. unfold st1. apply calm_tail. exact Cm. }
  rewrite B. destruct (appl_pos c tb st2) as [P3 X3]. rewrite P3, X3, G1, G2. cbn [orb]. eexists. split; [reflexivity|]. split; [|split].
  - intros o I A. apply dget_In. rewrite appl_look, G4 by (apply U3; now apply in_map). unfold st1. rewrite appl_look. cbn [st0 s_ns]. rewrite (Do o I A), (lastval_said c ta o _ U I), (lastval_said c tb o _ U I). f_equal.
    generalize (o_default o) as x. clear. induction ta as [|[n v] ta IH]; intros x; [reflexivity|]. cbn [app said]. apply IH.
  - intros [d v] I. apply dget_In. rewrite appl_look, lastval_other; [now apply G5|].
    assert (J : exists p, In p (c_pos c) /\ p_dest p = d).
    { clear - F I. induction F as [|p ps w ws v0 pv Pn R H IH|p ps w ws v0 pv Pn R H IH|p ps k w ws vs pv Pn L Z R H IH|p ps v0 pv Pn Df H IH]; [destruct I| | | |];
      (destruct I as [X|I]; [injection X as <- _; exists p; split; [now left|reflexivity]|destruct (IH I) as (q & A & B); exists q; split; [now right|exact B]]). }
    destruct J as (p & J & <-). now apply Q.
  - apply appl_nodup. apply G6. unfold st1. apply appl_nodup. exact N.
Qed.

(* ------------------------------------------------------------------ refused *)

Lemma shares_extra : forall l ws st st' over, take_shares st l ws = Some (st', over) -> s_extra st' = s_extra st.
Proof.
  induction l as [|n l IH]; intros ws st st' over H; cbn [take_shares] in H.
  - injection H as <- _. reflexivity.
  - destruct (s_pos st) as [|p ps]; [injection H as <- _; reflexivity|]. destruct (pos_value p (firstn n ws)); [|discriminate H]. apply IH in H. exact H.
Qed.
Lemma options_extra : forall c l st st', take_options c st l = inl st' -> s_extra st' = s_extra st.
Proof.
  intros c. induction l as [|[o ws] l IH]; intros st st' H; cbn [take_options] in H; [injection H as <-; reflexivity|].
  destruct (take_option c st o ws) as [st1|] eqn:E; [|discriminate H]. rewrite (IH _ _ H). unfold take_option in E. clear H IH.
  destruct (o_act o); try discriminate E; (destruct (opt_value o ws); [|discriminate E]; cbv zeta in E; match goal with H : context [if ?b then _ else _] |- _ => destruct b end; [discriminate E|injection E as <-; reflexivity]).
Qed.
Lemma run_extra : forall late c f st l st', run late c f st l = inl st' -> s_extra st = true -> s_extra st' = true.
Proof.
  intros late c. induction f as [|f IH]; intros st l st' H X; cbn [run] in H; [discriminate H|]. destruct l as [|[k w] t]; [now injection H as <-|]. destruct k as [|o n e|].
  - destruct (take_shares _ _ _) as [[st1 over]|] eqn:T; [|discriminate H]. apply IH in H; [exact H|]. cbn [s_extra]. rewrite (shares_extra _ _ _ _ _ T), X. reflexivity.
  - destruct (match e with None => _ | Some _ => _ end) as [[[fl o'] e']|]; [|discriminate H]. destruct e' as [x|].
    + destruct (_ =? _)%nat; [|discriminate H]. destruct (take_options _ _ _) as [st1|] eqn:T; [|discriminate H]. apply IH in H; [exact H|]. now rewrite (options_extra _ _ _ _ T).
    + destruct (_ =? _)%nat; [|discriminate H]. destruct (take_options _ _ _) as [st1|] eqn:T; [|discriminate H]. apply IH in H; [exact H|]. now rewrite (options_extra _ _ _ _ T).
  - apply IH in H; [exact H|reflexivity].
Qed.
Lemma ahead_stop : forall l1 k w l2, k <> KArg -> exists m, (length (args_ahead (l1 ++ (k, w) :: l2)) <= length l1)%nat /\
  skipn (length (args_ahead (l1 ++ (k, w) :: l2))) (l1 ++ (k, w) :: l2) = m ++ (k, w) :: l2 /\ (length m <= length l1)%nat.
Proof.
  intros l1 k w l2 N. assert (A : (length (args_ahead (l1 ++ (k, w) :: l2)) <= length l1)%nat).
  { induction l1 as [|[k1 w1] l1 IH]; cbn [app args_ahead]; [destruct k; [congruence|cbn; lia|cbn; lia]|]. destruct k1; cbn [List.length]; lia. }
  exists (skipn (length (args_ahead (l1 ++ (k, w) :: l2))) l1). split; [exact A|]. split; [|rewrite skipn_length; lia].
  rewrite skipn_app. replace (_ - length l1)%nat with 0%nat by lia. reflexivity.
Qed.
(** a word that is no argument is never skipped *)
Lemma run_reach : forall late c f st l1 k w l2 st', k <> KArg -> run late c f st (l1 ++ (k, w) :: l2) = inl st' ->
  exists f1 st1, run late c f1 st1 ((k, w) :: l2) = inl st'.
Proof.
  intros late c. induction f as [|f IH]; intros st l1 k w l2 st' N H; [discriminate H|]. destruct l1 as [|[k1 w1] l1]; [exists (S f), st; exact H|]. cbn [app run] in H. destruct k1 as [|o n e|].
  - destruct (take_shares _ _ _) as [[st1 over]|]; [|discriminate H]. cbn [args_ahead List.length skipn] in H. destruct (ahead_stop l1 k w l2 N) as (m & _ & E & _). rewrite E in H. now apply IH in H.
  - destruct (match e with None => _ | Some _ => _ end) as [[[fl o'] e']|]; [|discriminate H]. destruct e' as [x|].
    + destruct (_ =? _)%nat; [|discriminate H]. destruct (take_options _ _ _) as [st1|]; [|discriminate H]. now apply IH in H.
    + destruct (_ =? _)%nat eqn:L; [|discriminate H]. destruct (take_options _ _ _) as [st1|]; [|discriminate H]. apply Nat.eqb_eq in L.
      destruct (ahead_stop l1 k w l2 N) as (m & A & _ & _). rewrite firstn_length in L.
      assert (B : (nwords (o_act o') <= length l1)%nat) by lia. rewrite skipn_app in H. replace (nwords (o_act o') - length l1)%nat with 0%nat in H by lia. now apply IH in H.
  - now apply IH in H.
Qed.
Lemma parse_reach : forall late c a w b k n, k <> KArg -> classify c w = Some k -> parse late c (a ++ w :: b) = Parsed n ->
  exists kb f1 st1 st', classify_all c b = Some kb /\ run late c f1 st1 ((k, w) :: kb) = inl st' /\ s_extra st' = false.
Proof.
  intros late c a w b k n N E H. unfold parse in H. rewrite classify_app in H. destruct (classify_all c a) as [ka|]; [|discriminate H]. cbn [classify_all] in H. rewrite E in H.
  destruct (classify_all c b) as [kb|] eqn:Eb; [|discriminate H]. destruct (run _ _ _ _ _) as [st'|r] eqn:R.
  - destruct (existsb required (s_pos st') || s_extra st') eqn:X; [discriminate H|]. apply orb_false_iff in X. destruct (run_reach _ _ _ _ _ _ _ _ _ N R) as (f1 & st1 & G). exists kb, f1, st1, st'. split; [reflexivity|]. split; [exact G|apply X].
  - exfalso. subst r. clear E Eb. revert R.
    assert (O : forall l st, take_options c st l <> inr (Parsed n)).
    { induction l as [|[o ws] l IH]; intros st; cbn [take_options]; [discriminate|]. destruct (take_option c st o ws) as [st1|r] eqn:E; [apply IH|]. intros X. injection X as ->. unfold take_option in E.
      destruct (o_act o); try discriminate E; (destruct (opt_value o ws); [|discriminate E]; cbv zeta in E; match goal with H : context [if ?b then _ else _] |- _ => destruct b end; discriminate E). }
    assert (R : forall f st l, run late c f st l <> inr (Parsed n)); [|apply R]. clear - O.
    induction f as [|f IH]; intros st l; cbn [run]; [discriminate|]. destruct l as [|[k w] t]; [discriminate|]. destruct k as [|o nm e|].
    + destruct (take_shares _ _ _) as [[st1 over]|]; [apply IH|discriminate].
    + destruct (match e with None => _ | Some _ => _ end) as [[[fl o'] e']|]; [|discriminate]. destruct e' as [x|].
      * destruct (_ =? _)%nat; [|discriminate]. destruct (take_options _ _ _) as [st1|r] eqn:T; [apply IH|]. intros X. injection X as ->. now apply O in T.
      * destruct (_ =? _)%nat; [|discriminate]. destruct (take_options _ _ _) as [st1|r] eqn:T; [apply IH|]. intros X. injection X as ->. now apply O in T.
    + apply IH.
Qed.

(** an option nobody declared is never accepted *)
Theorem stray_refused : forall late c words w n, usual c -> stray c w -> In w words -> parse late c words <> Parsed n.
Proof.
  intros late c words w n U S I H. apply in_split in I. destruct I as (a & b & ->). destruct (parse_reach late c a w b KUnknown n) as (kb & f & st & st' & _ & R & X); auto; [discriminate|now apply word_stray|].
  destruct f as [|f]; [discriminate R|]. cbn [run] in R. apply run_extra in R; [congruence|reflexivity].
Qed.

Definition takes_words (t : takes) : nat := match t with On | Off => 0 | Several n _ => n | _ => 1 end.
(** an option with too few words after it, at the end or before another option *)
Theorem short_refused : forall late c D a m t ws b n, documented c D -> usual c -> listed D m t -> (length ws < takes_words t)%nat -> Forall plain ws ->
  (b = [] \/ exists x r, b = x :: r /\ In x (all_names c)) -> parse late c (a ++ m :: ws ++ b) <> Parsed n.
Proof.
  intros late c D a m t ws b n Dc U L Sh P B H. destruct (doc_opt c D m t Dc L) as (o & I & J & A).
  destruct (parse_reach late c a m (ws ++ b) (KOpt o m None) n) as (kb & f & st & st' & E & R & X); auto; [discriminate|now apply word_name|].
  rewrite classify_app, (classify_plains c ws U P) in E. destruct (classify_all c b) as [kb'|] eqn:Eb; [|discriminate E]. injection E as <-.
  assert (Ab : args_ahead kb' = []).
  { destruct B as [->|(x & r & -> & Ix)]; [injection Eb as <-; reflexivity|]. cbn [classify_all] in Eb. apply opt_named in Ix. destruct Ix as (o2 & I2 & J2). rewrite (word_name c o2 x U I2 J2) in Eb.
    destruct (classify_all c r); [|discriminate Eb]. injection Eb as <-. reflexivity. }
  destruct f as [|f]; [discriminate R|]. cbn [run] in R. rewrite ahead_plains, Ab, app_nil_r in R.
  assert (W : nwords (o_act o) = takes_words t) by (rewrite A; destruct t; reflexivity). rewrite W in R. rewrite firstn_length in R. replace (Nat.min (takes_words t) (length ws) =? takes_words t)%nat with false in R; [discriminate R|].
  symmetry. apply Nat.eqb_neq. lia.
Qed.

(* ------------------------------------------ the number of words, one for each *)

Definition over (st : state) : state := mk_state (s_ns st) (s_pos st) true (s_seen st).
Lemma go_over : forall late c st w l, s_pos st = [] -> go late c st ((KArg, w) :: l) = go late c (over st) l.
Proof.
  intros late c st w l E. assert (I : forall (b : bool) (x : list nat), (if b then x else x) = x) by (intros []; reflexivity). rewrite go_arg. cbv zeta. rewrite E. cbn [shares drop_zeros]. rewrite I. cbn [take_shares]. rewrite orb_true_r. fold (over st).
  destruct l as [|[k x] l]; [reflexivity|]. destruct k as [|o n e|]; [|reflexivity|reflexivity]. rewrite go_arg. cbv zeta. cbn [over s_pos]. rewrite E. cbn [shares drop_zeros]. rewrite I. cbn [take_shares args_ahead]. reflexivity.
Qed.
Lemma go_bad : forall late c st p ps w l, s_pos st = p :: ps -> single p -> Forall single ps -> pos_value p [w] = None -> go late c st ((KArg, w) :: l) = inr Refused.
Proof.
  intros late c st p ps w l E S F V. rewrite go_arg. cbv zeta.
  assert (Sh : shares (s_pos st) (length (w :: args_ahead l)) = 1%nat :: shares ps (length (args_ahead l))). { rewrite E. cbn [List.length shares]. destruct S as [-> | ->]; reflexivity. }
  rewrite Sh. set (b := _ && _). assert (T : forall q, take_shares st (1%nat :: q) (w :: args_ahead l) = None) by (intros q; cbn [take_shares]; rewrite E; cbn [firstn]; now rewrite V).
  destruct b; [rewrite drop_cons by lia|]; now rewrite T.
Qed.
Lemma line_count : forall late c D, documented c D -> usual c -> forall l ty ws, says D l ty ws ->
  exists ks, classify_all c (line_words l) = Some ks /\
  forall st, Forall single (s_pos st) -> calm c (s_seen st) ty ->
    go late c st ks = inr Refused \/
    exists st', go late c st ks = inl st' /\ s_pos st' = skipn (length ws) (s_pos st) /\ s_extra st' = s_extra st || (length (s_pos st) <? length ws)%nat.
Proof.
  intros late c D Dc U l ty ws H. induction H as [|i l ty t ws M _ (ks & Ek & IH)|w l t ws P _ (ks & Ek & IH)].
  - exists []. split; [reflexivity|]. intros st S _. right. exists st. split; [reflexivity|]. split; [reflexivity|]. cbn [List.length]. destruct (length (s_pos st)); cbn; now rewrite orb_false_r.
  - destruct (item_step late c D i ty Dc U M) as (k1 & E1 & _ & St). exists (k1 ++ ks). split.
    { cbn [line_words flat_map]. fold (line_words l). now rewrite classify_app, E1, Ek. }
    intros st S K. rewrite (St st ks (calm_head _ _ _ _ K)). destruct (appl_pos c ty st) as [Ap Ae]. specialize (IH (appl c st ty)). rewrite Ap, Ae in IH. apply IH; [exact S|now apply calm_tail].
  - exists ((KArg, w) :: ks). split.
    { cbn [line_words flat_map app]. fold (line_words l). cbn [classify_all]. now rewrite (word_plain c w U P), Ek. }
    intros st S K. destruct (s_pos st) as [|p ps] eqn:Ep.
    + rewrite (go_over late c st w ks Ep). specialize (IH (over st)). cbn [over s_pos s_seen s_extra] in IH. rewrite Ep in IH. destruct IH as [IH|(st' & G & G1 & G2)]; auto. right. exists st'. split; [exact G|]. split; [rewrite G1; now rewrite skipn_nil|].
      rewrite G2. cbn. now rewrite orb_true_r.
    + inversion S as [|? ? Sp Ss]; subst. destruct (pos_value p [w]) as [v|] eqn:V; [|left; now apply (go_bad late c st p ps)].
      rewrite (go_word late c st p ps v w ks Ep Sp Ss V). destruct (IH (mk_state (dset (s_ns st) (p_dest p) v) ps (s_extra st) (s_seen st)) Ss K) as [X|(st' & G & G1 & G2)]; [now left|]. right. exists st'. auto.
Qed.
(** too few or too many words *)
Theorem count_refused : forall late c D l ty ws, documented c D -> usual c -> Forall single (c_pos c) -> says D l ty ws -> compatible c ty -> length ws <> length (c_pos c) ->
  parse late c (line_words l) = Refused.
Proof.
  intros late c D l ty ws Dc U S H K N. destruct (line_count late c D Dc U l ty ws H) as (ks & E & G). unfold parse. rewrite E.
  destruct (G (mk_state (defaults c) (c_pos c) false []) S (compatible_calm c ty U K)) as [R|(st' & R & G1 & G2)]; unfold go in R; rewrite R; [reflexivity|].
  cbn [s_pos s_extra orb] in G1, G2. destruct (Nat.ltb_spec (length (c_pos c)) (length ws)) as [X|X]; [rewrite G2, orb_true_r; reflexivity|].
  replace (existsb required (s_pos st')) with true; [reflexivity|]. symmetry. rewrite G1.
  assert (Sk : Forall single (skipn (length ws) (c_pos c))). { clear - S. revert S. generalize (length ws). generalize (c_pos c). intros l n S. rewrite <- (firstn_skipn n l) in S. apply List.Forall_app in S. apply S. }
  assert (L : (0 < length (skipn (length ws) (c_pos c)))%nat) by (rewrite skipn_length; lia). destruct (skipn (length ws) (c_pos c)) as [|p ps]; [cbn in L; lia|]. inversion Sk as [|? ? [Y|Y] _]; subst; cbn [existsb]; unfold required; now rewrite Y.
Qed.
