(** Command lines: options and positional arguments together. *)
From Coq Require Import Reals List Arith ZArith Bool Ascii String Lia.
From Verif Require Import CBase PyRes PyStr PyStr_Proofs Pixfit_Model Pixfit_Proofs Cat_Model Cat_Spec Cl_Model Cl_Spec Cl_Words Cl_Parse.
Import ListNotations.
Local Notation length := List.length.
Local Notation Forall := List.Forall.
Local Open Scope list_scope.

Definition single (p : pos) : Prop := p_num p = POne \/ p_num p = PList1.

(* ------------------------------------------------------------- name spaces *)

Fixpoint lastval (c : cmd) (ty : list (str * value)) (d : str) (r : pyres value) : pyres value :=
  match ty with
  | [] => r
  | (n, v) :: ty => lastval c ty d (match find_opt c n with Some o => if str_eqb d (o_dest o) then POk v else r | None => r end)
  end.
Lemma appl_look : forall c ty st d, dget (s_ns (appl c st ty)) d = lastval c ty d (dget (s_ns st) d).
Proof.
  intros c. induction ty as [|[n v] ty IH]; intros st d; [reflexivity|]. cbn [appl fold_left lastval]. fold (appl c (app1 c st (n, v)) ty). rewrite IH. f_equal.
  unfold app1. cbn [fst snd]. destruct (find_opt c n) as [o|]; [|reflexivity]. cbn [s_ns]. apply dget_dset.
Qed.
Lemma appl_pos : forall c ty st, s_pos (appl c st ty) = s_pos st /\ s_extra (appl c st ty) = s_extra st.
Proof.
  intros c. induction ty as [|p ty IH]; intros st; [auto|]. cbn [appl fold_left]. fold (appl c (app1 c st p) ty). destruct (IH (app1 c st p)) as [A B]. rewrite A, B.
  unfold app1. destruct (find_opt c (fst p)); auto.
Qed.
Lemma appl_nodup : forall c ty st, NoDup (map fst (s_ns st)) -> NoDup (map fst (s_ns (appl c st ty))).
Proof.
  intros c. induction ty as [|p ty IH]; intros st N; [exact N|]. cbn [appl fold_left]. apply IH. unfold app1. destruct (find_opt c (fst p)); [|exact N]. now apply dset_nodup.
Qed.
Lemma lastval_other : forall c ty d r, ~ In d (map o_dest (c_opts c)) -> lastval c ty d r = r.
Proof.
  intros c. induction ty as [|[n v] ty IH]; intros d r N; [reflexivity|]. cbn [lastval]. rewrite IH by exact N. destruct (find_opt c n) as [o|] eqn:F; [|reflexivity].
  rewrite str_eqb_neq; [reflexivity|]. intros ->. apply N. apply in_map. unfold find_opt in F. apply find_some in F. apply F.
Qed.
Lemma nodup_app : forall {A} (a b : list A), NoDup (a ++ b) -> NoDup a /\ NoDup b /\ forall x, In x a -> ~ In x b.
Proof.
  intros A a b. induction a as [|x a IH]; intros N; [repeat split; auto; constructor|]. inversion N as [|? ? N1 N2]; subst. destruct (IH N2) as (A1 & A2 & A3).
  split; [constructor; auto; intros I; apply N1; apply in_or_app; auto|]. split; [exact A2|]. intros y [->|I]; [|now apply A3]. intros J. apply N1. apply in_or_app. auto.
Qed.
Lemma nodup_map_inj : forall {A B} (f : A -> B) l a b, NoDup (map f l) -> In a l -> In b l -> f a = f b -> a = b.
Proof.
  intros A B f l. induction l as [|x l IH]; intros a b N I J E; [destruct I|]. cbn in N. inversion N as [|? ? N1 N2]; subst.
  destruct I as [->|I], J as [->|J]; auto; exfalso; apply N1; [rewrite E|rewrite <- E]; now apply in_map.
Qed.
Lemma lastval_said : forall c ty o v, usual c -> In o (c_opts c) -> lastval c ty (o_dest o) (POk v) = POk (said ty (o_names o) v).
Proof.
  intros c ty o v U I. revert v. induction ty as [|[n x] ty IH]; intros v; [reflexivity|]. cbn [lastval said].
  assert (E : match find_opt c n with Some o0 => if str_eqb (o_dest o) (o_dest o0) then POk x else POk v | None => POk v end =
    POk (if existsb (fun m => if list_eq_dec ascii_dec n m then true else false) (o_names o) then x else v)).
  { destruct (existsb (fun m => if list_eq_dec ascii_dec n m then true else false) (o_names o)) eqn:X.
    - apply existsb_exists in X. destruct X as (m & J & X). destruct (list_eq_dec ascii_dec n m) as [->|]; [|discriminate X].
      destruct U as (U & _). rewrite (find_declared c o m U I J). now rewrite str_eqb_refl.
    - destruct (find_opt c n) as [o0|] eqn:F; [|reflexivity]. destruct (str_eqb (o_dest o) (o_dest o0)) eqn:Y; [|reflexivity]. exfalso. apply str_eqb_eq in Y.
      unfold find_opt in F. apply find_some in F. destruct F as [I0 F]. apply existsb_exists in F. destruct F as (m & J & F). apply str_eqb_eq in F. subst m.
      destruct U as (_ & U & _). unfold all_dests in U. apply nodup_app in U. destruct U as (U & _). rewrite <- (nodup_map_inj o_dest _ o o0 U I I0 Y) in J.
      apply not_true_iff_false in X. apply X. apply existsb_exists. exists n. split; [exact J|]. destruct (list_eq_dec ascii_dec n n); congruence. }
  rewrite E. apply IH.
Qed.

(* ---------------------------------------------- single words, in any place *)

Lemma shares_single : forall ps k, Forall single ps -> drop_zeros (shares ps k) = shares ps k.
Proof.
  intros ps k H. revert k. induction H as [|p ps S _ IH]; intros k; [reflexivity|]. cbn [shares]. assert (E : (match p_num p with POne | PList1 => match k with O => [] | S k => 1%nat :: shares ps k end | POpt => match k with O => 0%nat :: shares ps 0 | S k => 1%nat :: shares ps k end | PMany n => if (n <=? k)%nat then n :: shares ps (k - n) else [] end) = match k with O => [] | S k => 1%nat :: shares ps k end) by (destruct S as [-> | ->]; reflexivity).
  rewrite E. destruct k as [|k]; [reflexivity|]. cbn [drop_zeros]. rewrite IH. now destruct (shares ps k).
Qed.
Lemma shares_zero : forall ps, Forall single ps -> shares ps 0 = [].
Proof. intros ps [|p l [E|E] _]; cbn [shares]; try rewrite E; reflexivity. Qed.
Lemma extra_false : forall st, mk_state (s_ns st) (s_pos st) (s_extra st || false) (s_seen st) = st.
Proof. intros []. cbn. now rewrite orb_false_r. Qed.
Lemma take_none : forall st, take_shares st [] [] = Some (st, []).
Proof. intros st. reflexivity. Qed.
Lemma go_arg : forall late c st w l, go late c st ((KArg, w) :: l) =
  let ws := w :: args_ahead l in
  let rest := skipn (length (args_ahead l)) l in
  let sh := shares (s_pos st) (length ws) in
  match take_shares st (if late && (fold_right Nat.add 0 sh =? length ws)%nat && match rest with [] => false | _ => true end then drop_zeros sh else sh) ws with
  | None => inr Refused
  | Some (st, over) => go late c (mk_state (s_ns st) (s_pos st) (s_extra st || match over with [] => false | _ => true end) (s_seen st)) rest
  end.
Proof.
  intros late c st w l. unfold go at 1. cbn [run]. change (args_ahead ((KArg, w) :: l)) with (w :: args_ahead l). cbv zeta. cbn [List.length skipn].
  destruct (take_shares _ _ _) as [[st' over]|]; [|reflexivity]. apply go_run. rewrite skipn_length. lia.
Qed.
Lemma go_word : forall late c st p ps v w l, s_pos st = p :: ps -> single p -> Forall single ps -> pos_value p [w] = Some v ->
  go late c st ((KArg, w) :: l) = go late c (mk_state (dset (s_ns st) (p_dest p) v) ps (s_extra st) (s_seen st)) l.
Proof.
  intros late c st p ps v w l E S F V. set (st1 := mk_state _ ps _ _).
  assert (Sh : shares (s_pos st) (length (w :: args_ahead l)) = 1%nat :: shares ps (length (args_ahead l))).
  { rewrite E. cbn [List.length shares]. destruct S as [-> | ->]; reflexivity. }
  assert (Z : drop_zeros (1%nat :: shares ps (length (args_ahead l))) = 1%nat :: shares ps (length (args_ahead l))) by (cbn [drop_zeros]; rewrite (shares_single ps _ F); now destruct (shares ps _)).
  assert (T : take_shares st (1%nat :: shares ps (length (args_ahead l))) (w :: args_ahead l) = take_shares st1 (shares ps (length (args_ahead l))) (args_ahead l)).
  { cbn [take_shares]. rewrite E. cbn [firstn skipn]. now rewrite V. }
  assert (I : forall (b : bool) (x : list nat), (if b then x else x) = x) by (intros []; reflexivity).
  rewrite go_arg. cbv zeta. rewrite Sh, Z, I, T.
  destruct l as [|[k x] l].
  - cbn [args_ahead List.length skipn]. rewrite (shares_zero ps F), take_none, extra_false. reflexivity.
  - destruct k as [|o n e|].
    + rewrite go_arg. cbv zeta. change (args_ahead ((KArg, x) :: l)) with (x :: args_ahead l). change (s_pos st1) with ps. rewrite (shares_single ps _ F), I. reflexivity.
    + cbn [args_ahead List.length skipn]. rewrite (shares_zero ps F), take_none, extra_false. reflexivity.
    + cbn [args_ahead List.length skipn]. rewrite (shares_zero ps F), take_none, extra_false. reflexivity.
Qed.

Lemma line_any : forall late c D, documented c D -> usual c -> forall l ty ws, says D l ty ws ->
  exists ks, classify_all c (line_words l) = Some ks /\
  forall st pv, Forall single (s_pos st) -> filled (s_pos st) ws pv -> calm c (s_seen st) ty ->
    (forall p, In p (s_pos st) -> ~ In (p_dest p) (map o_dest (c_opts c))) -> NoDup (map p_dest (s_pos st)) ->
    exists st', go late c st ks = inl st' /\ s_pos st' = [] /\ s_extra st' = s_extra st /\
      (forall d, ~ In d (map p_dest (s_pos st)) -> dget (s_ns st') d = lastval c ty d (dget (s_ns st) d)) /\
      (forall d v, In (d, v) pv -> dget (s_ns st') d = POk v) /\
      (NoDup (map fst (s_ns st)) -> NoDup (map fst (s_ns st'))).
Proof.
  intros late c D Dc U l ty ws H. induction H as [|i l ty t ws M _ (ks & Ek & IH)|w l t ws P _ (ks & Ek & IH)].
  - exists []. split; [reflexivity|]. intros st pv S F _ _ _. exists st. split; [reflexivity|].
    assert (X : s_pos st = [] /\ pv = []).
    { clear -S F. destruct (s_pos st) as [|p ps]; [inversion F; auto|]. exfalso. inversion S as [|? ? Sp _]; subst. inversion F as [| | |p0 ps0 k w0 ws0 vs pv0 Pk|p0 ps0 v pv0 Pk]; subst; destruct Sp; congruence. }
    destruct X as [X ->]. repeat split; auto. intros d v [].
  - destruct (item_step late c D i ty Dc U M) as (k1 & E1 & _ & St). exists (k1 ++ ks). split.
    { cbn [line_words flat_map]. fold (line_words l). rewrite classify_app, E1, Ek. reflexivity. }
    intros st pv S F K Dj N. rewrite (St st ks (calm_head _ _ _ _ K)). destruct (appl_pos c ty st) as [Ap Ae].
    destruct (IH (appl c st ty) pv) as (st' & G & G1 & G2 & G3 & G4 & G5); try (rewrite Ap; assumption). { now apply calm_tail. }
    exists st'. split; [exact G|]. split; [exact G1|]. split; [congruence|]. split; [|split; [exact G4|]].
    + intros d Nd. rewrite G3 by (rewrite Ap; exact Nd). rewrite appl_look. clear. generalize (dget (s_ns st) d) as r. induction ty as [|[n v] ty IHt]; intros r; [reflexivity|]. cbn [app lastval]. apply IHt.
    + intros Nn. apply G5. now apply appl_nodup.
  - exists ((KArg, w) :: ks). split.
    { cbn [line_words flat_map app]. fold (line_words l). cbn [classify_all]. now rewrite (word_plain c w U P), Ek. }
    intros st pv S F K Dj N. destruct (s_pos st) as [|p ps] eqn:Ep; [inversion F|]. inversion S as [|? ? Sp Ss]; subst.
    assert (X : exists v pv', pos_value p [w] = Some v /\ filled ps ws pv' /\ pv = (p_dest p, v) :: pv').
    { inversion F as [|p0 ps0 w0 ws0 v pv' Pn R F'|p0 ps0 w0 ws0 v pv' Pn R F'|p0 ps0 k w0 ws0 vs pv' Pk|]; subst.
      - exists v, pv'. split; [|auto]. unfold pos_value. destruct Pn as [-> | Pn]; [now apply conv_reads|]. destruct Sp; congruence.
      - exists (VList [v]), pv'. split; [|auto]. unfold pos_value. rewrite Pn. cbn [conv_all]. now rewrite (conv_reads _ _ _ R).
      - destruct Sp; congruence. }
    destruct X as (v & pv' & V & F' & ->). rewrite (go_word late c st p ps v w ks Ep Sp Ss V). set (st1 := mk_state _ ps _ _). cbn [map] in N. inversion N as [|? ? N1 N2]; subst.
    destruct (IH st1 pv') as (st' & G & G1 & G2 & G3 & G4 & G5); auto. { intros q Iq. apply Dj. now right. }
    exists st'. split; [exact G|]. split; [exact G1|]. split; [exact G2|]. split; [|split].
    + intros d Nd. cbn [map] in Nd. rewrite G3 by (intros I; apply Nd; now right). f_equal. unfold st1. cbn [s_ns]. rewrite dget_dset, str_eqb_neq; [reflexivity|]. intros ->. apply Nd. now left.
    + intros d x [E|I]; [|now apply G4]. injection E as <- <-. rewrite G3 by exact N1. rewrite lastval_other by (apply Dj; now left). unfold st1. cbn [s_ns]. now rewrite dget_dset, str_eqb_refl.
    + intros Nn. apply G5. unfold st1. cbn [s_ns]. now apply dset_nodup.
Qed.

(* ---------------------------------------------------------------- defaults *)

Lemma fold_dset : forall {A} (f : A -> str) (g : A -> value) l n d,
  NoDup (map f l) -> dget (fold_left (fun n x => dset n (f x) (g x)) l n) d = match find (fun x => str_eqb d (f x)) l with Some x => POk (g x) | None => dget n d end.
Proof.
  intros A f g. induction l as [|x l IH]; intros n d N; [reflexivity|]. cbn [map] in N. inversion N as [|? ? N1 N2]; subst. cbn [fold_left find]. rewrite (IH _ _ N2).
  destruct (str_eqb d (f x)) eqn:E.
  - apply str_eqb_eq in E. subst d. destruct (find _ l) as [y|] eqn:Fd.
    + apply find_some in Fd. destruct Fd as [I Y]. apply str_eqb_eq in Y. exfalso. apply N1. rewrite Y. now apply in_map.
    + now rewrite dget_dset, str_eqb_refl.
  - destruct (find _ l); [reflexivity|]. now rewrite dget_dset, E.
Qed.
Lemma find_key : forall {A} (f : A -> str) l x, NoDup (map f l) -> In x l -> find (fun y => str_eqb (f x) (f y)) l = Some x.
Proof.
  intros A f l x N I. destruct (find _ l) as [y|] eqn:E.
  - apply find_some in E. destruct E as [J E]. apply str_eqb_eq in E. f_equal. eapply nodup_map_inj; eauto.
  - exfalso. apply (List.find_none _ _ E) in I. now rewrite str_eqb_refl in I.
Qed.
Lemma find_nokey : forall {A} (f : A -> str) l d, ~ In d (map f l) -> find (fun y => str_eqb d (f y)) l = None.
Proof.
  intros A f l d N. destruct (find _ l) as [y|] eqn:E; [|reflexivity]. apply find_some in E. destruct E as [J E]. apply str_eqb_eq in E. exfalso. apply N. rewrite E. now apply in_map.
Qed.
Definition real_opts (c : cmd) : list opt := filter (fun o => match o_act o with ShowHelp => false | _ => true end) (c_opts c).
Lemma defaults_opts : forall l n, fold_left (fun n o => match o_act o with ShowHelp => n | _ => dset n (o_dest o) (o_default o) end) l n =
  fold_left (fun n o => dset n (o_dest o) (o_default o)) (filter (fun o => match o_act o with ShowHelp => false | _ => true end) l) n.
Proof. induction l as [|o l IH]; intros n; [reflexivity|]. cbn [fold_left filter]. destruct (o_act o); cbn [fold_left]; apply IH. Qed.
Lemma nodup_filter : forall {A} (f : A -> str) g l, NoDup (map f l) -> NoDup (map f (filter g l)).
Proof.
  intros A f g. induction l as [|x l IH]; intros N; [constructor|]. cbn in *. inversion N; subst. destruct (g x); cbn; auto. constructor; auto.
  intros I. apply in_map_iff in I. destruct I as (y & E & I). apply filter_In in I. destruct I as [I _]. match goal with H : ~ In (f x) _ |- _ => apply H end. rewrite <- E. now apply in_map.
Qed.
Lemma fold_nodup : forall {A} (f : A -> str) (g : A -> value) l n, NoDup (map fst n) -> NoDup (map fst (fold_left (fun n x => dset n (f x) (g x)) l n)).
Proof. intros A f g. induction l as [|x l IH]; intros n N; [exact N|]. cbn [fold_left]. apply IH. now apply dset_nodup. Qed.
Lemma defaults_spec : forall c, usual c -> NoDup (map fst (defaults c)) /\
  (forall o, In o (c_opts c) -> o_act o <> ShowHelp -> dget (defaults c) (o_dest o) = POk (o_default o)) /\
  (forall p v, In p (c_pos c) -> default_of p v -> dget (defaults c) (p_dest p) = POk v).
Proof.
  intros c (_ & U & _). unfold all_dests in U. apply nodup_app in U. destruct U as (U1 & U2 & U3). unfold defaults. rewrite defaults_opts. split; [|split].
  - apply (fold_nodup p_dest). apply (fold_nodup o_dest). constructor.
  - intros o I A. rewrite (fold_dset p_dest _ _ _ _ U2). rewrite find_nokey by (apply U3; now apply in_map). rewrite (fold_dset o_dest o_default) by now apply nodup_filter.
    rewrite (find_key o_dest); [reflexivity|now apply nodup_filter|]. apply filter_In. split; [exact I|]. destruct (o_act o); congruence.
  - intros p v I Df. rewrite (fold_dset p_dest _ _ _ _ U2). rewrite (find_key p_dest _ _ U2 I). unfold default_of in Df. unfold pos_default.
    destruct (p_default p); try (subst; reflexivity). rewrite (conv_reads _ _ _ Df). reflexivity.
Qed.

Lemma compatible_calm : forall c ty, usual c -> compatible c ty -> calm c [] ty.
Proof.
  intros c ty U H d e I J Gd Ge. cbn [app] in I, J. unfold dests in I, J. apply in_flat_map in I. destruct I as ([n1 v1] & I1 & I). apply in_flat_map in J. destruct J as ([n2 v2] & J1 & J). cbn [fst] in I, J.
  destruct (find_opt c n1) as [o1|] eqn:F1; [|destruct I]. destruct (find_opt c n2) as [o2|] eqn:F2; [|destruct J]. destruct I as [<-|[]], J as [<-|[]].
  unfold find_opt in F1, F2. apply find_some in F1. apply find_some in F2. destruct F1 as [A1 B1], F2 as [A2 B2]. apply existsb_exists in B1. apply existsb_exists in B2.
  destruct B1 as (m1 & C1 & B1), B2 as (m2 & C2 & B2). apply str_eqb_eq in B1. apply str_eqb_eq in B2. subst m1 m2. f_equal. now apply (H o1 o2 n1 n2 v1 v2).
Qed.

(** options and words in any order, if every positional argument is one word *)
Theorem parse_any : forall late c D l ty ws pv, documented c D -> usual c -> Forall single (c_pos c) -> says D l ty ws -> filled (c_pos c) ws pv -> compatible c ty ->
  exists n, parse late c (line_words l) = Parsed n /\ holds c ty pv n.
Proof.
  intros late c D l ty ws pv Dc U S H F K. destruct (line_any late c D Dc U l ty ws H) as (ks & E & G). destruct (defaults_spec c U) as (N & Do & Dp).
  assert (U' := U). destruct U' as (_ & U' & _). unfold all_dests in U'. apply nodup_app in U'. destruct U' as (U1 & U2 & U3).
  destruct (G (mk_state (defaults c) (c_pos c) false []) pv) as (st & R & G1 & G2 & G3 & G4 & G5); auto.
  { now apply compatible_calm. } { cbn [s_pos]. intros p I J. apply (U3 (p_dest p) J). now apply in_map. }
  exists (s_ns st). split.
  - unfold parse. rewrite E. unfold go in R. rewrite R, G1, G2. reflexivity.
  - split; [|split].
    + intros o I A. apply dget_In. rewrite G3 by (cbn [s_pos]; apply U3; now apply in_map). cbn [s_ns]. rewrite (Do o I A). now apply lastval_said.
    + intros [d v] I. apply dget_In. now apply G4.
    + apply G5. exact N.
Qed.
