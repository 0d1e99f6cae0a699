(** Proofs: reading numbers, lines and catalogues. *)
From Coq Require Import Reals List Arith ZArith Bool Ascii String Lia Lra.
Set Warnings "-ambiguous-paths".
From Coquelicot Require Import Coquelicot.
From Verif Require Import CBase PyRes PyStr PyStr_Proofs PyList NdArray NdIndex Measure_Model Synth_Spec QU_Model QU_Spec Cube_Model Cube_Spec Cat_Model Cat_Spec.
From Verif Require Chunk_Laws Pixfit_Files.
Import ListNotations.
Local Open Scope R_scope.

(* ---------------------------------------------------------------- numbers *)

Definition digits_ok (l : list nat) : Prop := List.Forall (fun d => (d < 10)%nat) l.

Lemma digit_cases : forall (P : nat -> Prop), P 0%nat -> P 1%nat -> P 2%nat -> P 3%nat -> P 4%nat -> P 5%nat -> P 6%nat -> P 7%nat -> P 8%nat -> P 9%nat ->
  forall d, (d < 10)%nat -> P d.
Proof. intros P H0 H1 H2 H3 H4 H5 H6 H7 H8 H9 d L. do 10 (destruct d; [assumption|]). lia. Qed.

Lemma digit_is : forall d, (d < 10)%nat -> is_digit (digit d) = true.
Proof. apply digit_cases; reflexivity. Qed.
Lemma digit_val_is : forall d, (d < 10)%nat -> digit_val (digit d) = Z.of_nat d.
Proof. apply digit_cases; reflexivity. Qed.

(** what stops a run of digits *)
Definition stops (r : str) : Prop := match r with [] => True | c :: _ => is_digit c = false /\ ch_eqb c "_"%char = false end.

Lemma digs_run : forall l r acc n, digits_ok l -> stops r -> digs (map digit l ++ r)%list acc n = ((acc * 10 ^ Z.of_nat (List.length l) + wholeZ l)%Z, (n + List.length l)%nat, r).
Proof.
  induction l as [|d l IH]; intros r acc n O T; cbn [map app].
  - destruct r as [|c r]; cbn [digs stops] in *.
    + f_equal; [f_equal; [cbn; lia|cbn; lia]].
    + destruct T as [-> ->]. cbn [andb]. f_equal. f_equal; [cbn; lia|cbn; lia].
  - inversion O as [|? ? D O']; subst. cbn [digs]. rewrite (digit_is d D), (digit_val_is d D), IH by assumption.
    cbn [wholeZ List.length]. rewrite Nat2Z.inj_succ, Z.pow_succ_r by lia. f_equal. f_equal; [ring|lia].
Qed.

Lemma wholeZ_R : forall l, IZR (wholeZ l) = whole l.
Proof.
  induction l as [|d l IH]; [reflexivity|]. cbn [wholeZ whole]. rewrite plus_IZR, mult_IZR, <- INR_IZR_INZ, IH. f_equal. f_equal.
  now rewrite <- pow_IZR.
Qed.

Lemma sign_shown : forall o x, match x with [] => True | c :: _ => ch_eqb c "-"%char = false /\ ch_eqb c "+"%char = false end ->
  sign_of (show_sign o ++ x)%list = ((if minus o then -1 else 1)%Z, x).
Proof.
  intros [[]|] x H; [reflexivity..|]. cbn [show_sign app minus]. destruct x as [|c x]; [reflexivity|]. destruct H as [H1 H2]. cbn [sign_of]. now rewrite H1, H2.
Qed.

Lemma digit_not : forall c d, (d < 10)%nat -> is_digit c = false -> ch_eqb (digit d) c = false.
Proof. intros c d D N. apply ch_eqb_neq. intros <-. rewrite digit_is in N by assumption. discriminate. Qed.

(** the exponent; the text of a numeral after its sign *)
Definition show_exp (e : option (bool * option bool * list nat)) : str :=
  match e with None => [] | Some (b, g, l) => ((if b then s "E" else s "e") ++ show_sign g ++ map digit l)%list end.
Definition show_body (n : numeral) : str :=
  (map digit (n_int n) ++ match n_frac n with None => [] | Some f => s "." ++ map digit f end ++
   show_exp (n_exp n))%list.

Lemma exp_stops : forall e, stops (show_exp e).
Proof. intros [[[[] g] l]|]; cbn; auto. Qed.

Lemma exp_not_point : forall e, match show_exp e with [] => True | c :: _ => ch_eqb c "."%char = false end.
Proof. intros [[[[] g] l]|]; cbn; auto. Qed.

Lemma neg_pow : forall k x, x * powerRZ 10 (- Z.of_nat k) = x / 10 ^ k.
Proof. intros. rewrite powerRZ_neg'. rewrite <- pow_powerRZ. reflexivity. Qed.

Lemma unsigned_exp : forall m n k e, (0 < n + k)%nat ->
  match e with None => True | Some (_, _, l) => digits_ok l /\ l <> [] end ->
  (if (n + k =? 0)%nat then None
  else match show_exp e with
       | [] => Some (IZR m * powerRZ 10 (- Z.of_nat k))
       | c :: t =>
           if (ch_eqb c "e"%char || ch_eqb c "E"%char)%bool then
             let '(g, t) := sign_of t in
             match digs t 0 0 with
             | (e, S _, []) => Some (IZR m * powerRZ 10 (g * e - Z.of_nat k))
             | _ => None
             end
           else None
       end) = Some (IZR m / 10 ^ k * match e with None => 1 | Some (_, g, l) => powerRZ 10 (if minus g then - wholeZ l else wholeZ l) end).
Proof.
  intros m n k e P O. destruct (n + k =? 0)%nat eqn:E; [apply Nat.eqb_eq in E; lia|]. destruct e as [[[b g] l]|].
  - destruct O as [O N]. replace (show_exp (Some (b, g, l))) with ((if b then "E"%char else "e"%char) :: (show_sign g ++ map digit l)%list) by (destruct b; reflexivity).
    replace (ch_eqb (if b then "E"%char else "e"%char) "e"%char || ch_eqb (if b then "E"%char else "e"%char) "E"%char)%bool with true by (destruct b; reflexivity).
    rewrite sign_shown.
    2:{ destruct l as [|d l]; [exact Logic.I|]. inversion O; subst. cbn [map]. split; apply digit_not; auto. }
    pose proof (digs_run l [] 0 0 O Logic.I) as D. rewrite app_nil_r in D. rewrite D. clear D.
    destruct l as [|d l]; [congruence|]. cbn [List.length Nat.add]. f_equal. unfold Z.sub. rewrite powerRZ_add by lra. rewrite (Rmult_comm (powerRZ 10 _)), <- Rmult_assoc, neg_pow.
    f_equal. f_equal. destruct (minus g); ring.
  - cbn [show_exp]. f_equal. rewrite Rmult_1_r. apply neg_pow.
Qed.

Lemma whole_app : forall a b, whole (a ++ b)%list = whole a * 10 ^ List.length b + whole b.
Proof.
  induction a as [|d a IH]; intros b; cbn [app whole]; [ring|]. rewrite IH, app_length, pow_add. ring.
Qed.

Lemma unsigned_shown : forall n, num_ok n -> unsigned (show_body n) = Some ((whole (n_int n) + whole (frac_digits n) / 10 ^ List.length (frac_digits n)) *
  match n_exp n with None => 1 | Some (_, g, l) => powerRZ 10 (if minus g then - wholeZ l else wholeZ l) end).
Proof.
  intros [g i f e] (O1 & O2 & N & O3). cbn [n_int n_frac n_exp frac_digits n_sign] in *. unfold unsigned, show_body. cbn [n_int n_frac n_exp frac_digits n_sign].
  destruct f as [f|].
  - rewrite (digs_run i _ 0 0 O1) by (cbn; auto). cbn [s list_ascii_of_string app ch_eqb].
    change (digs (((map digit f) ++ show_exp e)%list)) with (digs (map digit f ++ show_exp e)%list).
    replace (ch_eqb "." ".") with true by reflexivity. rewrite (digs_run f _ _ _ O2 (exp_stops e)). cbn [Nat.add]. cbn [frac_digits n_frac] in N.
    rewrite unsigned_exp; [|destruct i, f; cbn; try lia; exfalso; apply N; reflexivity|exact O3]. f_equal. f_equal.
    rewrite Z.mul_0_l, Z.add_0_l, plus_IZR, mult_IZR, !wholeZ_R, <- pow_IZR. cbn [frac_digits n_frac]. field. apply pow_nonzero. lra.
  - rewrite app_nil_l. rewrite (digs_run i _ 0 0 O1 (exp_stops e)). cbn [Nat.add].
    assert (X : (match show_exp e with c :: t => if ch_eqb c "."%char then digs t (0 * 10 ^ Z.of_nat (List.length i) + wholeZ i) 0 else ((0 * 10 ^ Z.of_nat (List.length i) + wholeZ i)%Z, 0%nat, show_exp e)
                    | [] => ((0 * 10 ^ Z.of_nat (List.length i) + wholeZ i)%Z, 0%nat, show_exp e) end) = ((0 * 10 ^ Z.of_nat (List.length i) + wholeZ i)%Z, 0%nat, show_exp e)).
    { pose proof (exp_not_point e) as X. destruct (show_exp e); [reflexivity|]. now rewrite X. }
    rewrite X. clear X. cbn [frac_digits n_frac] in N. rewrite app_nil_r in N.
    rewrite unsigned_exp; [|destruct i; cbn; try lia; congruence|exact O3]. f_equal. f_equal. cbn [Z.mul Z.add whole List.length frac_digits n_frac]. rewrite wholeZ_R. cbn [pow]. lra.
Qed.

(* -------------------------------------------------------------- the blanks *)

Lemma pad_space : forall c, (c = " "%char \/ c = "009"%char) -> is_space c = true.
Proof. intros c [->| ->]; reflexivity. Qed.

Lemma lstrip_pad : forall b x, pad b -> lstrip (b ++ x)%list = lstrip x.
Proof. induction b as [|c b IH]; intros x P; [reflexivity|]. inversion P; subst. cbn [app lstrip]. rewrite pad_space by assumption. now apply IH. Qed.

Definition solid (x : str) : Prop := x <> [] /\ forallb (fun c => negb (is_space c)) x = true.

Lemma lstrip_solid : forall x y, solid x -> lstrip (x ++ y)%list = (x ++ y)%list.
Proof. intros [|c x] y [N F]; [congruence|]. cbn in *. apply andb_true_iff in F. destruct F as [F _]. apply negb_true_iff in F. now rewrite F. Qed.

Lemma solid_rev : forall x, solid x -> solid (rev x).
Proof.
  intros x [N F]. split; [intros E; apply N; rewrite <- (rev_involutive x), E; reflexivity|].
  rewrite forallb_forall in *. intros c I. apply F. now apply in_rev.
Qed.

Lemma pad_rev : forall x, pad x -> pad (rev x).
Proof. intros x P. apply Forall_rev. exact P. Qed.

Lemma digit_solid : forall d, (d < 10)%nat -> negb (is_space (digit d)) = true.
Proof. apply digit_cases; reflexivity. Qed.

Lemma digits_solid : forall l, digits_ok l -> forallb (fun c => negb (is_space c)) (map digit l) = true.
Proof. induction 1 as [|d l D O IH]; [reflexivity|]. cbn [map forallb]. rewrite (digit_solid d D). exact IH. Qed.

Lemma sign_solid : forall o, forallb (fun c => negb (is_space c)) (show_sign o) = true.
Proof. now intros [[]|]. Qed.

Lemma show_body_eq : forall n, show n = (show_sign (n_sign n) ++ show_body n)%list.
Proof. reflexivity. Qed.

Lemma body_cons : forall n, num_ok n -> exists c t, show_body n = c :: t /\ (c = "."%char \/ exists d, (d < 10)%nat /\ c = digit d).
Proof.
  intros [g i f e] (O1 & O2 & N & _). unfold show_body. cbn [n_int n_frac n_exp frac_digits] in *. destruct i as [|d i].
  - destruct f as [f|]; [|cbn in N; congruence]. eexists _, _. split; [reflexivity|]. now left.
  - inversion O1; subst. eexists _, _. split; [reflexivity|]. right. eauto.
Qed.

Lemma show_solid : forall n, num_ok n -> solid (show n).
Proof.
  intros n O. split.
  - rewrite show_body_eq. destruct (body_cons n O) as (c & t & -> & _). destruct (show_sign (n_sign n)); discriminate.
  - destruct n as [g i f e]. destruct O as (O1 & O2 & N & O3). unfold show. cbn [n_int n_frac n_exp frac_digits n_sign] in *. rewrite !forallb_app, sign_solid, digits_solid by assumption. cbn [andb].
    apply andb_true_iff. split.
    + destruct f as [f|]; [|reflexivity]. cbn. now apply digits_solid.
    + destruct e as [[[b h] l]|]; [|reflexivity]. rewrite !forallb_app, sign_solid, digits_solid by tauto. destruct b; reflexivity.
Qed.

Lemma strip_padded : forall b x c, pad b -> pad c -> solid x -> strip (b ++ x ++ c)%list = x.
Proof.
  intros b x c B K X. unfold strip. rewrite lstrip_pad, lstrip_solid by assumption. rewrite rev_app_distr, lstrip_pad by now apply pad_rev.
  rewrite <- (app_nil_r (rev x)), lstrip_solid by now apply solid_rev. now rewrite app_nil_r, rev_involutive.
Qed.

(** float() of a numeral with blanks around it *)
Theorem float_read : forall b n c, num_ok n -> pad b -> pad c -> py_float (b ++ show n ++ c)%list = POk (Some (num_value n)).
Proof.
  intros b n c O B K. unfold py_float. rewrite (strip_padded b (show n) c B K (show_solid n O)), show_body_eq.
  destruct (body_cons n O) as (h & t & E & H). rewrite sign_shown.
  2:{ rewrite E. destruct H as [->|(d & D & ->)]; [split; reflexivity|split; apply digit_not; auto]. }
  rewrite (unsigned_shown n O). rewrite E.
  assert (X : (str_eqb (map lower (h :: t)) (s "inf") || str_eqb (map lower (h :: t)) (s "infinity") || str_eqb (map lower (h :: t)) (s "nan"))%bool = false).
  { destruct H as [->|(d & D & ->)]; [reflexivity|]. clear - D. revert d D. apply (digit_cases (fun d => (str_eqb (map lower (digit d :: t)) (s "inf") || str_eqb (map lower (digit d :: t)) (s "infinity") || str_eqb (map lower (digit d :: t)) (s "nan"))%bool = false)); reflexivity. }
  rewrite X. f_equal. f_equal. unfold num_value. rewrite <- Rmult_assoc. f_equal. f_equal. destruct (minus (n_sign n)); reflexivity.
Qed.

(* --------------------------------------------------------------- the lines *)

Definition padded (f : str * numeral * str) : Prop := pad (fst (fst f)) /\ pad (snd f).
Definition number (f : str * numeral * str) : numeral := snd (fst f).
Definition line_of (fields : list (str * numeral * str)) : str := join (s ",") (map field_text fields).

Lemma line_last : forall init, exists pre, forall f, line_of (init ++ [f])%list = (pre ++ field_text f)%list.
Proof.
  induction init as [|a init [pre IH]].
  - exists []. reflexivity.
  - exists (field_text a ++ s "," ++ pre)%list. intros f. unfold line_of in *. cbn [app map].
    assert (X : exists u v, map field_text (init ++ [f])%list = u :: v) by (destruct init; cbn; eauto).
    destruct X as (u & v & X). change (join (s ",") (field_text a :: map field_text (init ++ [f])%list) = ((field_text a ++ s "," ++ pre) ++ field_text f)%list).
    rewrite X at 1. change (join (s ",") (field_text a :: u :: v)) with (field_text a ++ s "," ++ join (s ",") (u :: v))%list. rewrite <- X, IH, <- !app_assoc. reflexivity.
Qed.

Lemma lstrip_line : forall fields, fields <> [] -> List.Forall num_ok (map number fields) -> List.Forall padded fields ->
  exists fields', map number fields' = map number fields /\ List.Forall padded fields' /\ lstrip (line_of fields) = line_of fields'.
Proof.
  intros [|[[b n] c] fs] N O P; [congruence|]. inversion O as [|? ? On Of]; inversion P as [|? ? [Pb Pc] Pf]; subst. cbn [fst snd number] in *. exists (([], n, c) :: fs). split; [reflexivity|]. split.
  - constructor; [|assumption]. split; [constructor|assumption].
  - unfold line_of. cbn [map]. unfold field_text at 1 3. cbn [fst snd].
    destruct fs as [|f fs]; cbn [map join].
    + rewrite <- (app_nil_r (b ++ show n ++ c)%list), <- !app_assoc. rewrite lstrip_pad by assumption. rewrite lstrip_solid by now apply show_solid. now rewrite app_nil_r.
    + rewrite <- !app_assoc. rewrite lstrip_pad by assumption. rewrite lstrip_solid by now apply show_solid. reflexivity.
Qed.

Lemma rstrip_line : forall fields, fields <> [] -> List.Forall num_ok (map number fields) -> List.Forall padded fields ->
  exists fields', map number fields' = map number fields /\ List.Forall padded fields' /\ rev (lstrip (rev (line_of fields))) = line_of fields'.
Proof.
  intros fields N O P. destruct (exists_last N) as (init & [[b n] c] & ->). rewrite map_app in O. apply Forall_app in O. apply Forall_app in P. destruct O as [O1 O2]. destruct P as [P1 P2].
  inversion O2 as [|? ? On Of]; inversion P2 as [|? ? [Pb Pc] Pf]; subst. exists (init ++ [(b, n, [])])%list. split; [rewrite !map_app; reflexivity|]. cbn [fst snd number] in *. split.
  - apply Forall_app. split; [assumption|]. constructor; [split; [assumption|constructor]|constructor].
  - destruct (line_last init) as [pre L]. rewrite !L. unfold field_text. cbn [fst snd]. rewrite app_nil_r. rewrite !rev_app_distr, <- !app_assoc.
    rewrite lstrip_pad by now apply pad_rev. rewrite lstrip_solid by now apply solid_rev, show_solid. rewrite !rev_app_distr, !rev_involutive. now rewrite <- app_assoc.
Qed.

Lemma shrink_pad : forall p b x, pad p -> exists p' b', pad p' /\ shrink b (p ++ x)%list = (p' ++ shrink b' x)%list.
Proof.
  induction p as [|c p IH]; intros b x P; [exists [], b; split; [constructor|reflexivity]|]. inversion P as [|? ? C P']; subst. cbn [app shrink]. rewrite (pad_space c C).
  destruct (IH true x P') as (p' & b' & Q & E). rewrite E. destruct b; [exists p', b'; auto|]. exists (" "%char :: p'), b'. split; [constructor; auto|reflexivity].
Qed.

Lemma shrink_solid : forall t b x, solid t -> shrink b (t ++ x)%list = (t ++ shrink false x)%list.
Proof.
  intros t b x [N F]. revert b N F. induction t as [|c t IH]; intros b N F; [congruence|]. cbn in F. apply andb_true_iff in F. destruct F as [F1 F2]. apply negb_true_iff in F1.
  cbn [app shrink]. rewrite F1. destruct t as [|d t]; [reflexivity|]. now rewrite IH.
Qed.

Lemma shrink_line : forall fields b, fields <> [] -> List.Forall num_ok (map number fields) -> List.Forall padded fields ->
  exists fields', map number fields' = map number fields /\ List.Forall padded fields' /\ shrink b (line_of fields) = line_of fields'.
Proof.
  induction fields as [|[[p n] c] fs IH]; intros b N O P; [congruence|]. inversion O as [|? ? On Of]; inversion P as [|? ? [Pp Pc] Pf]; subst. cbn [fst snd number] in *.
  assert (F : forall rest, exists p' c' b', pad p' /\ pad c' /\ shrink b ((p ++ show n ++ c) ++ rest)%list = ((p' ++ show n ++ c') ++ shrink b' rest)%list).
  { intros rest. rewrite <- !app_assoc. destruct (shrink_pad p b (show n ++ c ++ rest)%list Pp) as (p' & b1 & A1 & ->). rewrite shrink_solid by now apply show_solid.
    destruct (shrink_pad c false rest Pc) as (c' & b2 & A2 & ->). exists p', c', b2. repeat split; auto. now rewrite <- !app_assoc. }
  destruct fs as [|f fs].
  - destruct (F []) as (p' & c' & b' & A1 & A2 & A3). cbn [shrink] in A3. rewrite !app_nil_r in A3. exists [(p', n, c')]. repeat split; [constructor; [split; assumption|constructor]|]. exact A3.
  - destruct (F (s "," ++ line_of (f :: fs))%list) as (p' & c' & b' & A1 & A2 & A3).
    destruct (IH false ltac:(discriminate) Of Pf) as (fs' & B1 & B2 & B3).
    exists ((p', n, c') :: fs'). split; [cbn [map number fst snd]; f_equal; exact B1|]. split; [constructor; [split; assumption|assumption]|].
    destruct fs' as [|f' fs']; [discriminate|]. change (line_of ((p, n, c) :: f :: fs)) with ((p ++ show n ++ c) ++ s "," ++ line_of (f :: fs))%list. rewrite A3.
    change (line_of ((p', n, c') :: f' :: fs')) with ((p' ++ show n ++ c') ++ s "," ++ line_of (f' :: fs'))%list. rewrite <- B3. reflexivity.
Qed.

Lemma split_join : forall c l, l <> [] -> List.Forall (fun x => ~ In c x) l -> split c (join [c] l) = l.
Proof.
  intros c l N F. induction F as [|x l X F IH]; [congruence|]. destruct l as [|y l]; [now apply Chunk_Laws.split_none|].
  change (join [c] (x :: y :: l)) with (x ++ c :: join [c] (y :: l))%list. rewrite Chunk_Laws.split_app, IH by discriminate. now rewrite Chunk_Laws.split_none.
Qed.

(** a character that is no part of a field *)
Definition foreign (c : ascii) : Prop := (forall d, (d < 10)%nat -> digit d <> c) /\ ~ In c (s " .+-eE") /\ c <> "009"%char.

Lemma foreign_field : forall c f, foreign c -> num_ok (number f) -> padded f -> ~ In c (field_text f).
Proof.
  intros c [[p n] q] (F1 & F2 & F3) O [P Q] H. cbn [fst snd number] in *. unfold field_text in H. cbn [fst snd] in H.
  assert (PP : forall p, pad p -> ~ In c p).
  { intros x X Hx. unfold pad in X. rewrite List.Forall_forall in X. destruct (X c Hx) as [->| ->]; [apply F2; now left|now apply F3]. }
  assert (SS : forall g, ~ In c (show_sign g)).
  { intros [[]|] Hx; cbn in Hx; [destruct Hx as [<-|[]]; apply F2; cbn; tauto..|exact Hx]. }
  assert (DD : forall l, digits_ok l -> ~ In c (map digit l)).
  { intros l X Hx. apply in_map_iff in Hx. destruct Hx as (d & E & Hd). unfold digits_ok in X. rewrite List.Forall_forall in X. exact (F1 d (X d Hd) E). }
  apply in_app_or in H. destruct H as [H|H]; [exact (PP p P H)|]. apply in_app_or in H. destruct H as [H|H]; [|exact (PP q Q H)].
  destruct n as [g i f e]. destruct O as (O1 & O2 & _ & O3). unfold show in H. cbn [n_int n_frac n_exp frac_digits n_sign] in *.
  apply in_app_or in H. destruct H as [H|H]; [exact (SS _ H)|]. apply in_app_or in H. destruct H as [H|H]; [exact (DD _ O1 H)|]. apply in_app_or in H. destruct H as [H|H].
  - destruct f as [f|]; [|exact H]. cbn in H. destruct H as [<-|H]; [apply F2; cbn; tauto|exact (DD _ O2 H)].
  - destruct e as [[[b h] l]|]; [|exact H]. apply in_app_or in H. destruct H as [H|H].
    + destruct b; cbn in H; destruct H as [<-|[]]; apply F2; cbn; tauto.
    + apply in_app_or in H. destruct H as [H|H]; [exact (SS _ H)|exact (DD _ (proj1 O3) H)].
Qed.

Lemma foreign_comma : foreign ","%char.
Proof. repeat split; [apply digit_cases; discriminate|cbn; intuition discriminate|discriminate]. Qed.
Lemma foreign_hash : foreign "#"%char.
Proof. repeat split; [apply digit_cases; discriminate|cbn; intuition discriminate|discriminate]. Qed.

Lemma Forall_fields : forall c fields, foreign c -> List.Forall num_ok (map number fields) -> List.Forall padded fields -> List.Forall (fun x => ~ In c x) (map field_text fields).
Proof.
  intros c fields F O P. rewrite List.Forall_forall in *. intros x Hx. apply in_map_iff in Hx. destruct Hx as (f & <- & Hf). apply foreign_field; auto. apply O. now apply in_map.
Qed.

Lemma not_in_join : forall c sep l, ~ In c sep -> List.Forall (fun x => ~ In c x) l -> ~ In c (join sep l).
Proof.
  intros c sep l Ns F. induction F as [|x l X F IH]; [auto|]. destruct l as [|y l]; [exact X|]. change (join sep (x :: y :: l)) with (x ++ sep ++ join sep (y :: l))%list.
  intros H. apply in_app_or in H. destruct H as [H|H]; [auto|]. apply in_app_or in H. destruct H as [H|H]; auto.
Qed.

Lemma uncomment_app : forall x c, ~ In "#"%char x -> remark c -> uncomment (x ++ c)%list = x.
Proof.
  induction x as [|a x IH]; intros c N R.
  - destruct R as [->|(t & ->)]; reflexivity.
  - cbn [app uncomment]. rewrite ch_eqb_neq by (intros ->; apply N; now left). f_equal. apply IH; [|assumption]. intros H. apply N. now right.
Qed.

Lemma line_nonempty : forall fields, fields <> [] -> List.Forall num_ok (map number fields) -> line_of fields <> [].
Proof.
  intros [|[[p n] c] fs] N O E; [congruence|]. inversion O as [|? ? On Of]; subst. destruct (show_solid n On) as [S _].
  unfold line_of in E. cbn [map] in E. destruct (map field_text fs); cbn [join] in E; unfold field_text in E; cbn [fst snd] in E;
    repeat (apply app_eq_nil in E; destruct E as [? E]); repeat match goal with H : (_ ++ _)%list = [] |- _ => apply app_eq_nil in H; destruct H end; congruence.
Qed.

Lemma pyfloat_fields : forall fields, List.Forall num_ok (map number fields) -> List.Forall padded fields ->
  pyall (map py_float (map field_text fields)) = POk (map (fun n => Some (num_value n)) (map number fields)).
Proof.
  intros fields O P. rewrite map_map. rewrite (Pixfit_Files.pyall_map _ (fun f => Some (num_value (number f)))).
  - now rewrite map_map.
  - intros [[p n] c] H. rewrite List.Forall_forall in *. destruct (P _ H) as [P1 P2]. apply (in_map number) in H. apply O in H. now apply float_read.
Qed.

(** one line of a catalogue *)
Theorem line_read : forall row line, row_line row line ->
  exists f, csv_line line = Some f /\ pyall (map py_float f) = POk (map (fun n => Some (num_value n)) row).
Proof.
  intros row line (N & O & fields & c & E & P & K & L). change (map number fields = row) in E. subst row. change (List.Forall padded fields) in P. change (line = (line_of fields ++ c)%list) in L.
  assert (NF : fields <> []) by (intros ->; apply N; reflexivity).
  assert (NH : ~ In "#"%char (line_of fields)).
  { apply not_in_join; [cbn; intuition discriminate|]. apply Forall_fields; auto using foreign_hash. }
  destruct (lstrip_line fields NF O P) as (f1 & A1 & A2 & A3).
  destruct (rstrip_line f1 (fun X => N (eq_trans (eq_sym A1) (f_equal (map number) X))) ltac:(now rewrite A1) A2) as (f2 & B1 & B2 & B3).
  rewrite A1 in B1. destruct (shrink_line f2 false (fun X => N (eq_trans (eq_sym B1) (f_equal (map number) X))) ltac:(now rewrite B1) B2) as (f3 & C1 & C2 & C3).
  rewrite B1 in C1. assert (N3 : f3 <> []) by (intros ->; apply N; rewrite <- C1; reflexivity).
  exists (map field_text f3). split.
  - assert (X : exists a t, line_of fields = a :: t) by (pose proof (line_nonempty fields NF O); destruct (line_of fields); [congruence|eauto]).
    destruct X as (a & t & X). rewrite L, X. cbn [app csv_line]. rewrite ch_eqb_neq by (intros ->; apply NH; rewrite X; now left).
    change (a :: (t ++ c)%list) with ((a :: t) ++ c)%list. rewrite <- X. rewrite uncomment_app by assumption. unfold strip. rewrite A3, B3, C3.
    pose proof (line_nonempty f3 N3 ltac:(now rewrite C1)) as M. destruct (line_of f3) as [|b u] eqn:E3; [congruence|]. rewrite <- E3.
    f_equal. apply split_join; [destruct f3; [congruence|discriminate]|]. apply Forall_fields; auto using foreign_comma. now rewrite C1.
  - rewrite pyfloat_fields by (try rewrite C1; assumption). now rewrite C1.
Qed.

Theorem line_skipped : forall line, empty_line line -> csv_line line = None.
Proof.
  intros line (b & c & B & K & ->). destruct b as [|a b].
  - cbn [app]. destruct K as [->|(t & ->)]; reflexivity.
  - cbn [app csv_line]. inversion B as [|? ? A B']; subst. rewrite ch_eqb_neq by (destruct A as [->| ->]; discriminate).
    change (a :: (b ++ c)%list) with ((a :: b) ++ c)%list. rewrite uncomment_app; [|intros H; unfold pad in B; rewrite List.Forall_forall in B; destruct (B _ H); discriminate|assumption].
    unfold strip. rewrite <- (app_nil_r (a :: b)), lstrip_pad by assumption. reflexivity.
Qed.

(** the whole catalogue *)
Theorem catalogue_read : forall text rows, catalogue text rows -> csv_read_to_list text = POk (map (map (fun n => Some (num_value n))) rows).
Proof.
  intros text rows (lines & said & N & F & -> & L & ->). unfold csv_read_to_list, csv_rows. rewrite split_join by assumption. clear N F.
  induction L as [|l r lines said H L IH]; [reflexivity|]. cbn [map flat_map opts]. destruct r as [row|].
  - destruct (line_read row l H) as (f & -> & E). cbn [opts map pyall app]. rewrite E. cbn [pybind]. fold (opts (A := list str)). 
    rewrite IH. reflexivity.
  - rewrite (line_skipped l H). cbn [app]. exact IH.
Qed.
