(** Proofs about frequency files: tables, casts, and the two tools. *)
From Coq Require Import Reals Lra Lia List Arith ZArith Bool Ascii String.
From Flocq Require Import Core Relative.
Set Warnings "-ambiguous-paths".
From Verif Require Import PyRes PyStr PyList NdArray Setup_Model Cube_Model Cat_Model Cat_Spec Cat_Text Sx_Model Icube_Proofs Fq_Model Fq_Spec Fq_Proofs.
Import ListNotations.
Local Notation length := List.length.
Local Open Scope R_scope.

(* ------------------------------------------------------------------- words *)

Definition breaks (x : str) : Prop := match x with [] => True | c :: _ => is_space c = true end.
Lemma words_solid : forall w cur rest, forallb (fun c => negb (is_space c)) w = true -> words_aux cur (w ++ rest)%list = words_aux (rev w ++ cur)%list rest.
Proof.
  induction w as [|c w IH]; intros cur rest H; [reflexivity|]. cbn [forallb] in H. apply andb_true_iff in H. destruct H as [A B]. apply negb_true_iff in A.
  cbn [app words_aux]. rewrite A, IH by auto. cbn [rev]. rewrite <- app_assoc. reflexivity.
Qed.
Lemma words_break : forall cur rest, cur <> [] -> breaks rest -> words_aux cur rest = rev cur :: words_aux [] rest.
Proof. intros [|a cur] [|c rest] N B; try congruence; cbn [words_aux]; [reflexivity|]. cbn in B. rewrite B. reflexivity. Qed.
Lemma words_pad : forall b x, pad b -> words_aux [] (b ++ x)%list = words_aux [] x.
Proof. intros b x H. induction H as [|c b P H IH]; [reflexivity|]. cbn [app words_aux]. rewrite (pad_space c) by exact P. exact IH. Qed.
Lemma pad_breaks : forall b x, pad b -> b <> [] -> breaks (b ++ x)%list.
Proof. intros b x H N. destruct H as [|c b P H]; [congruence|]. cbn. apply pad_space. exact P. Qed.

Lemma words_spaced : forall cells tail, List.Forall num_ok (map snd cells) -> List.Forall (fun q => pad (fst q)) cells -> List.Forall (fun q => fst q <> []) (tl cells) -> pad tail ->
  words (spaced cells ++ tail)%list = map show (map snd cells).
Proof.
  intros cells tail. unfold words. induction cells as [|[b n] t IH]; intros OK P N T.
  - cbn [spaced app map]. rewrite <- (app_nil_r tail), words_pad by auto. reflexivity.
  - cbn [map snd] in OK. inversion OK as [|? ? On Ot]; subst. inversion P as [|? ? Pb Pt]; subst. cbn [fst] in Pb. cbn [tl] in N.
    cbn [spaced map snd]. rewrite <- app_assoc, words_pad, <- app_assoc by auto. destruct (show_solid n On) as [NE SO]. rewrite words_solid, app_nil_r by auto.
    rewrite words_break.
    + rewrite rev_involutive. f_equal. apply IH; auto. destruct t; [constructor|]. now inversion N.
    + intros E. apply (f_equal (@rev ascii)) in E. rewrite rev_involutive in E. exact (NE E).
    + destruct t as [|[b' n'] t].
      * cbn [spaced app]. destruct tail as [|c tail]; [exact Logic.I|]. inversion T; subst. cbn. now apply pad_space.
      * cbn [spaced]. inversion N; subst. cbn [fst] in *. inversion Pt; subst. cbn [fst] in *. rewrite <- app_assoc. apply pad_breaks; auto.
Qed.
Lemma pad_no_hash : forall b, pad b -> ~ In "#"%char b.
Proof. intros b H I. apply (proj1 (Forall_forall _ _) H) in I. destruct I as [I|I]; discriminate I. Qed.
Lemma spaced_no_hash : forall cells, List.Forall num_ok (map snd cells) -> List.Forall (fun q => pad (fst q)) cells -> ~ In "#"%char (spaced cells).
Proof.
  induction cells as [|[b n] t IH]; intros OK P; [intros []|]. cbn [map snd] in OK. inversion OK as [|? ? On Ot]; subst. inversion P as [|? ? Pb Pt]; subst. cbn [fst] in Pb.
  cbn [spaced]. intros I. rewrite !in_app_iff in I. destruct I as [I|[I|I]]; [now apply (pad_no_hash b)| |now apply IH].
  apply (foreign_field "#"%char ([], n, [])); [apply foreign_hash|exact On|split; constructor|]. unfold field_text. cbn [fst snd app]. rewrite app_nil_r. exact I.
Qed.
Lemma line_words : forall row line, List.Forall num_ok row -> columns row line -> words (uncomment line) = map show row.
Proof.
  intros row line OK (cells & tail & c & <- & P & N & T & Rk & ->). rewrite app_assoc, uncomment_app; auto.
  - now apply words_spaced.
  - intros I. apply in_app_iff in I. destruct I as [I|I]; [now apply (spaced_no_hash cells)|now apply (pad_no_hash tail)].
Qed.
Lemma table_rows : forall lines rows, table lines rows ->
  filter (fun r => match r with [] => false | _ => true end) (map (fun l => words (uncomment l)) lines) = map (map show) rows /\ List.Forall (fun r => r <> [] /\ List.Forall num_ok r) rows.
Proof.
  induction 1 as [|line lines rows L T [IH1 IH2]|line row lines rows NE OK L T [IH1 IH2]]; cbn [map filter]; [split; auto| |].
  - rewrite (line_words [] line) by auto. cbn [map]. split; auto.
  - rewrite (line_words row line) by auto. destruct row as [|n row]; [congruence|]. cbn [map]. rewrite IH1. split; [reflexivity|]. constructor; auto.
Qed.
Lemma py_float_show : forall n, num_ok n -> py_float (show n) = POk (Some (num_value n)).
Proof. intros n H. pose proof (float_read [] n [] H) as F. cbn [app] in F. rewrite app_nil_r in F. apply F; constructor. Qed.

(** numpy's two steps: to a double, and on to the type asked for *)
Definition conv (f : ieee) (v : R) : option R := match cast double v with Some z => cast f z | None => None end.

Lemma pyall_pure : forall {A B} (f : A -> pyres B) (g : A -> B) l, (forall a, In a l -> f a = POk (g a)) -> pyall (map f l) = POk (map g l).
Proof. intros A B f g. induction l as [|a l IH]; intros H; [reflexivity|]. cbn [map pyall]. rewrite H by (left; auto). cbn [pybind]. rewrite IH by (intros; apply H; now right). reflexivity. Qed.

Lemma load_table : forall f lines rows, table lines rows -> rows <> [] ->
  loadtxt f lines = if forallb (fun r => (length r =? length (hd [] rows))%nat) rows
                    then POk (squeeze (mk_nd [length rows; length (hd [] rows)] (map (fun n => conv f (num_value n)) (List.concat rows)))) else PErr.
Proof.
  intros f lines rows T NE. destruct (table_rows lines rows T) as [E OK]. unfold loadtxt. rewrite E. destruct rows as [|r rows]; [congruence|].
  change (map (map show) (r :: rows)) with (map show r :: map (map show) rows). cbv iota. change (map show r :: map (map show) rows) with (map (map show) (r :: rows)). cbn [hd].
  assert (FB : forallb (fun q => (length q =? length (map show r))%nat) (map (map show) (r :: rows)) = forallb (fun q => (length q =? length r)%nat) (r :: rows)).
  { rewrite map_length. generalize (r :: rows) as l. induction l as [|q l IH]; [reflexivity|]. cbn [map forallb]. rewrite IH, map_length. reflexivity. }
  rewrite FB. destruct (forallb _ (r :: rows)); [|reflexivity]. rewrite !map_map.
  rewrite (pyall_pure _ (fun q => map (fun n => Some (num_value n)) q)).
  - cbn [pybind]. rewrite !map_length. f_equal. f_equal. f_equal. rewrite <- concat_map, map_map. reflexivity.
  - intros q I. rewrite map_map. apply pyall_pure. intros n In'. apply py_float_show. rewrite Forall_forall in OK. apply OK in I. destruct I as [_ I]. rewrite Forall_forall in I. now apply I.
Qed.
Lemma load_empty : forall f lines, table lines [] -> loadtxt f lines = POk (mk_nd [0%nat] []).
Proof. intros f lines T. destruct (table_rows lines [] T) as [E _]. unfold loadtxt. rewrite E. reflexivity. Qed.

(* ------------------------------------------------------------------- casts *)

Definition good (f : ieee) : Prop := (1 < i_prec f)%Z /\ (i_emin f <= i_emax f - i_prec f)%Z.
Lemma double_good : good double. Proof. split; cbn; lia. Qed.
Lemma single_good : good single. Proof. split; cbn; lia. Qed.
Lemma half_good : good half. Proof. split; cbn; lia. Qed.

Lemma top : forall f, good f -> pred radix2 (FLT_exp (i_emin f) (i_prec f)) (bpow radix2 (i_emax f)) = bpow radix2 (i_emax f) - bpow radix2 (i_emax f - i_prec f) /\
  generic_format radix2 (FLT_exp (i_emin f) (i_prec f)) (bpow radix2 (i_emax f)).
Proof.
  intros f [P E]. assert (PG : Prec_gt_0 (i_prec f)) by (red; lia). split.
  - rewrite pred_bpow. unfold FLT_exp. rewrite Z.max_l by lia. reflexivity.
  - apply generic_format_bpow. unfold FLT_exp. lia.
Qed.
Lemma half_step : forall e, bpow radix2 e = 2 * bpow radix2 (e - 1).
Proof. intros e. replace e with (1 + (e - 1))%Z at 1 by lia. rewrite bpow_plus. cbn. lra. Qed.
Lemma round_below : forall f v, good f -> v < bpow radix2 (i_emax f) - bpow radix2 (i_emax f - i_prec f - 1) ->
  round radix2 (FLT_exp (i_emin f) (i_prec f)) ZnearestE v <= bpow radix2 (i_emax f) - bpow radix2 (i_emax f - i_prec f).
Proof.
  intros f v G V. destruct (top f G) as [T F]. destruct G as [P E]. assert (PG : Prec_gt_0 (i_prec f)) by (red; lia). pose proof (FLT_exp_valid (i_emin f) (i_prec f)) as VE.
  set (fe := FLT_exp (i_emin f) (i_prec f)) in *. rewrite <- T. apply round_N_le_midp; auto.
  - now apply generic_format_pred.
  - rewrite succ_pred by auto. rewrite T. pose proof (half_step (i_emax f - i_prec f)). lra.
Qed.
Lemma round_above : forall f v, good f -> bpow radix2 (i_emax f) - bpow radix2 (i_emax f - i_prec f - 1) < v -> bpow radix2 (i_emax f) <= round radix2 (FLT_exp (i_emin f) (i_prec f)) ZnearestE v.
Proof.
  intros f v G V. destruct (top f G) as [T F]. destruct G as [P E]. assert (PG : Prec_gt_0 (i_prec f)) by (red; lia). pose proof (FLT_exp_valid (i_emin f) (i_prec f)) as VE.
  set (fe := FLT_exp (i_emin f) (i_prec f)) in *. apply round_N_ge_midp; auto. rewrite T. pose proof (half_step (i_emax f - i_prec f)). lra.
Qed.
Definition limit (f : ieee) : R := bpow radix2 (i_emax f) - bpow radix2 (i_emax f - i_prec f - 1).
Lemma cast_in : forall f v, good f -> Rabs v < limit f -> cast f v = Some (round radix2 (FLT_exp (i_emin f) (i_prec f)) ZnearestE v) /\
  binary (i_prec f) (i_emin f) (i_emax f) (round radix2 (FLT_exp (i_emin f) (i_prec f)) ZnearestE v).
Proof.
  intros f v G V. unfold limit in V. assert (PG : Prec_gt_0 (i_prec f)) by (red; destruct G; lia). pose proof (FLT_exp_valid (i_emin f) (i_prec f)) as VE.
  assert (A : Rabs (round radix2 (FLT_exp (i_emin f) (i_prec f)) ZnearestE v) < bpow radix2 (i_emax f)).
  { apply Rabs_lt_inv in V. pose proof (bpow_gt_0 radix2 (i_emax f - i_prec f)). apply Rabs_lt. split.
    - pose proof (round_below f (- v) G ltac:(lra)) as B. rewrite round_NE_opp in B. lra.
    - pose proof (round_below f v G ltac:(lra)) as B. lra. }
  split.
  - unfold cast. destruct (Rlt_dec (Rabs (round radix2 (FLT_exp (i_emin f) (i_prec f)) ZnearestE v)) (bpow radix2 (i_emax f))); [reflexivity|contradiction].
  - apply binary_format; [destruct G; lia|]. split; [|exact A]. apply generic_format_round; auto. apply valid_rnd_N.
Qed.
Lemma cast_out : forall f v, good f -> limit f < Rabs v -> cast f v = None.
Proof.
  intros f v G V. unfold limit in V. unfold cast. destruct (Rlt_dec (Rabs (round radix2 (FLT_exp (i_emin f) (i_prec f)) ZnearestE v)) (bpow radix2 (i_emax f))) as [H|]; [|reflexivity]. exfalso.
  apply Rabs_lt_inv in H. unfold Rabs in V. destruct (Rcase_abs v).
  - pose proof (round_above f (- v) G V) as B. rewrite round_NE_opp in B. lra.
  - pose proof (round_above f v G V) as B. lra.
Qed.
Lemma cast_closest : forall f v, good f -> Rabs v < limit f -> exists y, cast f v = Some y /\ closest (binary (i_prec f) (i_emin f) (i_emax f)) v y.
Proof.
  intros f v G V. destruct (cast_in f v G V) as [C B]. exists (round radix2 (FLT_exp (i_emin f) (i_prec f)) ZnearestE v). split; [exact C|]. split; [exact B|].
  intros z Z. assert (PG : Prec_gt_0 (i_prec f)) by (red; destruct G; lia). pose proof (FLT_exp_valid (i_emin f) (i_prec f)) as VE.
  apply binary_format in Z; [|destruct G; lia]. apply (round_N_pt radix2 (FLT_exp (i_emin f) (i_prec f)) (fun x => negb (Z.even x)) v). apply Z.
Qed.

Lemma conv_double : forall f v x, cast double v = Some x -> conv f v = cast f x.
Proof. intros f v x H. unfold conv. rewrite H. reflexivity. Qed.
(** 19 digits name a double *)
Lemma digits_name : forall x v, is_double x -> Rabs (v - x) <= Rabs x / 2 / 10 ^ 18 -> cast double v = Some x.
Proof.
  intros x v D H. apply cast_keeps; [cbn; lia|exact D|]. eapply Rle_trans; [exact H|]. change (- i_prec double)%Z with (-53)%Z.
  assert (E : bpow radix2 (-53) = / 9007199254740992) by reflexivity. rewrite E. pose proof (Rabs_pos x). lra.
Qed.
Lemma fmt_read : forall x, is_double x -> exists n, fmt_e 18 x = show n /\ num_ok n /\ cast double (num_value n) = Some x.
Proof. intros x D. destruct (fmt_e_spec 18 x ltac:(lia)) as (n & d & f & g & E & OK & _ & _ & _ & _ & _ & _ & V). exists n. split; auto. split; auto. now apply digits_name. Qed.

Lemma saved_table : forall xs, List.Forall is_double xs -> exists ns, table (savetxt xs) (map (fun n => [n]) ns) /\ List.Forall2 (fun n x => cast double (num_value n) = Some x) ns xs.
Proof.
  induction 1 as [|x xs D H (ns & T & F)]; [exists []; split; constructor|]. destruct (fmt_read x D) as (n & E & OK & C). exists (n :: ns). split; [|constructor; auto].
  cbn [savetxt map]. apply t_row; auto; [discriminate|]. exists [([], n)], [], []. cbn [map snd tl spaced]. repeat split; auto; try constructor; auto; try constructor.
  rewrite E, !app_nil_r. reflexivity.
Qed.
Lemma concat_single : forall {A} (l : list A), List.concat (map (fun n => [n]) l) = l.
Proof. induction l as [|a l IH]; cbn; [auto|]. now rewrite IH. Qed.
Lemma load_saved : forall f xs, List.Forall is_double xs -> loadtxt f (savetxt xs) = POk (mk_nd (if (length xs =? 1)%nat then [] else [length xs]) (map (cast f) xs)).
Proof.
  intros f xs D. destruct (saved_table xs D) as (ns & T & F). destruct ns as [|n ns].
  - inversion F; subst. rewrite (load_empty f _ T). reflexivity.
  - rewrite (load_table f _ _ T) by discriminate. cbn [map hd]. change (length [n]) with 1%nat.
    assert (FB : forallb (fun r => (length r =? 1)%nat) ([n] :: map (fun n => [n]) ns) = true). { apply forallb_forall. intros r [<-|I]; [reflexivity|]. apply in_map_iff in I. destruct I as (q & <- & _). reflexivity. }
    rewrite FB. change ([n] :: map (fun n => [n]) ns) with (map (fun n => [n]) (n :: ns)). rewrite concat_single, map_length.
    assert (V : map (fun n => conv f (num_value n)) (n :: ns) = map (cast f) xs).
    { clear - F. induction F as [|a x l l' H F IH]; [reflexivity|]. cbn [map]. rewrite IH. f_equal. now apply conv_double. }
    rewrite V. assert (L : length (n :: ns) = length xs) by (clear - F; induction F as [|? ? ? ? ? F IH]; [reflexivity|cbn [length]; now rewrite IH]). rewrite L. unfold squeeze. cbn [shape flat filter]. destruct (length xs =? 1)%nat; reflexivity.
Qed.
