(** What the tools leave unsaid about their catalogues, and where they differ from their help. *)
From Coq Require Import Reals List Arith ZArith Bool Ascii String Lia Lra.
Set Warnings "-ambiguous-paths".
From Coquelicot Require Import Coquelicot.
From Verif Require Import CBase PyRes PyStr PyList NdArray NdIndex Synth_Spec Measure_Model QU_Model QU_Spec Cube_Model Cube_Spec Cat_Model Cat_Spec Cat_Text Cat_Rows Cat_Cube.
Import ListNotations.
Local Open Scope R_scope.

(** what becomes of a row *)
Definition entry_source (freq : list (option R)) (f0 : R) (e : entry) : pyres source :=
  let keep h r := pybind r (fun x => POk (Source (head_row h) (fst (fst x)) (snd (fst x)) (snd x))) in
  match e with
  | Thin h l => keep h (create_IQU_spectra_burn freq (h_flux h) (h_SI h) (map t_p l) (map t_psi l) (map t_RM l) (Some (map t_var l)) (Some f0))
  | Slabs h l => keep h (create_IQU_spectra_diff true freq (h_flux h) (h_SI h) (map l_p l) (map l_psi l) (map l_RM l) (Some f0))
  | Else => POk Other
  end.
Lemma row_entry : forall freq f0 row e, row_says row e -> row_source freq f0 (map Some row) = entry_source freq f0 e.
Proof.
  intros freq f0 row [h l|h l|] Sr; [..|now apply row_else].
  - destruct Sr as (N & ty & rest & T & L & ->).
    cbn [map row_source]. rewrite (py_int_between 1 ty) by (try lia; cbn; lra). cbn [Z.eqb Pos.eqb].
    rewrite !map_app, fm_map. change 7%nat with (List.length (map (@Some R) (head_row h))).
    rewrite (split_repeat None (fun c => map Some [t_p c; t_psi c; t_RM c; t_var c]) (map Some (head_row h)) l (map Some rest) 4); [|lia|reflexivity|now rewrite map_length|exact N].
    cbn [seq map nth head_row List.length Nat.ltb Nat.leb Nat.eqb orb finite_row option_map].
    replace (finite_row (map (fun c => Some (t_p c)) l)) with (Some (map t_p l)) by (rewrite <- (finite_some (map t_p l)), map_map; reflexivity).
    replace (finite_row (map (fun c => Some (t_psi c)) l)) with (Some (map t_psi l)) by (rewrite <- (finite_some (map t_psi l)), map_map; reflexivity).
    replace (finite_row (map (fun c => Some (t_RM c)) l)) with (Some (map t_RM l)) by (rewrite <- (finite_some (map t_RM l)), map_map; reflexivity).
    replace (finite_row (map (fun c => Some (t_var c)) l)) with (Some (map t_var l)) by (rewrite <- (finite_some (map t_var l)), map_map; reflexivity).
    reflexivity.
  - destruct Sr as (N & ty & rest & T & L & ->).
    cbn [map row_source]. rewrite (py_int_between 2 ty) by (try lia; cbn; lra). cbn [Z.eqb Pos.eqb].
    rewrite !map_app, fm_map. change 7%nat with (List.length (map (@Some R) (head_row h))).
    rewrite (split_repeat None (fun c => map Some [l_p c; l_psi c; l_RM c]) (map Some (head_row h)) l (map Some rest) 3); [|lia|reflexivity|now rewrite map_length|exact N].
    cbn [seq map nth head_row List.length Nat.ltb Nat.leb Nat.eqb orb finite_row option_map].
    replace (finite_row (map (fun c => Some (l_p c)) l)) with (Some (map l_p l)) by (rewrite <- (finite_some (map l_p l)), map_map; reflexivity).
    replace (finite_row (map (fun c => Some (l_psi c)) l)) with (Some (map l_psi l)) by (rewrite <- (finite_some (map l_psi l)), map_map; reflexivity).
    replace (finite_row (map (fun c => Some (l_RM c)) l)) with (Some (map l_RM l)) by (rewrite <- (finite_some (map l_RM l)), map_map; reflexivity).
    reflexivity.
Qed.

Lemma values_of : forall rows, map (map (fun n => Some (num_value n))) rows = map (map (@Some R)) (map (map num_value) rows).
Proof. intros. rewrite map_map. apply map_ext. intros r. now rewrite map_map. Qed.

(** the same function of two lists of rows that describe alike *)
Lemma rows_alike : forall {B} (g : list (option R) -> pyres B) (P : entry -> entry -> Prop) rows rows' es es', Forall2 row_says rows es -> Forall2 row_says rows' es' -> Forall2 P es es' ->
  (forall row row' e e', row_says row e -> row_says row' e' -> P e e' -> g (map Some row) = g (map Some row')) ->
  map g (map (map Some) rows) = map g (map (map Some) rows').
Proof.
  intros B g P rows rows' es es' F F' A H. revert rows rows' F F'. induction A as [|e e' es es' Pe A IH]; intros rows rows' F F'; inversion F; inversion F'; subst; [reflexivity|].
  cbn [map]. f_equal; [eapply H; eassumption|now apply IH].
Qed.
Lemma rows_alike_numbered : forall {B} (g : nat * list (option R) -> pyres B) (P : entry -> entry -> Prop) rows rows' es es', Forall2 row_says rows es -> Forall2 row_says rows' es' -> Forall2 P es es' ->
  (forall i row row' e e', row_says row e -> row_says row' e' -> P e e' -> g (i, map Some row) = g (i, map Some row')) ->
  forall i, map g (combine (seq i (List.length rows)) (map (map Some) rows)) = map g (combine (seq i (List.length rows')) (map (map Some) rows')).
Proof.
  intros B g P rows rows' es es' F F' A H. revert rows rows' F F'. induction A as [|e e' es es' Pe A IH]; intros rows rows' F F' i; inversion F; inversion F'; subst; [reflexivity|].
  cbn [map List.length seq combine]. f_equal; [eapply H; eassumption|now apply IH].
Qed.

(** C47: the ASCII tool ignores the place and the shape, and a component that is not complete *)
Theorem ascii_ignores : forall gauss start stop n rms noise flags freq0 text text' rows rows' es es', catalogue text rows -> catalogue text' rows' ->
  Forall2 row_says (map (map num_value) rows) es -> Forall2 row_says (map (map num_value) rows') es' -> Forall2 same_spectrum es es' ->
  create_IQU_ascii_data gauss text start stop n rms noise flags freq0 = create_IQU_ascii_data gauss text' start stop n rms noise flags freq0.
Proof.
  intros gauss start stop n rms noise flags freq0 text text' rows rows' es es' C C' F F' A. unfold create_IQU_ascii_data. destruct (n <? 2)%nat; [reflexivity|].
  rewrite (catalogue_read _ _ C), (catalogue_read _ _ C'). cbn [pybind]. rewrite !values_of, (map_length (map Some) (map (map num_value) rows)), (map_length (map Some) (map (map num_value) rows')).
  f_equal. f_equal. apply (rows_alike_numbered _ same_spectrum _ _ _ _ F F' A). intros i row row' e e' Sr Sr' P. cbn [fst snd]. rewrite (row_entry _ _ row e Sr), (row_entry _ _ row' e' Sr').
  destruct e as [h l|h l|], e' as [h' l'|h' l'|]; cbn [same_spectrum] in P; try contradiction; [..|reflexivity]; destruct P as (-> & E1 & E2); cbn [entry_source]; rewrite E1, E2.
  - destruct (create_IQU_spectra_burn _ _ _ _ _ _ _ _); reflexivity.
  - destruct (create_IQU_spectra_diff _ _ _ _ _ _ _ _); reflexivity.
Qed.

(** C47: the cube tool ignores the shape *)
Theorem cube_ignores : forall copies gauss pos start stop n rms k noise flags f0 text text' rows rows' es es', catalogue text rows -> catalogue text' rows' ->
  Forall2 row_says (map (map num_value) rows) es -> Forall2 row_says (map (map num_value) rows') es' -> Forall2 same_but_shape es es' ->
  create_IQU_cube_data copies gauss pos text start stop n rms k noise flags f0 = create_IQU_cube_data copies gauss pos text' start stop n rms k noise flags f0.
Proof.
  intros copies gauss pos start stop n rms k noise flags f0 text text' rows rows' es es' C C' F F' A. unfold create_IQU_cube_data. destruct (n <? 2)%nat; [reflexivity|].
  rewrite (catalogue_read _ _ C), (catalogue_read _ _ C'). cbn [pybind]. rewrite !values_of. f_equal. f_equal.
  apply (rows_alike _ same_but_shape _ _ _ _ F F' A). intros row row' e e' Sr Sr' P. rewrite (row_entry _ _ row e Sr), (row_entry _ _ row' e' Sr').
  destruct e as [h l|h l|], e' as [h' l'|h' l'|]; cbn [same_but_shape] in P; try contradiction; [..|reflexivity]; destruct P as (-> & E1 & E2 & E3 & E4); cbn [entry_source]; rewrite E3, E4.
  - destruct (create_IQU_spectra_burn _ _ _ _ _ _ _ _); cbn [pybind head_row nth]; rewrite ?E1, ?E2; reflexivity.
  - destruct (create_IQU_spectra_diff _ _ _ _ _ _ _ _); cbn [pybind head_row nth]; rewrite ?E1, ?E2; reflexivity.
Qed.

(* ---------------------------------------------------------------- a small catalogue *)

(** the number with one digit *)
Definition num1 (d : nat) : numeral := mk_num None [d] None None.
Lemma num1_value : forall d, num_value (num1 d) = INR d.
Proof. intros. unfold num_value, num1, minus, frac_digits. cbn. field. Qed.
Lemma num1_ok : forall d, (d < 10)%nat -> num_ok (num1 d).
Proof. intros d H. unfold num_ok, num1, frac_digits. cbn. repeat split; auto. discriminate. Qed.
Definition line1 (l : list nat) : str := join (s ",") (map (fun d => show (num1 d)) l).
Lemma foreign_newline : foreign "010"%char.
Proof. repeat split; [apply digit_cases; discriminate|cbn; intuition discriminate|discriminate]. Qed.

Lemma line1_says : forall l, l <> [] -> List.Forall (fun d => (d < 10)%nat) l -> row_line (map num1 l) (line1 l).
Proof.
  intros l N F. assert (O : List.Forall num_ok (map num1 l)) by (apply Forall_map; apply (Forall_impl _ num1_ok F)).
  split; [destruct l; [congruence|discriminate]|]. split; [exact O|]. exists (map (fun d => ([], num1 d, [])) l), []. split; [now rewrite map_map|]. split.
  - apply Forall_map. apply List.Forall_forall. intros d _. split; constructor.
  - split; [now left|]. rewrite app_nil_r. unfold line1. f_equal. rewrite map_map. apply map_ext. intros d. unfold field_text. cbn [fst snd]. now rewrite app_nil_r.
Qed.
Lemma line1_plain : forall l, l <> [] -> List.Forall (fun d => (d < 10)%nat) l -> ~ In "010"%char (line1 l).
Proof.
  intros l N F. unfold line1. apply not_in_join; [cbn; intuition discriminate|].
  replace (map (fun d => show (num1 d)) l) with (map field_text (map (fun d => ([], num1 d, [])) l)) by (rewrite map_map; apply map_ext; intros d; unfold field_text; cbn [fst snd]; now rewrite app_nil_r).
  apply Forall_fields; [exact foreign_newline|rewrite map_map; apply Forall_map; apply (Forall_impl _ num1_ok F)|]. apply Forall_map. apply List.Forall_forall. intros d _. split; constructor.
Qed.
Lemma small_catalogue : forall ls, ls <> [] -> List.Forall (fun l => l <> [] /\ List.Forall (fun d => (d < 10)%nat) l) ls -> catalogue (join ["010"%char] (map line1 ls)) (map (map num1) ls).
Proof.
  intros ls N F. exists (map line1 ls), (map (fun l => Some (map num1 l)) ls). split; [destruct ls; [congruence|discriminate]|]. split.
  - apply Forall_map. apply (Forall_impl _ (P := fun l => l <> [] /\ List.Forall (fun d => (d < 10)%nat) l)); [|exact F]. intros l [A B]. now apply line1_plain.
  - split; [reflexivity|]. split.
    + clear N. induction F as [|l ls [A B] F IH]; constructor; [now apply line1_says|exact IH].
    + clear N F. induction ls as [|l ls IH]; [reflexivity|]. cbn [map flat_map app]. now rewrite <- IH.
Qed.
Lemma small_values : forall ls, map (map num_value) (map (map num1) ls) = map (map INR) ls.
Proof. intros. rewrite map_map. apply map_ext. intros l. rewrite map_map. apply map_ext. exact num1_value. Qed.

(* --------------------------------------------------------------- the help *)

Definition unit_head : head := mk_head 0 0 0 0 0 1 0.
Definition ones (n : nat) : list (option R) := repeat (Some 1) n.
Lemma ones_at : forall flags start stop n k, (k < n)%nat -> ~ flagged flags (channel start stop n k) -> nth k (ones n) None = Some 1.
Proof. intros. unfold ones. apply nth_error_nth. now apply nth_error_repeat. Qed.

(** one source with the spectral index 0 and a flux of one *)
Lemma unit_file : forall e row gauss start stop n, row_says (map INR row) e -> head_of e = Some unit_head -> row <> [] -> List.Forall (fun d => (d < 10)%nat) row ->
  (2 <= n)%nat -> 0 < start -> 0 < stop -> exists f, create_IQU_ascii_data gauss (line1 row) start stop n 0 (ones n) [] None = POk [f] /\
  forall z, polarised e z -> forall k, (k < n)%nat -> file_QU f k = Some (Some (fst (z (l2_of (channel start stop n k)))), Some (snd (z (l2_of (channel start stop n k))))).
Proof.
  intros e row gauss start stop n Sr He Nr Fr N2 Pa Pb.
  destruct (ascii_files gauss start stop n 0 (ones n) [] None (fun _ => 1) N2 Pa Pb (Rle_refl 0) ltac:(discriminate) (ones_at [] start stop n) (line1 row) (map (map num1) [row]) [e]) as (files & E & Nm & G).
  { apply (small_catalogue [row]); [discriminate|]. constructor; [auto|constructor]. }
  { rewrite small_values. constructor; [exact Sr|constructor]. }
  destruct (G 0%nat e unit_head eq_refl He) as (f & If & _ & rs & Er & Lr & A). exists f. split.
  - rewrite E. f_equal. assert (L : List.length files = 1%nat) by (rewrite <- (map_length a_number files), Nm; destruct e; try reflexivity; discriminate).
    destruct files as [|f' [|]]; cbn in L; try lia. destruct If as [->|[]]. reflexivity.
  - intros z Z k Lk. unfold file_QU. rewrite Er. rewrite (nth_error_nth' rs []) by lia. destruct (A z Z k Lk) as [_ A2]. rewrite A2 by (intros (r & [] & _)). cbn [nth].
    cbn [fst snd]. unfold source_QU, source_I, unit_head. cbn [h_flux h_SI]. rewrite Rpower_O by (apply Rdiv_lt_0_compat; [now apply channel_pos|exact Pa]).
    unfold Cmult, RtoC. cbn [fst snd]. repeat f_equal; ring.
Qed.

(** C47: the first two columns of a component are the other way round in the help of both tools *)
Theorem help_columns : forall ty, ty = 1%nat \/ ty = 2%nat -> exists text rows psi p RM more row, catalogue text rows /\ map (map num_value) rows = [row] /\ help_row (INR ty) unit_head psi p RM more row /\
  p = 0 /\ (forall x, In x more -> x = 0) /\
  forall gauss start stop n, (2 <= n)%nat -> 0 < start -> 0 < stop -> exists f, create_IQU_ascii_data gauss text start stop n 0 (ones n) [] None = POk [f] /\
    forall k, (k < n)%nat -> file_QU f k = Some (Some 1, Some 0).
Proof.
  intros ty T. assert (T10 : (ty < 10)%nat) by lia.
  set (more := match ty with 1%nat => [0%nat] | _ => [] end). set (row := (ty :: [0; 0; 0; 0; 0; 1; 0; 1; 0; 0] ++ more)%nat).
  assert (F : List.Forall (fun d => (d < 10)%nat) row) by (unfold row, more; destruct T as [->| ->]; repeat (constructor; [lia|]); constructor).
  exists (line1 row), (map (map num1) [row]), 1, 0, 0, (map INR more), (map INR row).
  split; [apply (small_catalogue [row]); [discriminate|]; constructor; [split; [discriminate|exact F]|constructor]|]. split; [apply (small_values [row])|].
  split; [unfold help_row, row, more; destruct T as [->| ->]; reflexivity|]. split; [reflexivity|]. split; [unfold more; destruct T as [->| ->]; cbn; intuition|].
  intros gauss start stop n N2 Pa Pb. destruct T as [->| ->].
  - destruct (unit_file (Thin unit_head [mk_thin 1 0 0 0]) row gauss start stop n) as (f & E & A); try assumption; try reflexivity; try discriminate.
    { split; [discriminate|]. exists 1, []. split; [lra|]. split; [cbn; lia|]. reflexivity. }
    exists f. split; [exact E|]. intros k Lk. rewrite (A (fun _ => RtoC 1)) by (try exact Lk; intros l2; cbn [map t_p t_psi t_RM t_var]; unfold csum, thin, rad; cbn [fold_right];
      replace (2 * (0 * PI / 180 + 0 * l2)) with 0 by field; rewrite Rmult_0_r, Rmult_0_l, exp_0, cis_0; ring). reflexivity.
  - destruct (unit_file (Slabs unit_head [mk_slab 1 0 0]) row gauss start stop n) as (f & E & A); try assumption; try reflexivity; try discriminate.
    { split; [discriminate|]. exists 2, []. split; [lra|]. split; [cbn; lia|]. reflexivity. }
    exists f. split; [exact E|]. intros k Lk. rewrite (A (fun _ => RtoC 1)); [reflexivity| |exact Lk]. exists (fun _ _ => RtoC 1). split; [intros l2; unfold csum; cbn; ring|].
    intros i c l2 H. destruct i as [|i]; [|destruct i; discriminate]. injection H as <-. cbn [l_p l_psi l_RM].
    assert (TH : forall t, thin 1 (rad 0) (layers_in_front (map l_RM [mk_slab 1 0 0]) 0 + t * 0) l2 = RtoC 1).
    { intros t. unfold thin, rad, layers_in_front. unfold rsum. cbn [map l_RM skipn fold_right]. match goal with |- (_ * cis ?x)%C = _ => replace x with 0 by field end. rewrite cis_0. ring. }
    split.
    + apply (is_RInt_ext (fun _ => 1)); [intros t _; rewrite TH; reflexivity|]. pose proof (@is_RInt_const R_NormedModule 0 1 1) as K. change (scal (1 - 0) 1) with ((1 - 0) * 1) in K. replace ((1 - 0) * 1) with 1 in K by ring. exact K.
    + apply (is_RInt_ext (fun _ => 0)); [intros t _; rewrite TH; reflexivity|]. pose proof (@is_RInt_const R_NormedModule 0 1 0) as K. change (scal (1 - 0) 0) with ((1 - 0) * 0) in K. replace ((1 - 0) * 0) with 0 in K by ring. exact K.
Qed.

(** C47: the dispersion enters as a variance *)
Theorem help_dispersion : exists text rows row, catalogue text rows /\ map (map num_value) rows = [row] /\ row = (1 :: head_row unit_head ++ [1; 0; 0; 2])%list /\
  forall gauss start stop n, (2 <= n)%nat -> 0 < start -> 0 < stop -> exists f, create_IQU_ascii_data gauss text start stop n 0 (ones n) [] None = POk [f] /\
    forall k, (k < n)%nat -> let l2 := l2_of (channel start stop n k) in
      file_QU f k = Some (Some (exp (- 2 * 2 * l2 ^ 2)), Some 0) /\ help_thin 1 0 0 2 l2 = RtoC (exp (- 2 * 2 ^ 2 * l2 ^ 2)) /\ exp (- 2 * 2 * l2 ^ 2) <> exp (- 2 * 2 ^ 2 * l2 ^ 2).
Proof.
  set (row := [1; 0; 0; 0; 0; 0; 1; 0; 1; 0; 0; 2]%nat).
  assert (F : List.Forall (fun d => (d < 10)%nat) row) by (repeat (constructor; [lia|]); constructor).
  exists (line1 row), (map (map num1) [row]), (map INR row).
  split; [apply (small_catalogue [row]); [discriminate|]; constructor; [split; [discriminate|exact F]|constructor]|]. split; [apply (small_values [row])|].
  split; [cbn; repeat f_equal; lra|]. intros gauss start stop n N2 Pa Pb.
  destruct (unit_file (Thin unit_head [mk_thin 1 0 0 2]) row gauss start stop n) as (f & E & A); try assumption; try reflexivity; try discriminate.
  { split; [discriminate|]. exists 1, []. split; [lra|]. split; [cbn; lia|]. cbn. repeat f_equal; lra. }
  exists f. split; [exact E|]. intros k Lk l2.
  assert (C1 : thin 1 (rad 0) 0 = fun _ => RtoC 1).
  { apply FunctionalExtensionality.functional_extensionality. intros x. unfold thin, rad. replace (2 * (0 * PI / 180 + 0 * x)) with 0 by field. rewrite cis_0. ring. }
  split; [|split].
  - rewrite (A (fun l2 => RtoC (exp (- 2 * 2 * l2 ^ 2)))); [reflexivity| |exact Lk]. intros x. cbn [map t_p t_psi t_RM t_var]. rewrite C1. unfold csum. cbn [fold_right]. ring.
  - unfold help_thin. rewrite C1. ring.
  - intros X. apply exp_inv in X. assert (P : 0 < l2).
    { unfold l2, l2_of. pose proof (channel_pos start stop n k Pa Pb Lk N2). apply pow_lt. unfold Rdiv. apply Rmult_lt_0_compat; [lra|now apply Rinv_0_lt_compat]. }
    assert (0 < l2 ^ 2) by now apply pow_lt. lra.
Qed.

(* ------------------------------------------------------- the text of flags *)

(** C47: the ranges of the option; a last number on its own is dropped *)
Theorem flags_read : forall x l odd, flag_text x l odd -> x <> [] -> flag_ranges x = map (fun r => (Some (num_value (fst r)), Some (num_value (snd r)))) l.
Proof.
  intros x l odd (fields & -> & P & E & O & Lo) N. unfold flag_ranges. destruct (join (s ","%string) (map field_text fields)) as [|ch tl] eqn:J; [congruence|]. rewrite <- J.
  assert (NF : fields <> []) by (intros ->; discriminate). change (List.Forall padded fields) in P. change (List.Forall num_ok (map number fields)) in O.
  change (s ","%string) with [","%char]. rewrite split_join; [|destruct fields; [congruence|discriminate]|apply Forall_fields; [exact foreign_comma|exact O|exact P]].
  rewrite pyfloat_fields by assumption. change (map (fun f => snd (fst f)) fields) with (map number fields) in E. rewrite E. rewrite map_app, fm_map.
  cbn [map fst snd]. unfold groups. rewrite (groups_run (fun r => [Some (num_value (fst r)); Some (num_value (snd r))]) 2 l (map (fun n => Some (num_value n)) odd)); [|lia|reflexivity|now rewrite map_length|].
  - rewrite map_map. reflexivity.
  - rewrite app_length. rewrite (flat_map_len _ 2) by reflexivity. lia.
Qed.

(** C47: one field that is no number and there are no flags, without a message *)
Theorem flags_lost : forall x y, x <> [] -> In y (split ","%char x) -> py_float y = PErr -> flag_ranges x = [].
Proof.
  intros x y N I E. unfold flag_ranges. destruct x as [|c x]; [congruence|].
  replace (pyall (map py_float (split ","%char (c :: x)))) with (@PErr (list (option R))); [reflexivity|]. symmetry. revert I. generalize (split ","%char (c :: x)). intros l I.
  induction l as [|a l IH]; [destruct I|]. cbn [map pyall]. destruct I as [->|I]; [now rewrite E|]. rewrite (IH I). destruct (py_float a); reflexivity.
Qed.

(** C67: without a source the flagged channels of the cubes hold the noise *)
Theorem empty_sky : forall gauss pos start stop n rms k noise flags f0 text rows es, (2 <= n)%nat -> 0 <= rms -> catalogue text rows -> Forall2 row_says (map (map num_value) rows) es ->
  (forall e, In e es -> e = Else) ->
  exists F, create_IQU_cube_data true gauss pos text start stop n rms k noise flags f0 = POk F /\
    forall c y x v, (c < n)%nat -> (y < k_ny k)%nat -> (x < k_nx k)%nat -> nth c noise None = Some v -> cell (cu_I F) c y x = Some (rms * gauss 0%nat c y x * v).
Proof.
  intros gauss pos start stop n rms k noise flags f0 text rows es N2 Pr C F A. unfold create_IQU_cube_data. replace (n <? 2)%nat with false by (symmetry; apply Nat.ltb_ge; lia).
  rewrite (catalogue_read _ _ C). cbn [pybind]. rewrite values_of.
  assert (X : forall (g : source -> pyres (option ((R * R) * (list (option R) * list (option R) * list (option R))))) freq, g Other = POk None ->
    exists r, pyall (map (fun e => pybind (row_source freq f0 e) g) (map (map Some) (map (map num_value) rows))) = POk r /\ opts r = []).
  { intros g freq G. clear C. revert F A. generalize (map (map num_value) rows). intros l F A. induction F as [|row e l es Sr F IH]; [exists []; split; reflexivity|].
    destruct IH as (r & E & O); [intros; apply A; now right|]. exists (None :: r). cbn [map pyall]. rewrite E. assert (Ee : e = Else) by (apply A; now left). subst e.
    rewrite (row_else freq f0 row Sr). cbn [pybind]. rewrite G. split; [reflexivity|exact O]. }
  match goal with |- context [pyall (map (fun e => pybind (row_source ?freq f0 e) ?g) _)] => destruct (X g freq eq_refl) as (r & E & O) end.
  rewrite E. cbn [pybind]. destruct (Rlt_dec rms 0); [lra|]. eexists. split; [reflexivity|].
  intros c y x v Lc Ly Lx Ev. unfold cell, vox. cbn [cu_I i_data i_naxis List.length seq rev app map Nat.sub nth]. rewrite O.
  rewrite at_tab_nd by (repeat (constructor; [lia|]); constructor). cbn [nth fold_left]. unfold noisy, col. rewrite Ev. unfold oadd, omul, o2. f_equal. ring.
Qed.
