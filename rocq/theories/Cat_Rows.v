(** Proofs: what a row of a catalogue stands for, and the ASCII files. *)
From Coq Require Import Reals List Arith ZArith Bool Ascii String Lia Lra.
Set Warnings "-ambiguous-paths".
From Coquelicot Require Import Coquelicot.
From Verif Require Import CBase PyRes PyStr PyList NdArray NdIndex Measure_Model Synth_Spec QU_Model QU_Spec Sim_Proofs Cube_Model Cube_Spec Cat_Model Cat_Spec Cat_Text.
From Verif Require Pixfit_Files.
Import ListNotations.
Local Open Scope R_scope.

(* ----------------------------------------------------------------- groups *)

Lemma firstn_exact : forall {A} n (l r : list A), List.length l = n -> firstn n (l ++ r) = l.
Proof. intros A n l r <-. rewrite firstn_app, Nat.sub_diag, firstn_O, firstn_all. apply app_nil_r. Qed.
Lemma skipn_exact : forall {A} n (l r : list A), List.length l = n -> skipn n (l ++ r) = r.
Proof. intros A n l r <-. rewrite skipn_app, Nat.sub_diag, skipn_O, skipn_all. reflexivity. Qed.

Lemma groups_run : forall {A B} (g : B -> list A) n l rest fuel, (0 < n)%nat -> (forall b, List.length (g b) = n) -> (List.length rest < n)%nat ->
  (List.length l <= fuel)%nat -> groups_fuel fuel n (flat_map g l ++ rest) = map g l.
Proof.
  intros A B g n l. induction l as [|b l IH]; intros rest fuel N G L F; cbn [flat_map map app].
  - destruct fuel; cbn [groups_fuel]; [reflexivity|]. apply Nat.ltb_lt in L. now rewrite L.
  - destruct fuel as [|fuel]; [cbn in F; lia|]. cbn [groups_fuel]. rewrite <- app_assoc.
    replace (List.length (g b ++ flat_map g l ++ rest) <? n)%nat with false by (symmetry; apply Nat.ltb_ge; rewrite app_length, G; lia).
    rewrite firstn_exact, skipn_exact by apply G. f_equal. apply IH; auto. cbn in F. lia.
Qed.

Lemma flat_map_len : forall {A B} (g : B -> list A) n l, (forall b, List.length (g b) = n) -> List.length (flat_map g l) = (n * List.length l)%nat.
Proof. intros A B g n l G. induction l as [|b l IH]; cbn; [lia|]. rewrite app_length, G, IH. lia. Qed.

(** C47: the preamble, then one column for every place of the repeated group; an incomplete group at the end is dropped *)
Theorem split_repeat : forall {A B} (d : A) (g : B -> list A) pre l rest n, (0 < n)%nat -> (forall b, List.length (g b) = n) -> (List.length rest < n)%nat -> l <> [] ->
  split_repeat_lst d (pre ++ flat_map g l ++ rest) (List.length pre) n = (pre, map (fun k => map (fun b => nth k (g b) d) l) (seq 0 n)).
Proof.
  intros A B d g pre l rest n N G L E. unfold split_repeat_lst. rewrite firstn_exact, skipn_exact by reflexivity. unfold groups.
  rewrite (groups_run g n l rest) by (auto; rewrite app_length, (flat_map_len g n) by auto; nia). f_equal.
  destruct l as [|b l]; [congruence|]. cbn [map]. apply map_ext. intros k. change (map (fun r => nth k r d) (map g (b :: l)) = map (fun b => nth k (g b) d) (b :: l)). now rewrite map_map.
Qed.

Lemma finite_some : forall l, finite_row (map Some l) = Some l.
Proof. induction l as [|x l IH]; [reflexivity|]. cbn [map finite_row]. now rewrite IH. Qed.

Lemma py_int_between : forall z x, (0 <= z)%Z -> IZR z <= x < IZR z + 1 -> py_int x = z.
Proof.
  intros z x Z [L U]. unfold py_int. destruct (Rle_dec 0 x) as [_|N]; [|exfalso; apply N; apply IZR_le in Z; lra].
  unfold Rfloor. destruct (base_Int_part x) as [B1 B2]. apply Z.le_antisymm; apply Z.lt_succ_r; apply lt_IZR; rewrite succ_IZR; lra.
Qed.

Lemma py_int_ge : forall z x, (0 < z)%Z -> (z <= py_int x)%Z -> IZR z <= x.
Proof.
  intros z x Z L. unfold py_int, Rfloor in L. destruct (Rle_dec 0 x) as [P|N].
  - destruct (base_Int_part x) as [B1 B2]. apply IZR_le in L. lra.
  - exfalso. assert (0 < - x) by lra. destruct (base_Int_part (- x)) as [B1 B2]. assert (Int_part (- x) <= -1)%Z as I by lia. apply IZR_le in I. lra.
Qed.
Lemma py_int_lt : forall z x, (0 < z)%Z -> (py_int x < z)%Z -> x < IZR z.
Proof.
  intros z x Z L. unfold py_int, Rfloor in L. destruct (Rle_dec 0 x) as [P|N].
  - destruct (base_Int_part x) as [B1 B2]. assert (Int_part x + 1 <= z)%Z as I by lia. apply IZR_le in I. rewrite plus_IZR in I. lra.
  - apply IZR_lt in Z. lra.
Qed.

(* ------------------------------------------------------------ one source *)

(** the three spectra, channel by channel *)
Definition spectra_say (freq : list (option R)) (h : head) (f0 : R) (z : R -> C) (si sq su : list (option R)) : Prop :=
  forall k, (k < List.length freq)%nat ->
    match nth k freq None with
    | None => col si k = None /\ col sq k = None /\ col su k = None
    | Some f => 0 < f -> col si k = Some (source_I h f0 f) /\ col sq k = Some (fst (source_QU h f0 f z)) /\ col su k = Some (snd (source_QU h f0 f z))
    end.

Lemma scaled_says : forall freq h f0 x z, spectra_of freq z x -> 0 < f0 ->
  exists si sq su, scale_IQU freq (h_flux h) (h_SI h) (Some f0) x = POk (si, sq, su) /\ spectra_say freq h f0 z si sq su.
Proof.
  intros freq h f0 [[p q] u] z (L0 & L1 & L2 & S) P0. cbn [fst snd] in *. unfold scale_IQU. eexists _, _, _. split; [reflexivity|].
  intros k Lk. cbn [fst snd]. destruct (nth_error freq k) as [f|] eqn:E; [|apply nth_error_None in E; lia].
  rewrite (nth_error_nth _ _ None E). specialize (S k f E). unfold col.
  assert (C0 : forall y, List.length y = List.length freq ->
     nth k (map (fun ab => omul (fst ab) (snd ab)) (combine (map (flux_at (h_flux h) (h_SI h) (Some f0)) freq) y)) None = omul (flux_at (h_flux h) (h_SI h) (Some f0) f) (nth k y None)).
  { intros y Ly. rewrite (nth_indep _ None ((fun ab => omul (fst ab) (snd ab)) (None, None))) by (rewrite map_length, combine_length, map_length; lia).
    rewrite (map_nth (fun ab => omul (fst ab) (snd ab))), combine_nth by (rewrite map_length; auto). cbn [fst snd]. now rewrite (nth_map_err _ _ _ f) by auto. }
  rewrite (C0 q L1), (C0 u L2). rewrite (nth_map_err _ _ _ f) by auto. destruct f as [f|].
  - intros Pf. destruct (S ltac:(lra)) as (_ & -> & ->). unfold flux_at, odiv. destruct (Req_EM_T f0 0); [lra|].
    destruct (Rlt_dec 0 (f / f0)) as [_|N]; [|exfalso; apply N; now apply Rdiv_lt_0_compat].
    unfold omul, o2, source_QU, source_I. cbn [fst snd Cmult RtoC]. repeat split; f_equal; ring.
  - destruct S as [-> ->]. unfold flux_at, odiv, omul, o2. auto.
Qed.

Lemma average_unique : forall f z1 z2, is_average f z1 -> is_average f z2 -> z1 = z2.
Proof.
  intros f [a1 b1] [a2 b2] [A1 B1] [A2 B2]. cbn [fst snd] in *. f_equal.
  - rewrite <- (is_RInt_unique _ _ _ _ A1). now apply is_RInt_unique.
  - rewrite <- (is_RInt_unique _ _ _ _ B1). now apply is_RInt_unique.
Qed.

(** a source has one polarisation *)
Lemma polarised_unique : forall e z1 z2, polarised e z1 -> polarised e z2 -> forall l2, z1 l2 = z2 l2.
Proof.
  intros [h l|h l|] z1 z2 H1 H2 l2; cbn [polarised] in *; [now rewrite H1, H2| |contradiction].
  destruct H1 as (y1 & E1 & A1). destruct H2 as (y2 & E2 & A2). rewrite E1, E2. f_equal. apply map_ext_in. intros i Hi. apply in_seq in Hi.
  destruct (nth_error l i) as [c|] eqn:E; [|apply nth_error_None in E; lia]. eapply average_unique; eauto.
Qed.

Lemma says_ext : forall freq h f0 z z' si sq su, (forall l2, z l2 = z' l2) -> spectra_say freq h f0 z si sq su -> spectra_say freq h f0 z' si sq su.
Proof. intros freq h f0 z z' si sq su E S k Lk. specialize (S k Lk). destruct (nth k freq None); [|exact S]. unfold source_QU in *. now rewrite <- E. Qed.

Lemma nth_cols : forall {A B} (g : A -> B) l i c d, nth_error l i = Some c -> nth i (map g l) d = g c.
Proof. intros. apply nth_error_nth. now rewrite nth_error_map, H. Qed.

Lemma thin_eq : forall freq l, exists z, polarised (Thin (mk_head 0 0 0 0 0 0 0) l) z /\
  create_pqu_spectra_burn freq (map t_p l) (map t_psi l) (map t_RM l) (Some (map t_var l)) =
  POk (split_pqu (map (fun f => match lam_m f with None => None | Some lam => Some (z (lam ^ 2)) end) freq)).
Proof.
  intros freq l. exists (fun l2 => csum (map (fun c => (thin (t_p c) (rad (t_psi c)) (t_RM c) l2 * RtoC (exp (- 2 * t_var c * l2 ^ 2)))%C) l)). split; [intros l2; reflexivity|].
  rewrite burn_eq by now rewrite !map_length. do 2 f_equal. apply map_ext. intros f. destruct (lam_m f) as [lam|]; [|reflexivity]. do 2 f_equal.
  rewrite map_length. apply (nth_ext _ _ (RtoC 0) (RtoC 0)); [now rewrite !map_length, seq_length|]. intros i Hi. rewrite map_length, seq_length in Hi.
  rewrite nth_map_seq by assumption. rewrite Nat.add_0_l. destruct (nth_error l i) as [c|] eqn:E; [|apply nth_error_None in E; lia].
  rewrite !(nth_cols _ _ _ _ _ E). reflexivity.
Qed.

Lemma slab_eq : forall freq l, exists z x, polarised (Slabs (mk_head 0 0 0 0 0 0 0) l) z /\
  create_pqu_spectra_diff true freq (map l_p l) (map l_psi l) (map l_RM l) = POk x /\ spectra_of freq z x.
Proof.
  intros freq l. destruct (sim_diff freq (map l_p l) (map l_psi l) (map l_RM l)) as (x & y & E & S & A); [now rewrite !map_length..|].
  eexists _, x. split; [|split; [exact E|exact S]]. exists y. split; [intros l2; now rewrite map_length|]. intros i c l2 H.
  assert (i < List.length l)%nat by (apply nth_error_Some; congruence). specialize (A i l2 ltac:(now rewrite map_length)). rewrite !(nth_cols _ _ _ _ _ H) in A. exact A.
Qed.

Lemma polarised_head : forall e e' z, match e, e' with Thin _ l, Thin _ l' => l = l' | Slabs _ l, Slabs _ l' => l = l' | _, _ => False end -> polarised e z -> polarised e' z.
Proof. intros [h l|h l|] [h' l'|h' l'|] z E H; try contradiction; subst; exact H. Qed.

Lemma fm_map : forall {A B C : Type} (f : B -> C) (g : A -> list B) l, map f (flat_map g l) = flat_map (fun a => map f (g a)) l.
Proof. intros A B C f g l. induction l as [|a l IH]; [reflexivity|]. cbn [flat_map]. now rewrite map_app, IH. Qed.

(** C47: the spectra of a row are those of the source its columns describe *)
Theorem row_spectra : forall freq f0 row e h, row_says row e -> head_of e = Some h -> 0 < f0 ->
  exists z si sq su, polarised e z /\ row_source freq f0 (map Some row) = POk (Source (head_row h) si sq su) /\ spectra_say freq h f0 z si sq su.
Proof.
  intros freq f0 row [h' l|h' l|] h S H P0; cbn [head_of] in H; [injection H as ->|injection H as ->|discriminate].
  - destruct S as (N & ty & rest & T & L & ->). destruct (thin_eq freq l) as (z & Z & E).
    destruct (scaled_says freq h f0 _ z (split_spectra freq z) P0) as (si & sq & su & E2 & S2). exists z, si, sq, su. split; [exact Z|]. split; [|exact S2].
    cbn [map row_source]. rewrite (py_int_between 1 ty) by (try lia; cbn; lra). cbn [Z.eqb Pos.eqb].
    rewrite !map_app, fm_map. change 7%nat with (List.length (map (@Some R) (head_row h))).
    rewrite (split_repeat None (fun c => map Some [t_p c; t_psi c; t_RM c; t_var c]) (map Some (head_row h)) l (map Some rest) 4); [|lia|reflexivity|now rewrite map_length|exact N].
    cbn [seq map nth head_row List.length Nat.ltb Nat.leb Nat.eqb orb finite_row option_map].
    replace (finite_row (map (fun c => Some (t_p c)) l)) with (Some (map t_p l)) by (rewrite <- (finite_some (map t_p l)), map_map; reflexivity).
    replace (finite_row (map (fun c => Some (t_psi c)) l)) with (Some (map t_psi l)) by (rewrite <- (finite_some (map t_psi l)), map_map; reflexivity).
    replace (finite_row (map (fun c => Some (t_RM c)) l)) with (Some (map t_RM l)) by (rewrite <- (finite_some (map t_RM l)), map_map; reflexivity).
    replace (finite_row (map (fun c => Some (t_var c)) l)) with (Some (map t_var l)) by (rewrite <- (finite_some (map t_var l)), map_map; reflexivity).
    cbn [nth]. unfold create_IQU_spectra_burn. rewrite E. cbn [pybind]. rewrite E2. reflexivity.
  - destruct S as (N & ty & rest & T & L & ->). destruct (slab_eq freq l) as (z & x & Z & E & S).
    destruct (scaled_says freq h f0 x z S P0) as (si & sq & su & E2 & S2). exists z, si, sq, su. split; [exact Z|]. split; [|exact S2].
    cbn [map row_source]. rewrite (py_int_between 2 ty) by (try lia; cbn; lra). cbn [Z.eqb Pos.eqb].
    rewrite !map_app, fm_map. change 7%nat with (List.length (map (@Some R) (head_row h))).
    rewrite (split_repeat None (fun c => map Some [l_p c; l_psi c; l_RM c]) (map Some (head_row h)) l (map Some rest) 3); [|lia|reflexivity|now rewrite map_length|exact N].
    cbn [seq map nth head_row List.length Nat.ltb Nat.leb Nat.eqb orb finite_row option_map].
    replace (finite_row (map (fun c => Some (l_p c)) l)) with (Some (map l_p l)) by (rewrite <- (finite_some (map l_p l)), map_map; reflexivity).
    replace (finite_row (map (fun c => Some (l_psi c)) l)) with (Some (map l_psi l)) by (rewrite <- (finite_some (map l_psi l)), map_map; reflexivity).
    replace (finite_row (map (fun c => Some (l_RM c)) l)) with (Some (map l_RM l)) by (rewrite <- (finite_some (map l_RM l)), map_map; reflexivity).
    cbn [nth]. unfold create_IQU_spectra_diff. rewrite E. cbn [pybind]. rewrite E2. reflexivity.
Qed.

Lemma row_else : forall freq f0 row, row_says row Else -> row_source freq f0 (map Some row) = POk Other.
Proof.
  intros freq f0 row (ty & rest & -> & N). cbn [map row_source].
  destruct (Z.eqb_spec (py_int ty) 1) as [E|_]; [exfalso; apply N; split; [apply (py_int_ge 1); lia|apply (Rlt_trans _ 2); [apply (py_int_lt 2); lia|lra]]|].
  destruct (Z.eqb_spec (py_int ty) 2) as [E|_]; [exfalso; apply N; split; [apply (Rle_trans _ 2); [lra|apply (py_int_ge 2); lia]|apply (py_int_lt 3); lia]|].
  reflexivity.
Qed.

(** C47: a row of one of the two types without a whole component ends the run *)
Theorem row_short : forall freq f0 ty rest, (1 <= ty < 2 /\ (List.length rest < 11)%nat) \/ (2 <= ty < 3 /\ (List.length rest < 10)%nat) ->
  row_source freq f0 (map Some (ty :: rest)) = PErr.
Proof.
  intros freq f0 ty rest H. cbn [map row_source].
  assert (X : forall n, (List.length rest < 7 + n)%nat -> (0 < n)%nat -> let '(pre, parm) := split_repeat_lst None (map Some rest) 7 n in ((List.length pre <? 7) || (List.length parm =? 0))%nat = true).
  { intros n L N. unfold split_repeat_lst. destruct (Nat.lt_ge_cases (List.length rest) 7) as [S|S].
    - replace (List.length (firstn 7 (map Some rest)) <? 7)%nat with true; [reflexivity|]. symmetry. apply Nat.ltb_lt. rewrite firstn_length, map_length. lia.
    - replace (groups n (skipn 7 (map Some rest))) with (@nil (list (option R))); [apply orb_true_r|]. unfold groups.
      assert (K : (List.length (skipn 7 (map (@Some R) rest)) < n)%nat) by (rewrite skipn_length, map_length; lia). apply Nat.ltb_lt in K.
      destruct (List.length (skipn 7 (map Some rest))) eqn:E2; cbn [groups_fuel]; [reflexivity|]. rewrite E2, K. reflexivity. }
  destruct H as [[T L]|[T L]].
  - rewrite (py_int_between 1 ty) by (try lia; cbn; lra). cbn [Z.eqb Pos.eqb]. specialize (X 4%nat ltac:(lia) ltac:(lia)). destruct (split_repeat_lst None (map Some rest) 7 4). now rewrite X.
  - rewrite (py_int_between 2 ty) by (try lia; cbn; lra). cbn [Z.eqb Pos.eqb]. specialize (X 3%nat ltac:(lia) ltac:(lia)). destruct (split_repeat_lst None (map Some rest) 7 3). now rewrite X.
Qed.

(* -------------------------------------------------------- the frequencies *)

Lemma in_ranges_iff : forall flags f, in_ranges flags f = true <-> flagged flags f.
Proof.
  intros flags f. unfold in_ranges, flagged. rewrite existsb_exists. split; intros (r & Hr & H); exists r; (split; [exact Hr|]).
  - apply andb_true_iff in H. unfold Rleb in H. destruct H as [H1 H2]. destruct (Rle_dec (fst r) f); [|discriminate]. destruct (Rle_dec f (snd r)); [|discriminate]. auto.
  - unfold Rleb. destruct (Rle_dec (fst r) f); [|tauto]. destruct (Rle_dec f (snd r)); [reflexivity|tauto].
Qed.

Lemma linspace_at : forall a b n k, (k < n)%nat -> (2 <= n)%nat -> nth k (linspace a b n) 0 = channel a b n k.
Proof.
  intros a b n k L N. unfold linspace, channel. rewrite (nth_map_seq (fun i => a + INR i * ((b - a) / INR (n - 1)))) by assumption. rewrite Nat.add_0_l.
  field. apply not_0_INR. lia.
Qed.

Lemma freq_at : forall flags a b n k, (k < n)%nat -> (2 <= n)%nat ->
  nth k (flag_freqs flags (linspace a b n)) None = if in_ranges flags (channel a b n k) then None else Some (channel a b n k).
Proof.
  intros flags a b n k L N. unfold flag_freqs. rewrite <- (linspace_at a b n k L N).
  assert (Ln : List.length (linspace a b n) = n) by (unfold linspace; now rewrite map_length, seq_length).
  rewrite (nth_indep _ None ((fun f => if in_ranges flags f then None else Some f) 0)) by (rewrite map_length; lia). apply (map_nth (fun f => if in_ranges flags f then None else Some f)).
Qed.

Lemma freqs_length : forall flags a b n, List.length (flag_freqs flags (linspace a b n)) = n.
Proof. intros. unfold flag_freqs, linspace. now rewrite !map_length, seq_length. Qed.

Lemma channel_pos : forall a b n k, 0 < a -> 0 < b -> (k < n)%nat -> (2 <= n)%nat -> 0 < channel a b n k.
Proof.
  intros a b n k A B L N. unfold channel. assert (P : 0 < INR (n - 1)) by (apply lt_0_INR; lia).
  assert (T : 0 <= INR k / INR (n - 1) <= 1).
  { split; [apply Rle_mult_inv_pos; [apply pos_INR|exact P]|]. apply (Rmult_le_reg_r (INR (n - 1))); [exact P|]. unfold Rdiv. rewrite Rmult_assoc, Rinv_l, Rmult_1_r, Rmult_1_l by lra. apply le_INR. lia. }
  replace (a + (b - a) * (INR k / INR (n - 1))) with (a * (1 - INR k / INR (n - 1)) + b * (INR k / INR (n - 1))) by ring.
  destruct (Req_dec (INR k / INR (n - 1)) 0) as [->|Nz]; [lra|]. assert (0 < b * (INR k / INR (n - 1))) by (apply Rmult_lt_0_compat; lra).
  assert (0 <= a * (1 - INR k / INR (n - 1))) by (apply Rmult_le_pos; lra). lra.
Qed.

(* --------------------------------------------------------------- the files *)

Lemma opts_app : forall {A} (a b : list (option A)), opts (a ++ b) = (opts a ++ opts b)%list.
Proof. intros A a b. induction a as [|[x|] a IH]; cbn [app opts]; [reflexivity|now rewrite IH|exact IH]. Qed.

Section Ascii.
  Variables (gauss : nat -> nat -> nat -> R) (start stop : R) (n : nat) (rms : R) (noise : list (option R)) (flags : list (R * R)) (freq0 : option R) (w : nat -> R).
  Hypothesis N2 : (2 <= n)%nat.
  Hypothesis Ps : 0 < start.
  Hypothesis Pe : 0 < stop.
  Hypothesis Pr : 0 <= rms.
  Hypothesis P0 : forall v, freq0 = Some v -> 0 < v.
  Hypothesis Hw : forall k, (k < n)%nat -> ~ flagged flags (channel start stop n k) -> nth k noise None = Some (w k).
  Let f0 := match freq0 with Some f => f | None => start end.
  Let freq := flag_freqs flags (linspace start stop n).

  Lemma f0_pos : 0 < f0.
  Proof. unfold f0. destruct freq0; auto. Qed.

  Let good_file := source_file gauss start stop n rms w flags f0.

  Definition one (ie : nat * list (option R)) : pyres (option ascii_file) := pybind (row_source freq f0 (snd ie)) (fun x =>
    match x with
    | Other => POk None
    | NotFinite => if Rlt_dec rms 0 then PErr else POk (Some (mk_ascii (fst ie + 1) None))
    | Source _ si sq su =>
        if Rlt_dec rms 0 then PErr
        else POk (Some (mk_ascii (fst ie + 1) (Some (map (fun k =>
          [col freq k;
           noisy (col si k) rms (gauss (fst ie) 1%nat k) (col noise k); noisy (col sq k) rms (gauss (fst ie) 2%nat k) (col noise k);
           noisy (col su k) rms (gauss (fst ie) 3%nat k) (col noise k);
           error_of rms (gauss (fst ie) 4%nat k) (col noise k); error_of rms (gauss (fst ie) 5%nat k) (col noise k);
           error_of rms (gauss (fst ie) 6%nat k) (col noise k)]) (seq 0 n)))))
    end).

  Lemma one_source : forall i row e h, row_says row e -> head_of e = Some h -> exists f, one (i, map Some row) = POk (Some f) /\ good_file i e h f.
  Proof.
    intros i row e h S H. destruct (row_spectra freq f0 row e h S H f0_pos) as (z & si & sq & su & Z & E & Sy).
    unfold one. cbn [fst snd]. rewrite E. cbn [pybind]. destruct (Rlt_dec rms 0); [lra|]. eexists. split; [reflexivity|].
    split; [cbn; lia|]. cbn [a_rows]. eexists. split; [reflexivity|]. split; [now rewrite map_length, seq_length|].
    intros z' Z' k Lk. rewrite nth_map_seq by assumption. rewrite Nat.add_0_l.
    apply (says_ext _ _ _ _ _ _ _ _ (polarised_unique e z z' Z Z')) in Sy. specialize (Sy k ltac:(unfold freq; now rewrite freqs_length)).
    unfold freq in Sy. rewrite freq_at in Sy by assumption. unfold col at 1. unfold freq. rewrite freq_at by assumption.
    assert (Pk := channel_pos start stop n k Ps Pe Lk N2). split; intros F.
    - apply in_ranges_iff in F. rewrite F in *. destruct Sy as (-> & -> & ->). unfold noisy, oadd, omul, o2. eexists _, _, _. reflexivity.
    - assert (F' : in_ranges flags (channel start stop n k) = false).
      { destruct (in_ranges flags (channel start stop n k)) eqn:X; [|reflexivity]. exfalso. apply F, in_ranges_iff, X. }
      rewrite F' in *. destruct (Sy Pk) as (-> & -> & ->). unfold col. rewrite (Hw k Lk F). unfold noisy, error_of, oadd, omul, o2. cbn [fst snd]. reflexivity.
  Qed.

  Lemma all_rows : forall rows es, Forall2 row_says rows es -> forall i,
    exists l, pyall (map one (combine (seq i (List.length rows)) (map (map Some) rows))) = POk l /\
      Forall2 (fun ie o => match head_of (snd ie) with None => o = None | Some h => exists f, o = Some f /\ good_file (fst ie) (snd ie) h f end) (combine (seq i (List.length es)) es) l.
  Proof.
    induction 1 as [|row e rows es Sr F IH]; intros i.
    - exists []. split; [reflexivity|constructor].
    - destruct (IH (S i)) as (l & E & G). cbn [List.length seq map combine pyall]. rewrite E. destruct (head_of e) as [h|] eqn:He.
      + destruct (one_source i row e h Sr He) as (f & -> & Gf). exists (Some f :: l). split; [reflexivity|]. constructor; [|exact G]. cbn [fst snd]. rewrite He. eauto.
      + exists (None :: l). destruct e; try discriminate. unfold one at 1. cbn [snd]. rewrite (row_else freq f0 row Sr). split; [reflexivity|]. constructor; [reflexivity|exact G].
  Qed.

  (** C47: from the text of the catalogue to the files *)
  Theorem ascii_files : forall text rows es, catalogue text rows -> Forall2 row_says (map (map num_value) rows) es ->
    exists files, create_IQU_ascii_data gauss text start stop n rms noise flags freq0 = POk files /\
      map a_number files = file_numbers es /\
      forall i e h, nth_error es i = Some e -> head_of e = Some h -> exists f, In f files /\ good_file i e h f.
  Proof.
    intros text rows es C F. unfold create_IQU_ascii_data. replace (n <? 2)%nat with false by (symmetry; apply Nat.ltb_ge; lia).
    rewrite (catalogue_read text rows C). cbn [pybind]. fold f0. fold freq.
    replace (map (map (fun n0 => Some (num_value n0))) rows) with (map (map (@Some R)) (map (map num_value) rows)).
    2:{ rewrite map_map. apply map_ext. intros r. now rewrite map_map. }
    destruct (all_rows _ _ F 0) as (l & E & G). rewrite !map_length in *.
    change (pyall (map _ (combine (seq 0 (List.length rows)) (map (map Some) (map (map num_value) rows)))))
      with (pyall (map one (combine (seq 0 (List.length rows)) (map (map Some) (map (map num_value) rows))))).
    rewrite E. cbn [pybind]. exists (opts l). split; [reflexivity|]. split.
    - unfold file_numbers. clear - G. induction G as [|ie o ies l H G IH]; [reflexivity|]. cbn [flat_map opts map]. destruct ie as [i e]. cbn [fst snd] in *.
      destruct e; cbn [head_of] in H; [destruct H as (f & -> & (K & _))..|subst o]; cbn [opts map app]; rewrite ?K, IH; reflexivity.
    - intros i e h He Hh. assert (X : nth_error (combine (seq 0 (List.length es)) es) i = Some (i, e)).
      { assert (L : (i < List.length es)%nat) by (apply nth_error_Some; congruence).
        rewrite (nth_error_nth' _ (0%nat, e)) by (rewrite combine_length, seq_length; lia). rewrite combine_nth by apply seq_length. rewrite seq_nth by exact L. now rewrite (nth_error_nth _ _ e He). }
      clear - G X Hh. revert X. generalize i at 1 as j. intros j X. revert j X. induction G as [|ie o ies l H G IH]; intros j X; [destruct j; discriminate|]. destruct j as [|j]; cbn in X.
      + injection X as ->. cbn [fst snd] in H. rewrite Hh in H. destruct H as (f & -> & Gf). exists f. split; [now left|exact Gf].
      + destruct (IH j X) as (f & If & Gf). exists f. split; [|exact Gf]. destruct o; [now right|exact If].
  Qed.
End Ascii.
