(** The chunk theorems. *)
From Coq Require Import Reals List Arith ZArith Bool Ascii String Lia Lra Permutation Sorted.
From Verif Require Import PyRes PyList PyList_Proofs PyStr PyStr_Proofs NdArray Chunk_Model Chunk_Spec Chunk_Proofs.
Import ListNotations.
Local Arguments Nat.ltb : simpl never.
Local Arguments Nat.leb : simpl never.
Local Arguments s : simpl never.

Lemma ceil_div_spec : forall p n, 1 <= n -> 1 <= p -> 1 <= ceil_div p n /\ (ceil_div p n - 1) * n < p <= ceil_div p n * n.
Proof.
  intros p n Hn Hp. unfold ceil_div. pose proof (Nat.div_mod (p + n - 1) n ltac:(lia)) as D.
  pose proof (Nat.mod_upper_bound (p + n - 1) n ltac:(lia)). set (q := (p + n - 1) / n) in *.
  destruct q; [lia|]. cbn [Nat.sub]. rewrite Nat.sub_0_r. nia.
Qed.

Section Laws.
  Context {A H : Type} (zero : A).
  Implicit Types (d : @fs A H) (f : @fits A H).

  (** the pixels of chunk i *)
  Definition idx_of (N num npix i : nat) : list nat := if i <? num - 1 then chunk_idx N i else last_idx N i npix.

  Lemma create_ok : forall infile prefix N d f nx ny rest,
    fs_get infile d = Some f -> f_naxis f = nx :: ny :: rest -> 1 <= N < nx * ny ->
    let num := ceil_div (nx * ny) N in let dg := n_digits num in
    exists d1, create_chunks zero infile prefix (Z.of_nat N) d = (d1, POk tt) /\
      2 <= num /\ num < 10 ^ dg /\ 1 <= dg /\
      (forall n, In n (map fst d1) <-> (exists i, i < num /\ n = chunk_name prefix dg i) \/ In n (map fst d)) /\
      (NoDup (map fst d) -> NoDup (map fst d1)) /\
      (forall i, i < num -> fs_get (chunk_name prefix dg i) d1 = Some (chunk_file zero f nx ny (idx_of N num (nx * ny) i))) /\
      others_same (map (chunk_name prefix dg) (seq 0 num)) d d1.
  Proof.
    intros infile prefix N d f nx ny rest E1 E2 HN num dg.
    destruct (ceil_div_spec (nx * ny) N ltac:(lia) ltac:(lia)) as (C1 & C2 & C3). fold num in C1, C2, C3.
    assert (N2 : 2 <= num) by nia.
    destruct (n_digits_spec num C1) as [D1 D2]. fold dg in D1, D2.
    unfold create_chunks. rewrite E1, E2. destruct (Z.leb_spec (Z.of_nat N) 0); [lia|]. rewrite Nat2Z.id. fold num. fold dg.
    destruct (Nat.eqb_spec num 0); [lia|]. destruct (Nat.eqb_spec num 1); [lia|].
    eexists. split; [reflexivity|]. split; auto. split; auto. split; auto.
    (* view the last write as part of the fold *)
    set (name := chunk_name prefix dg).
    set (file := fun i => chunk_file zero f nx ny (idx_of N num (nx * ny) i)).
    match goal with |- context [fs_put ?a ?b ?c] => set (D := fs_put a b c) end.
    assert (ED : D = fold_left (fun acc i => fs_put (name i) (file i) acc) (seq 0 num) d).
    { unfold D. replace (seq 0 num) with (seq 0 (num - 1) ++ [num - 1]).
      2:{ replace num with (S (num - 1)) at 3 by lia. rewrite seq_S. reflexivity. }
      rewrite fold_left_app. cbn [fold_left]. fold name. unfold file at 1, idx_of. rewrite Nat.ltb_irrefl. f_equal.
      assert (G : forall l acc, (forall i, In i l -> i < num - 1) ->
        fold_left (fun acc i => fs_put (name i) (chunk_file zero f nx ny (chunk_idx N i)) acc) l acc =
        fold_left (fun acc i => fs_put (name i) (file i) acc) l acc).
      { induction l as [|i l IH]; intros acc Hl; cbn [fold_left]; auto. rewrite IH by (intros; apply Hl; now right).
        assert (file i = chunk_file zero f nx ny (chunk_idx N i)) as ->; [|reflexivity].
        unfold file, idx_of. rewrite (proj2 (Nat.ltb_lt i (num - 1))) by (apply Hl; now left). reflexivity. }
      apply G. intros i I. apply in_seq in I. lia. }
    rewrite ED. destruct (fold_put name file (seq 0 num) d) as (P1 & P2 & P3 & P4).
    split; [|split; [|split]].
    - intros n'. rewrite P1. split.
      + intros [(i & I & ->)|I]; [left; exists i; split; auto; apply in_seq in I; lia|auto].
      + intros [(i & I & ->)|I]; [left; exists i; split; auto; apply in_seq; lia|auto].
    - exact P2.
    - intros i Hi. apply P4; [|apply in_seq; lia]. intros a b Ia Ib E. apply in_seq in Ia. apply in_seq in Ib.
      apply (chunk_name_inj prefix dg); auto; lia.
    - intros n' Hn'. apply P3. intros (i & I & ->). apply Hn'. apply in_map_iff. eauto.
  Qed.

  Lemma chunk_names_found : forall prefix dg num d, 1 <= dg -> num < 10 ^ dg -> NoDup (map fst d) ->
    (forall n, In n (map fst d) -> looks_like_chunk prefix n -> exists i, i < num /\ n = chunk_name prefix dg i) ->
    (forall i, i < num -> In (chunk_name prefix dg i) (map fst d)) ->
    sort (filter (glob_match prefix (s "fits")) (map fst d)) = map (chunk_name prefix dg) (seq 0 num).
  Proof.
    intros prefix dg num d D1 D2 ND Only All. apply sort_unique.
    - apply names_sorted; lia.
    - apply NoDup_Permutation.
      + now apply NoDup_filter.
      + apply names_nodup; lia.
      + intros n. rewrite filter_In, glob_match_spec, (in_map_iff (chunk_name prefix dg)). split.
        * intros [I L]. destruct (Only n I L) as (i & Hi & ->). exists i. split; auto. apply in_seq. lia.
        * intros (i & <- & I). apply in_seq in I. split; [apply All; lia|].
          exists (fixed dg i). split.
          -- intros K. pose proof (fixed_digits dg i) as F. rewrite forallb_forall in F. specialize (F _ K). discriminate.
          -- now rewrite chunk_name_fixed by lia.
  Qed.

  Lemma idx_of_in : forall N num npix i k, 1 <= N -> i < num -> (num - 1) * N < npix ->
    In k (idx_of N num npix i) <-> i * N <= k < i * N + N /\ k < npix.
  Proof.
    intros N num npix i k HN Hi B. unfold idx_of. destruct (Nat.ltb_spec i (num - 1)).
    - rewrite chunk_idx_in. split; [|tauto]. intros K. split; auto. nia.
    - apply last_idx_in.
  Qed.

  Lemma chunk_idx_length : forall N i, List.length (chunk_idx N i) = N.
  Proof. intros. unfold chunk_idx. now rewrite map_length, seq_length. Qed.

  Theorem chunk_round_trip : forall infile prefix N (d : @fs A H) (f : @fits A H) nx ny rest,
    fs_get infile d = Some f -> f_naxis f = nx :: ny :: rest -> List.length rest <= 2 -> well_formed f ->
    1 <= N < nx * ny -> NoDup (map fst d) -> marker_free prefix ->
    let num := ceil_div (nx * ny) N in
    let name := chunk_name prefix (n_digits num) in
    (forall n, In n (map fst d) -> looks_like_chunk prefix n -> exists i, i < num /\ n = name i) ->
    exists d1, create_chunks zero infile prefix (Z.of_nat N) d = (d1, POk tt) /\
      others_same (map name (seq 0 num)) d d1 /\
      forall i out overwrite, i < num -> (forall j, j < num -> out <> name j) ->
        (fs_get out d1 = None \/ overwrite = true) ->
        exists d2, assemble_chunks zero (name i) (Some out) overwrite d1 = (d2, POk tt) /\
          fs_get out d2 = Some (mk_fits (f_naxis f) None (f_rest f) (f_data f)) /\
          others_same [out] d1 d2.
  Proof.
    intros infile prefix N d f nx ny rest E1 E2 Hr WF HN ND MF num name Only.
    destruct (create_ok infile prefix N d f nx ny rest E1 E2 HN) as (d1 & EC & N2 & D1 & D2 & Nm & ND1 & Get & Oth).
    fold num in N2, D1, D2, Nm, Get, Oth. fold name in Nm, Get, Oth.
    destruct (ceil_div_spec (nx * ny) N ltac:(lia) ltac:(lia)) as (C1 & C2 & C3). fold num in C1, C2, C3.
    exists d1. split; [exact EC|]. split; [exact Oth|].
    intros i out ow Hi Hout Hex.
    assert (Files : sort (filter (glob_match prefix (s "fits")) (map fst d1)) = map name (seq 0 num)).
    { apply chunk_names_found; auto.
      - intros n I L. apply Nm in I. destruct I as [(j & Hj & ->)|I]; [eauto|]. now apply Only.
      - intros j Hj. apply Nm. left. eauto. }
    unfold assemble_chunks.
    assert (RS : re_search (name i) = Some (prefix, s "fits")).
    { unfold name. rewrite chunk_name_fixed by lia. apply re_search_chunk; auto. now apply fixed_numeral. }
    rewrite RS, Files.
    destruct (map name (seq 0 num)) as [|c0 cs] eqn:EM.
    { exfalso. apply (f_equal (@List.length _)) in EM. rewrite map_length, seq_length in EM. cbn in EM. lia. }
    assert (Ec0 : c0 = name 0).
    { apply (f_equal (fun l => nth 0 l [])) in EM. cbn in EM. rewrite <- EM.
      rewrite nth_indep with (d' := name 0) by (rewrite map_length, seq_length; lia). rewrite map_nth, seq_nth by lia. reflexivity. }
    rewrite Ec0, (Get 0) by lia. cbn [chunk_file f_old f_naxis f_rest]. rewrite E2. cbn [skipn].
    assert (I0 : idx_of N num (nx * ny) 0 = chunk_idx N 0) by (unfold idx_of; rewrite (proj2 (Nat.ltb_lt 0 (num - 1))) by lia; reflexivity).
    rewrite I0, chunk_idx_length.
    destruct (Nat.eqb_spec N 0); [lia|]. cbn [orb].
    destruct (Nat.ltb_spec 4 (S (List.length (1 :: rest)))) as [K|_]; [cbn in K; lia|].
    destruct (Nat.ltb_spec (S (List.length (1 :: rest))) 2) as [K|_]; [cbn in K; lia|]. cbn [orb]. fold num.
    assert (EX : (match fs_get out d1 with Some _ => true | None => false end) && negb ow = false).
    { destruct Hex as [-> | ->]; [reflexivity|]. destruct (fs_get out d1); reflexivity. }
    rewrite EX.
    assert (LN : List.length (name 0 :: cs) = num).
    { rewrite <- Ec0, <- EM, map_length, seq_length. reflexivity. }
    rewrite LN, Nat.eqb_refl. cbn [negb]. destruct (Nat.leb_spec num 1); [lia|].
    rewrite <- Ec0, <- EM.
    set (blank := mk_fits (nx :: ny :: rest) None (f_rest f) (repeat zero (prodn rest * (ny * nx)))).
    set (d1' := fs_put out blank d1).
    assert (Nth : forall j, j < num -> nth j (map name (seq 0 num)) [] = name j).
    { intros j Hj. rewrite nth_indep with (d' := name 0) by (rewrite map_length, seq_length; lia). rewrite map_nth, seq_nth by lia. reflexivity. }
    assert (Put : forall j large, j < num ->
      put_chunk zero nx ny rest (nth j (map name (seq 0 num)) []) (idx_of N num (nx * ny) j) d1' large =
      POk (assign zero nx ny (prodn rest) (idx_of N num (nx * ny) j) (take_chunk zero nx ny (prodn rest) (f_data f) (idx_of N num (nx * ny) j)) large)).
    { intros j large Hj. rewrite Nth by auto. unfold put_chunk, d1'. rewrite fs_get_put, str_eqb_neq by (intros X; apply (Hout j Hj); auto).
      rewrite Get by auto. cbn [chunk_file f_naxis f_data]. rewrite E2. cbn [skipn].
      destruct list_eq_dec; [reflexivity|congruence]. }
    assert (LD : List.length (f_data f) = prodn rest * (ny * nx)).
    { rewrite WF, E2. cbn [prodn fold_right]. unfold prodn. cbn. fold (prodn rest). nia. }
    set (S0 := fun (n : nat) (p : nat) => exists r k j, r < prodn rest /\ j < n /\ In k (idx_of N num (nx * ny) j) /\ p = pix_pos nx ny r k).
    assert (Step : forall j large, j < num -> agrees zero (f_data f) (S0 j) large ->
      exists large', put_chunk zero nx ny rest (nth j (map name (seq 0 num)) []) (idx_of N num (nx * ny) j) d1' large = POk large' /\
        agrees zero (f_data f) (S0 (S j)) large').
    { intros j large Hj Ag. rewrite Put by auto. eexists. split; [reflexivity|].
      assert (B : forall k, In k (idx_of N num (nx * ny) j) -> k < nx * ny) by (intros k Ik; apply idx_of_in in Ik; auto; lia).
      pose proof (assign_agrees zero nx ny (prodn rest) (f_data f) (idx_of N num (nx * ny) j) large (S0 j) LD B Ag) as [L' Ag'].
      split; auto. intros p (r & k & j' & R1 & R2 & R3 & ->). apply Ag'.
      destruct (Nat.eq_dec j' j) as [->|]; [right; eauto|]. left. exists r, k, j'. repeat split; auto. lia. }
    assert (Loop : forall n, n <= num - 1 -> exists large,
      fold_left (fun acc i => pybind acc (fun large => put_chunk zero nx ny rest (nth i (map name (seq 0 num)) []) (chunk_idx N i) d1' large))
        (seq 0 n) (POk (f_data blank)) = POk large /\ agrees zero (f_data f) (S0 n) large).
    { intros n1. induction n1 as [|n1 IH]; intros Hn.
      - cbn [seq fold_left]. eexists. split; [reflexivity|]. split; [cbn [blank f_data]; now rewrite repeat_length|].
        intros p (r & k & j & _ & K & _). lia.
      - destruct IH as (large & EL & Ag); [lia|]. rewrite seq_S, fold_left_app, EL. cbn [fold_left pybind Nat.add].
        destruct (Step n1 large) as (large' & EP & Ag'); [lia|auto|].
        assert (In_ : idx_of N num (nx * ny) n1 = chunk_idx N n1) by (unfold idx_of; rewrite (proj2 (Nat.ltb_lt n1 (num - 1))) by lia; reflexivity).
        rewrite In_ in EP. eauto. }
    destruct (Loop (num - 1) (le_n _)) as (large & EL & Ag).
    destruct (Step (num - 1) large) as (large' & EP & Ag'); [lia|auto|].
    assert (Il : idx_of N num (nx * ny) (num - 1) = last_idx N (num - 1) (nx * ny)) by (unfold idx_of; rewrite Nat.ltb_irrefl; reflexivity).
    rewrite Il in EP. cbv zeta in EL |- *. rewrite EL. cbn [pybind]. rewrite EP.
    eexists. split; [reflexivity|].
    assert (EqD : large' = f_data f).
    { destruct Ag' as [L' Ag']. apply nth_ext with zero zero; auto. intros p Hp. apply Ag'.
      rewrite L', LD in Hp. destruct (pix_pos_surj nx ny (prodn rest) p Hp) as (r & k & Hrr & Hk & ->).
      exists r, k, (k / N). pose proof (Nat.div_mod k N ltac:(lia)) as DM. pose proof (Nat.mod_upper_bound k N ltac:(lia)) as MU.
      assert (Q : k / N < num) by (apply Nat.div_lt_upper_bound; lia).
      repeat split; auto; [lia|]. apply idx_of_in; auto; [lia|]. split; [nia|auto]. }
    rewrite EqD. split.
    - rewrite fs_get_put, str_eqb_refl. reflexivity.
    - intros n' Hn'. unfold d1'. rewrite !fs_get_put. rewrite !str_eqb_neq; auto; intros ->; apply Hn'; now left.
  Qed.

  (** One chunk only: an exception. *)
  Theorem single_chunk_error : forall infile prefix N (d : @fs A H) (f : @fits A H) nx ny rest,
    fs_get infile d = Some f -> f_naxis f = nx :: ny :: rest -> 1 <= nx * ny <= N ->
    create_chunks zero infile prefix (Z.of_nat N) d = (d, PErr).
  Proof.
    intros infile prefix N d f nx ny rest E1 E2 HN. unfold create_chunks. rewrite E1, E2.
    destruct (Z.leb_spec (Z.of_nat N) 0); [lia|]. rewrite Nat2Z.id.
    destruct (ceil_div_spec (nx * ny) N ltac:(lia) ltac:(lia)) as (C1 & C2 & C3).
    assert (ceil_div (nx * ny) N = 1) as ->; [|reflexivity].
    destruct (ceil_div (nx * ny) N) as [|[|q]]; try lia.
  Qed.

  (* ------------------------------------------------- missing chunks *)

  (** Any number of files other than the expected one is an exception. If the
      output may be written, it is by then a blank image. *)
  Theorem wrong_count : forall chunkname out overwrite d pre post c0 cs h nx ny N naxis',
    re_search chunkname = Some (pre, post) ->
    sort (filter (glob_match pre post) (map fst d)) = c0 :: cs ->
    fs_get c0 d = Some h -> f_old h = Some (nx, ny) -> f_naxis h = N :: naxis' ->
    1 <= N -> 1 <= List.length naxis' <= 3 -> List.length (c0 :: cs) <> ceil_div (nx * ny) N ->
    let r := assemble_chunks zero chunkname (Some out) overwrite d in
    snd r = PErr /\
    ((exists g, fs_get out d = Some g) /\ overwrite = false -> fst r = d) /\
    (fs_get out d = None \/ overwrite = true ->
      exists b, fs_get out (fst r) = Some b /\ f_naxis b = nx :: ny :: skipn 1 naxis' /\ forall v, In v (f_data b) -> v = zero).
  Proof.
    intros chunkname out ow d pre post c0 cs h nx ny N naxis' RS FI GE OL NA HN HL CT r.
    assert (E : r = if (match fs_get out d with Some _ => true | None => false end) && negb ow then (d, PErr)
                    else (fs_put out (mk_fits (nx :: ny :: skipn 1 naxis') None (f_rest h) (repeat zero (prodn (skipn 1 naxis') * (ny * nx)))) d, PErr)).
    { unfold r, assemble_chunks. rewrite RS, FI, GE, OL, NA. destruct (Nat.eqb_spec N 0); [lia|].
      destruct (Nat.ltb_spec 4 (S (List.length naxis'))); [lia|]. destruct (Nat.ltb_spec (S (List.length naxis')) 2); [lia|]. cbn [orb].
      destruct (_ && _); [reflexivity|]. rewrite (proj2 (Nat.eqb_neq _ _) CT). reflexivity. }
    rewrite E. split; [destruct (_ && _); reflexivity|]. split.
    - intros [[g ->] ->]. reflexivity.
    - intros K. replace (_ && _) with false by (destruct K as [-> | ->]; [reflexivity|destruct (fs_get out d); reflexivity]).
      cbn [fst]. rewrite fs_get_put, str_eqb_refl. eexists. split; [reflexivity|]. split; [reflexivity|].
      cbn [f_data]. intros v I. now apply repeat_spec in I.
  Qed.

  Lemma last_idx_length : forall N num npix, 1 <= N -> 1 <= num -> (num - 1) * N < npix <= num * N ->
    1 <= List.length (last_idx N (num - 1) npix) <= N.
  Proof.
    intros N num npix HN Hn B. split.
    - assert (I : In ((num - 1) * N) (last_idx N (num - 1) npix)) by (apply last_idx_in; lia).
      destruct (last_idx N (num - 1) npix); [destruct I|cbn; lia].
    - unfold last_idx. rewrite <- (chunk_idx_length N (num - 1)) at 2.
      induction (chunk_idx N (num - 1)) as [|x l IH]; cbn [filter]; auto. destruct (x <? npix); cbn [List.length]; lia.
  Qed.

  (** The directory holds some of the chunks but not all. *)
  Theorem missing_chunk : forall infile prefix N (d : @fs A H) (f : @fits A H) nx ny rest,
    fs_get infile d = Some f -> f_naxis f = nx :: ny :: rest -> List.length rest <= 2 ->
    1 <= N < nx * ny -> marker_free prefix ->
    let num := ceil_div (nx * ny) N in
    let name := chunk_name prefix (n_digits num) in
    exists d1, create_chunks zero infile prefix (Z.of_nat N) d = (d1, POk tt) /\
      forall d', NoDup (map fst d') ->
        (forall n, In n (map fst d') -> looks_like_chunk prefix n -> exists i, i < num /\ n = name i) ->
        (forall i, i < num -> fs_get (name i) d' = None \/ fs_get (name i) d' = fs_get (name i) d1) ->
        (exists i, i < num /\ fs_get (name i) d' = None) ->
        forall i out overwrite, i < num ->
          let r := assemble_chunks zero (name i) (Some out) overwrite d' in
          snd r = PErr /\
          ((exists g, fs_get out d' = Some g) /\ overwrite = false -> fst r = d') /\
          ((exists j, j < num /\ fs_get (name j) d' <> None) -> fs_get out d' = None \/ overwrite = true ->
            exists b, fs_get out (fst r) = Some b /\ f_naxis b = f_naxis f /\ forall v, In v (f_data b) -> v = zero).
  Proof.
    intros infile prefix N d f nx ny rest E1 E2 Hr HN MF num name.
    destruct (create_ok infile prefix N d f nx ny rest E1 E2 HN) as (d1 & EC & N2 & D1 & D2 & Nm & ND1 & Get & Oth).
    fold num in N2, D1, D2, Nm, Get, Oth. fold name in Nm, Get, Oth.
    destruct (ceil_div_spec (nx * ny) N ltac:(lia) ltac:(lia)) as (C1 & C2 & C3). fold num in C1, C2, C3.
    exists d1. split; [exact EC|].
    intros d' ND Only Some_ [m [Hm Em]] i out ow Hi.
    assert (RS : re_search (name i) = Some (prefix, s "fits")).
    { unfold name. rewrite chunk_name_fixed by lia. apply re_search_chunk; auto. now apply fixed_numeral. }
    set (files := sort (filter (glob_match prefix (s "fits")) (map fst d'))).
    assert (FP : Permutation files (filter (glob_match prefix (s "fits")) (map fst d'))) by (symmetry; apply sort_perm).
    assert (FIn : forall n, In n files <-> exists j, j < num /\ n = name j /\ fs_get n d' <> None).
    { intros n. split.
      - intros I. apply (Permutation_in _ FP) in I. apply filter_In in I. destruct I as [I L]. apply glob_match_spec in L.
        destruct (Only n I L) as (j & Hj & ->). exists j. repeat split; auto. intros Z. apply fs_get_not_in in Z. contradiction.
      - intros (j & Hj & -> & Z). apply (Permutation_in _ (Permutation_sym FP)). apply filter_In. split.
        + destruct (fs_get (name j) d') eqn:G; [|congruence]. eapply fs_get_in; eauto.
        + apply glob_match_spec. exists (fixed (n_digits num) j). split.
          * intros K. pose proof (fixed_digits (n_digits num) j) as F. rewrite forallb_forall in F. specialize (F _ K). discriminate.
          * unfold name. now rewrite chunk_name_fixed by lia. }
    assert (FND : NoDup files). { eapply Permutation_NoDup; [symmetry; exact FP|]. now apply NoDup_filter. }
    assert (FL : List.length files < num).
    { assert (incl (name m :: files) (map name (seq 0 num))) as Inc.
      { intros n [<-|I]; [apply in_map, in_seq; lia|]. apply FIn in I. destruct I as (j & Hj & -> & _). apply in_map, in_seq. lia. }
      apply NoDup_incl_length in Inc.
      - rewrite map_length, seq_length in Inc. cbn in Inc. lia.
      - constructor; auto. intros I. apply FIn in I. destruct I as (j & Hj & Ej & Z). congruence. }
    destruct files as [|c0 cs] eqn:EF.
    { (* nothing found *)
      unfold assemble_chunks. rewrite RS. fold files. rewrite EF. cbn [fst snd]. split; [reflexivity|]. split; [reflexivity|].
      intros [j [Hj Z]]. exfalso. assert (In (name j) []) as []. apply FIn. eauto. }
    assert (I0 : In c0 (c0 :: cs)) by now left. apply FIn in I0. destruct I0 as (j & Hj & Ej & Zj).
    destruct (Some_ j Hj) as [Z|G]; [congruence|]. rewrite Get in G by auto.
    assert (K : exists K, 1 <= K /\ f_naxis (chunk_file zero f nx ny (idx_of N num (nx * ny) j)) = K :: 1 :: rest /\ List.length (c0 :: cs) <> ceil_div (nx * ny) K).
    { cbn [chunk_file f_naxis]. rewrite E2. cbn [skipn]. unfold idx_of. destruct (Nat.ltb_spec j (num - 1)) as [Lj|Lj].
      - exists N. rewrite chunk_idx_length. repeat split; [lia|]. fold num. lia.
      - assert (j = num - 1) by lia. subst j. destruct (last_idx_length N num (nx * ny) ltac:(lia) ltac:(lia) ltac:(lia)) as [L1 L2].
        exists (List.length (last_idx N (num - 1) (nx * ny))). repeat split; [lia|].
        (* the other files would come later in the order, and there are none *)
        assert (cs = []) as ->.
        { destruct cs as [|c1 cs]; auto. exfalso. assert (I1 : In c1 (c0 :: c1 :: cs)) by (right; now left).
          apply FIn in I1. destruct I1 as (j1 & Hj1 & Ej1 & _).
          assert (j1 <> num - 1). { intros ->. rewrite <- Ej in Ej1. subst c1. inversion FND as [|? ? X _]. apply X. now left. }
          pose proof (sort_sorted (filter (glob_match prefix (s "fits")) (map fst d'))) as SS. fold files in SS. rewrite EF in SS.
          inversion SS as [|? ? _ FA]; subst. rewrite Forall_forall in FA. specialize (FA (name j1) (or_introl eq_refl)).
          unfold str_le in FA. pose proof (chunk_name_lt prefix (n_digits num) j1 (num - 1) ltac:(lia) ltac:(lia) ltac:(lia)) as LT.
          unfold str_lt in LT. fold name in LT. congruence. }
        cbn [List.length].
        destruct (ceil_div_spec (nx * ny) (List.length (last_idx N (num - 1) (nx * ny))) ltac:(lia) ltac:(lia)) as (G1 & G2 & G3).
        intros X. rewrite <- X in G3. nia. }
    destruct K as (K & K1 & KN & KC).
    destruct (wrong_count (name i) out ow d' prefix (s "fits") c0 cs _ nx ny K (1 :: rest) RS EF (eq_trans (f_equal (fun n => fs_get n d') Ej) G) eq_refl KN K1 ltac:(cbn; lia) KC) as (W1 & W2 & W3).
    split; [exact W1|]. split; [exact W2|]. intros _ P. destruct (W3 P) as (b & B1 & B2 & B3). exists b. rewrite E2. cbn [skipn] in B2. auto.
  Qed.
End Laws.

(* ------------------------------------------------------ default output name *)

Lemma split_nonempty : forall c x, split c x <> [].
Proof. intros c [|a x]; cbn; [discriminate|]. destruct (ch_eqb a c); [discriminate|]. destruct (split c x); discriminate. Qed.

Lemma join_split : forall c x, join [c] (split c x) = x.
Proof.
  intros c. induction x as [|a x IH]; [reflexivity|]. cbn [split]. pose proof (split_nonempty c x).
  destruct (split c x) as [|w ws]; [congruence|]. destruct (ch_eqb a c) eqn:E.
  - apply ch_eqb_eq in E. subst a. change (c :: join [c] (w :: ws) = c :: x). now rewrite IH.
  - destruct ws; cbn [join app] in *; now rewrite IH.
Qed.

Lemma split_app : forall c a b, split c (a ++ c :: b) = split c a ++ split c b.
Proof.
  intros c a b. induction a as [|x a IH]; cbn [app split].
  - rewrite ch_eqb_refl. reflexivity.
  - destruct (ch_eqb x c); rewrite IH; [reflexivity|].
    pose proof (split_nonempty c a). destruct (split c a) as [|w ws]; [congruence|]. reflexivity.
Qed.

Lemma split_none : forall c x, ~ In c x -> split c x = [x].
Proof.
  intros c x. induction x as [|a x IH]; intros N; [reflexivity|]. cbn [split]. rewrite ch_eqb_neq by (intros ->; apply N; now left).
  rewrite IH; [reflexivity|]. intros I. apply N. now right.
Qed.

Lemma join_wrap : forall (c : ascii) l, l <> [] -> c :: join [c] l = flat_map (cons c) l.
Proof.
  intros c l. induction l as [|w l IH]; intros N; [congruence|]. destruct l as [|w' l].
  - cbn. now rewrite app_nil_r.
  - change (join [c] (w :: w' :: l)) with (w ++ c :: join [c] (w' :: l)). rewrite IH by discriminate. reflexivity.
Qed.

Lemma split_piece : forall c x w, In w (split c x) -> exists a b, c :: x ++ [c] = a ++ c :: w ++ c :: b.
Proof.
  intros c x w I. pose proof (join_wrap c (split c x) (split_nonempty c x)) as J. rewrite join_split in J.
  apply in_split in I. destruct I as (l1 & l2 & E). rewrite E in J. rewrite flat_map_app in J. cbn [flat_map] in J.
  assert (exists b, flat_map (cons c) l2 ++ [c] = c :: b) as (b & Eb).
  { destruct l2; cbn; eauto. }
  exists (flat_map (cons c) l1), b. change (c :: x ++ [c]) with ((c :: x) ++ [c]). rewrite J. rewrite <- !app_assoc. cbn [app].
  do 3 f_equal. exact Eb.
Qed.

Lemma join_app : forall (c : ascii) l1 l2, l1 <> [] -> l2 <> [] -> join [c] (l1 ++ l2) = join [c] l1 ++ c :: join [c] l2.
Proof.
  intros c l1 l2 N1 N2. assert (E : c :: join [c] (l1 ++ l2) = c :: join [c] l1 ++ c :: join [c] l2).
  { rewrite join_wrap by (destruct l1; [congruence|discriminate]). rewrite flat_map_app, <- !join_wrap by auto. reflexivity. }
  congruence.
Qed.

Theorem default_output_name : forall prefix w, marker_free prefix -> numeral w ->
  default_output (prefix ++ s ".C" ++ w ++ s ".fits") = prefix ++ s ".fits".
Proof.
  intros prefix w M [W1 W2]. unfold default_output.
  change (prefix ++ s ".C" ++ w ++ s ".fits") with (prefix ++ "."%char :: "C"%char :: w ++ "."%char :: s "fits").
  change ("C"%char :: w ++ "."%char :: s "fits") with (("C"%char :: w) ++ "."%char :: s "fits").
  rewrite !split_app.
  rewrite (split_none "." ("C"%char :: w)).
  2:{ intros [K|I]; [discriminate|]. specialize (W2 _ I). cbn in W2. lia. }
  rewrite !filter_app.
  set (keep := fun x => negb (startswith (s "C") x && isnumeric (tl x))).
  assert (K1 : filter keep (split "." prefix) = split "." prefix).
  { assert (forall x, In x (split "." prefix) -> keep x = true).
    { intros x I. unfold keep. destruct (startswith (s "C") x && isnumeric (tl x)) eqn:E; auto. exfalso.
      apply andb_true_iff in E. destruct E as [E1 E2]. apply startswith_spec in E1. destruct E1 as [y ->]. cbn [s list_ascii_of_string app tl] in E2.
      apply split_piece in I. destruct I as (a & b & Eq). apply (M a y b); [exact Eq|].
      destruct y; [discriminate|]. split; [discriminate|]. now apply numeral_forallb. }
    clear -H. induction (split "." prefix) as [|x l IH]; auto. cbn [filter]. rewrite H by now left. f_equal. apply IH. intros; apply H; now right. }
  rewrite K1.
  assert (K2 : filter keep ["C"%char :: w] = []).
  { cbn [filter]. unfold keep. change (startswith (s "C") ("C"%char :: w)) with true. destruct w as [|c w]; [congruence|].
    cbn [tl andb isnumeric]. replace (forallb is_digit (c :: w)) with true by (symmetry; now apply numeral_forallb). reflexivity. }
  rewrite K2. cbn [app]. change (filter keep (split "." (s "fits"))) with [s "fits"].
  change (s ".") with ["."%char]. rewrite join_app by (apply split_nonempty || discriminate). rewrite join_split. reflexivity.
Qed.

(* ------------------------------------------------------------- findings *)

Lemma n_digits_unique : forall n k, 10 ^ k <= n < 10 ^ S k -> n_digits n = S k.
Proof.
  intros n k [B1 B2]. unfold n_digits. assert (1 <= 10 ^ k) by (clear; induction k; cbn; lia).
  assert (L10 : (0 < ln 10)%R) by (rewrite <- ln_1; apply ln_increasing; lra).
  assert (P : forall j, ln (INR (10 ^ j)) = (INR j * ln 10)%R).
  { intros j. rewrite pow_INR. replace (INR 10) with 10%R by (cbn; ring). rewrite <- Rpower_pow by lra. unfold Rpower. now rewrite ln_exp. }
  assert (N0 : (0 < INR n)%R) by (apply lt_0_INR; lia).
  rewrite (Rfloor_unique _ (Z.of_nat k)); [lia|]. rewrite <- INR_IZR_INZ. split.
  - apply Rmult_le_reg_r with (ln 10); auto. unfold Rdiv. rewrite Rmult_assoc, Rinv_l, Rmult_1_r by lra. rewrite <- P.
    apply le_INR in B1. destruct B1 as [B1|B1]; [left; apply ln_increasing; auto; apply lt_0_INR; lia|rewrite B1; lra].
  - apply Rmult_lt_reg_r with (ln 10); auto. unfold Rdiv. rewrite Rmult_assoc, Rinv_l, Rmult_1_r by lra.
    replace (INR k + 1)%R with (INR (S k)) by (rewrite S_INR; ring). rewrite <- P. apply ln_increasing; auto. now apply lt_INR.
Qed.

Definition img : @fits nat unit := mk_fits [2; 1] None tt [7; 8].

(** A prefix that itself ends in a chunk marker. *)
Theorem marker_prefix_refuted : exists d1,
  create_chunks 0 (s "x.fits") (s "x.C5") 1 [(s "x.fits", img)] = (d1, POk tt) /\
  fs_get (s "x.C5.C0.fits") d1 <> None /\
  snd (assemble_chunks 0 (s "x.C5.C0.fits") (Some (s "y.fits")) false d1) = PErr.
Proof.
  assert (E : n_digits (ceil_div (2 * 1) 1) = 1) by (apply n_digits_unique; vm_compute; lia).
  eexists. split; [|split].
  - unfold create_chunks. replace (fs_get (s "x.fits") [(s "x.fits", img)]) with (Some img) by reflexivity. cbn [f_naxis img].
    change (Z.to_nat 1) with 1. rewrite E. vm_compute. reflexivity.
  - vm_compute. discriminate.
  - vm_compute. reflexivity.
Qed.

(** A product derived from a chunk, kept in the same directory, is taken for a
    chunk. *)
Theorem sibling_product_refuted : exists d1,
  create_chunks 0 (s "x.fits") (s "x") 1 [(s "x.fits", img)] = (d1, POk tt) /\
  let d2 := fs_put (s "x.C0.FDF_tot_dirty.fits") (mk_fits [1; 1] (Some (2, 1)) tt [9]) d1 in
  let r := assemble_chunks 0 (s "x.C0.fits") None true d2 in
  snd r = PErr /\ fs_get (s "x.fits") (fst r) = Some (mk_fits [2; 1] None tt [0; 0]).
Proof.
  assert (E : n_digits (ceil_div (2 * 1) 1) = 1) by (apply n_digits_unique; vm_compute; lia).
  eexists. split.
  - unfold create_chunks. replace (fs_get (s "x.fits") [(s "x.fits", img)]) with (Some img) by reflexivity. cbn [f_naxis img].
    change (Z.to_nat 1) with 1. rewrite E. vm_compute. reflexivity.
  - vm_compute. split; reflexivity.
Qed.

Lemma marker_free_noC : forall x, ~ In "C"%char x -> marker_free x.
Proof.
  intros x N a w b E _. assert (I : In "C"%char (s "." ++ x ++ s ".")).
  { rewrite E. apply in_or_app. right. apply in_or_app. left. right. now left. }
  apply in_app_or in I. destruct I as [[K|[]]|I]; [discriminate|]. apply in_app_or in I. destruct I as [I|[K|[]]]; [contradiction|discriminate].
Qed.
