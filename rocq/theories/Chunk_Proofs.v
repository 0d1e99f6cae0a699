(** Proofs about splitting and reassembling cubes. *)
From Coq Require Import Reals List Arith ZArith Bool Ascii String Lia Lra Permutation Sorted.
From Verif Require Import PyRes PyList PyList_Proofs PyStr PyStr_Proofs NdArray Chunk_Model Chunk_Spec.
Import ListNotations.
Local Arguments Nat.ltb : simpl never.
Local Arguments Nat.leb : simpl never.

(* ----------------------------------------------------------- digits *)

Lemma n_digits_spec : forall n, 1 <= n -> n < 10 ^ n_digits n /\ 1 <= n_digits n.
Proof.
  intros n Hn. unfold n_digits. set (x := (ln (INR n) / ln 10)%R).
  pose proof (Rfloor_spec x) as [F1 F2]. set (z := Rfloor x) in *.
  assert (L10 : (0 < ln 10)%R) by (rewrite <- ln_1; apply ln_increasing; lra).
  assert (N1 : (1 <= INR n)%R) by (replace 1%R with (INR 1) by reflexivity; now apply le_INR).
  assert (X0 : (0 <= x)%R).
  { unfold x. apply Rmult_le_pos; [|left; now apply Rinv_0_lt_compat].
    rewrite <- ln_1. destruct N1 as [N1|N1]; [left; apply ln_increasing; lra|rewrite <- N1; lra]. }
  assert (Z0 : (0 <= z)%Z).
  { assert (IZR (-1) < IZR z)%R by lra. apply lt_IZR in H. lia. }
  split; [|lia].
  apply INR_lt. rewrite pow_INR. replace (INR 10) with 10%R by (cbn; ring).
  assert (E : (INR n < exp (IZR (z + 1) * ln 10))%R).
  { rewrite <- (exp_ln (INR n)) by lra. apply exp_increasing. rewrite plus_IZR.
    replace (ln (INR n)) with (x * ln 10)%R by (unfold x; field; lra). apply Rmult_lt_compat_r; lra. }
  replace (10 ^ Z.to_nat (z + 1))%R with (exp (IZR (z + 1) * ln 10)); auto.
  rewrite <- Rpower_pow by lra. unfold Rpower. rewrite INR_IZR_INZ, Z2Nat.id by lia. reflexivity.
Qed.

(* --------------------------------------------------------- directory *)

Section FS.
  Context {A H : Type}.
  Implicit Types (d : @fs A H) (f : @fits A H).

  Lemma fs_get_put : forall n m f d, fs_get n (fs_put m f d) = if str_eqb n m then Some f else fs_get n d.
  Proof.
    induction d as [|[k g] t IH]; cbn.
    - reflexivity.
    - destruct (str_eqb m k) eqn:E; cbn.
      + apply str_eqb_eq in E. subst k. destruct (str_eqb n m); reflexivity.
      + rewrite IH. destruct (str_eqb n k) eqn:F; auto. apply str_eqb_eq in F. subst k.
        destruct (str_eqb n m) eqn:G; auto. apply str_eqb_eq in G. subst m. rewrite str_eqb_refl in E. discriminate.
  Qed.

  Lemma fs_put_names : forall n m f d, In n (map fst (fs_put m f d)) <-> n = m \/ In n (map fst d).
  Proof.
    induction d as [|[k g] t IH]; cbn.
    - intuition.
    - destruct (str_eqb m k) eqn:E; cbn.
      + apply str_eqb_eq in E. subst k. intuition.
      + rewrite IH. intuition.
  Qed.

  Lemma fs_put_nodup : forall m f d, NoDup (map fst d) -> NoDup (map fst (fs_put m f d)).
  Proof.
    induction d as [|[k g] t IH]; intros ND; cbn.
    - repeat constructor. intros [].
    - inversion ND as [|? ? N1 N2]; subst. destruct (str_eqb m k) eqn:E; cbn.
      + now constructor.
      + constructor; auto. rewrite fs_put_names. intros [->|I]; [|contradiction]. rewrite str_eqb_refl in E. discriminate.
  Qed.

  Lemma fs_get_in : forall n d f, fs_get n d = Some f -> In n (map fst d).
  Proof.
    induction d as [|[k g] t IH]; intros f E; cbn in *; [discriminate|].
    destruct (str_eqb n k) eqn:F; [apply str_eqb_eq in F; auto|right; eauto].
  Qed.
  Lemma fs_get_not_in : forall n d, fs_get n d = None -> ~ In n (map fst d).
  Proof.
    induction d as [|[k g] t IH]; intros E; cbn in *; auto.
    destruct (str_eqb n k) eqn:F; [discriminate|]. intros [->|I]; [rewrite str_eqb_refl in F; discriminate|now apply IH].
  Qed.

  (** writing several files with different names *)
  Lemma fold_put : forall (name : nat -> str) (file : nat -> @fits A H) l d,
    let d' := fold_left (fun acc i => fs_put (name i) (file i) acc) l d in
    (forall n, In n (map fst d') <-> (exists i, In i l /\ n = name i) \/ In n (map fst d)) /\
    (NoDup (map fst d) -> NoDup (map fst d')) /\
    (forall n, ~ (exists i, In i l /\ n = name i) -> fs_get n d' = fs_get n d) /\
    ((forall i j, In i l -> In j l -> name i = name j -> i = j) -> forall i, In i l -> fs_get (name i) d' = Some (file i)).
  Proof.
    intros name file l. induction l as [|x l IH]; intros d; cbn [fold_left]; cbv zeta.
    - split; [|split; [|split]]; auto.
      + intros n. split; auto. intros [[i [[] _]]|]; auto.
      + intros _ i [].
    - destruct (IH (fs_put (name x) (file x) d)) as (I1 & I2 & I3 & I4). split; [|split; [|split]].
      + intros n. rewrite I1, fs_put_names. split.
        * intros [[i [K ->]]|[->|K]]; [left; exists i; split; auto; now right|left; exists x; split; auto; now left|auto].
        * intros [[i [[->|K] ->]]|K]; auto. left. eauto.
      + intros ND. apply I2. now apply fs_put_nodup.
      + intros n N. rewrite I3.
        * rewrite fs_get_put. rewrite str_eqb_neq; auto. intros ->. apply N. exists x. split; auto. now left.
        * intros [i [K ->]]. apply N. exists i. split; auto. now right.
      + intros Inj i [->|K].
        * destruct (in_dec Nat.eq_dec i l) as [Il|Nl].
          -- apply I4; auto. intros a b Ia Ib. apply Inj; now right.
          -- rewrite I3.
             ++ rewrite fs_get_put, str_eqb_refl. reflexivity.
             ++ intros [j [K E]]. apply Inj in E; [|now left|now right]. subst j. contradiction.
        * apply I4; auto. intros a b Ia Ib. apply Inj; now right.
  Qed.
End FS.

(* ----------------------------------------------------------- matching *)

Lemma numeral_forallb : forall w, (forall c, In c w -> 48 <= nat_of_ascii c <= 57) <-> forallb is_digit w = true.
Proof.
  intros w. rewrite forallb_forall. split; intros H c I; specialize (H c I).
  - unfold is_digit. rewrite andb_true_iff, !Nat.leb_le. lia.
  - unfold is_digit in H. rewrite andb_true_iff, !Nat.leb_le in H. lia.
Qed.

Lemma dot_not_digit : is_digit "."%char = false. Proof. reflexivity. Qed.

Lemma digits_dot_app : forall w t, forallb is_digit w = true -> digits_dot (w ++ s "." ++ t) = Some t.
Proof.
  induction w as [|c w IH]; intros t H; cbn [app]; [reflexivity|].
  cbn [forallb] in H. apply andb_true_iff in H. destruct H as [H1 H2]. cbn [digits_dot]. rewrite H1. now apply IH.
Qed.

Lemma digits_dot_inv : forall x t, digits_dot x = Some t -> exists w, forallb is_digit w = true /\ x = w ++ s "." ++ t.
Proof.
  induction x as [|c x IH]; intros t E; cbn in E; [discriminate|].
  destruct (is_digit c) eqn:D.
  - destruct (IH t E) as (w & W & ->). exists (c :: w). cbn. now rewrite D.
  - destruct (ch_eqb c ".") eqn:F; [|discriminate]. injection E as ->. apply ch_eqb_eq in F. subst c. exists []. split; reflexivity.
Qed.

Lemma match_here_inv : forall x t, match_here x = Some t -> exists w, numeral w /\ x = s ".C" ++ w ++ s "." ++ t.
Proof.
  intros [|a [|b [|c x]]] t E; cbn in E; try discriminate.
  destruct (ch_eqb a "." && ch_eqb b "C" && is_digit c) eqn:K; [|discriminate].
  apply andb_true_iff in K. destruct K as [K1 K2]. apply andb_true_iff in K1. destruct K1 as [Ka Kb].
  apply ch_eqb_eq in Ka. apply ch_eqb_eq in Kb. subst. rewrite K2 in E.
  apply digits_dot_inv in E. destruct E as (w & W & ->). exists (c :: w). split; [|reflexivity]. split; [discriminate|].
  apply numeral_forallb. cbn. now rewrite K2.
Qed.

Lemma match_here_app : forall w t, numeral w -> match_here (s ".C" ++ w ++ s "." ++ t) = Some t.
Proof.
  intros [|c w] t [N D]; [congruence|]. apply numeral_forallb in D.
  cbn [s list_ascii_of_string app match_here]. pose proof D as D2. cbn in D2. apply andb_true_iff in D2. destruct D2 as [D1 _].
  rewrite !ch_eqb_refl, D1. cbn [andb]. exact (digits_dot_app (c :: w) t D).
Qed.

(** The first match of the pattern. *)
Lemma re_search_first : forall pre w post, numeral w ->
  (forall a w' b, pre ++ s ".C" ++ w ++ s "." ++ post = a ++ s ".C" ++ w' ++ s "." ++ b -> numeral w' -> List.length pre <= List.length a) ->
  re_search (pre ++ s ".C" ++ w ++ s "." ++ post) = Some (pre, post).
Proof.
  induction pre as [|c pre IH]; intros w post N F.
  - cbn [app]. pose proof (match_here_app w post N) as M.
    destruct (s ".C" ++ w ++ s "." ++ post) eqn:E; [discriminate|]. cbn [re_search]. now rewrite M.
  - cbn [app re_search]. destruct (match_here (c :: pre ++ s ".C" ++ w ++ s "." ++ post)) as [t|] eqn:M.
    + exfalso. apply match_here_inv in M. destruct M as (w' & N' & E).
      specialize (F [] w' t E N'). cbn in F. lia.
    + rewrite IH; auto. intros a w' b E N'.
      assert (K : List.length (c :: pre) <= List.length (c :: a)) by (apply (F (c :: a) w' b); auto; cbn [app]; now rewrite E). cbn in K. lia.
Qed.

Lemma marker_free_first : forall x w y, marker_free x -> forall a w' b,
  x ++ s ".C" ++ w ++ s "." ++ y = a ++ s ".C" ++ w' ++ s "." ++ b -> numeral w' -> List.length x <= List.length a.
Proof.
  intros x w y M a w' b E N'.
  destruct (Nat.le_gt_cases (List.length x) (List.length a)) as [|Lt]; auto. exfalso.
  (* the match starts inside x; it ends at the latest on the dot after x *)
  assert (exists u, x = a ++ u /\ u <> []) as (u & -> & Nu).
  { exists (skipn (List.length a) x). split.
    - assert (a = firstn (List.length a) x) as Ea.
      { apply (f_equal (firstn (List.length a))) in E. rewrite firstn_app in E.
        replace (List.length a - List.length x) with 0 in E by lia. cbn [firstn] in E.
        rewrite app_nil_r in E. rewrite E. rewrite firstn_app, firstn_all, Nat.sub_diag. cbn. now rewrite app_nil_r. }
      rewrite Ea at 1. now rewrite firstn_skipn.
    - intros Z. apply (f_equal (@List.length _)) in Z. rewrite skipn_length in Z. cbn in Z. lia. }
  rewrite <- app_assoc in E. apply app_inv_head in E.
  (* u ++ .C w . y = .C w' . b *)
  assert (exists b', u ++ s "." = s ".C" ++ w' ++ s "." ++ b') as (b' & E').
  { destruct N' as [Nn Nd]. clear M Lt.
    destruct u as [|c1 u]; [congruence|]. cbn in E. injection E as -> E.
    destruct u as [|c2 u]. { cbn in E. discriminate. }
    cbn in E. injection E as -> E. cbn.
    assert (exists b', u ++ ["."%char] = w' ++ "."%char :: b') as (b' & Eb).
    2:{ exists b'. now rewrite Eb. }
    clear Nu. revert w' Nn Nd E. induction u as [|c u IHu]; intros w' Nn Nd E.
    - cbn in E. destruct w' as [|c w'].
      + congruence.
      + exfalso. cbn in E. injection E as <- _. specialize (Nd "."%char (or_introl eq_refl)). cbn in Nd. lia.
    - destruct w' as [|c' w']; [congruence|]. cbn in E. injection E as -> E. destruct w' as [|c'' w'].
      + destruct u as [|c2 u].
        * cbn in E. exists []. reflexivity.
        * cbn in E. injection E as -> E. exists (u ++ ["."%char]). reflexivity.
      + destruct (IHu (c'' :: w')) as (b' & Eb); [discriminate| |exact E|].
        { intros c0 I. apply Nd. now right. }
        exists b'. cbn. now rewrite Eb. }
  apply (M (s "." ++ a) w' b'); auto. rewrite <- !app_assoc. cbn [app s list_ascii_of_string] in *. now rewrite E'.
Qed.

Lemma re_search_chunk : forall prefix w post, marker_free prefix -> numeral w ->
  re_search (prefix ++ s ".C" ++ w ++ s "." ++ post) = Some (prefix, post).
Proof. intros. apply re_search_first; auto. intros a w' b E N'. eapply marker_free_first; eauto. Qed.

Lemma skipn_skipn' : forall {A} a b (l : list A), skipn a (skipn b l) = skipn (b + a) l.
Proof. induction b as [|b IH]; intros [|x l]; cbn; auto. now rewrite skipn_nil. Qed.

Lemma glob_match_spec : forall prefix name, glob_match prefix (s "fits") name = true <-> looks_like_chunk prefix name.
Proof.
  intros prefix name. unfold glob_match, looks_like_chunk. cbv zeta.
  set (p := prefix ++ s ".C"). set (q := "."%char :: s "fits"). rewrite !andb_true_iff, startswith_spec, endswith_spec, Nat.leb_le. split.
  - intros [[[[y1 E1] [y2 E2]] L] F]. rewrite forallb_forall in F.
    exists (firstn (List.length name - List.length p - List.length q) (skipn (List.length p) name)). split.
    + intros I. specialize (F _ I). cbn in F. discriminate.
    + assert (Y : skipn (List.length p) name = y1).
      { rewrite E1, skipn_app, skipn_all, Nat.sub_diag. reflexivity. }
      rewrite Y. assert (Ly : List.length name = List.length p + List.length y1) by (rewrite E1, app_length; auto).
      assert (L2 : List.length name = List.length y2 + List.length q) by (rewrite E2, app_length; auto).
      assert (y1 = firstn (List.length y1 - List.length q) y1 ++ q) as Ey.
      { assert (skipn (List.length y1 - List.length q) y1 = q) as Es.
        { rewrite <- Y, skipn_skipn'. replace (List.length p + (List.length (skipn (List.length p) name) - List.length q)) with (List.length y2).
          - rewrite E2, skipn_app, skipn_all, Nat.sub_diag. reflexivity.
          - rewrite Y. lia. }
        rewrite <- Es at 2. now rewrite firstn_skipn. }
      rewrite E1 at 1. rewrite Ey at 1. unfold p, q. rewrite <- !app_assoc. do 4 f_equal. fold p q. lia.
  - intros (mid & N & E). split; [split; [split|]|].
    + exists (mid ++ s ".fits"). unfold p. rewrite <- !app_assoc. exact E.
    + exists (prefix ++ s ".C" ++ mid). rewrite E. unfold q. rewrite <- !app_assoc. reflexivity.
    + rewrite E. unfold p, q. rewrite !app_length. cbn. lia.
    + apply forallb_forall. intros c I.
      replace (firstn (List.length name - List.length p - List.length q) (skipn (List.length p) name)) with mid in I.
      * unfold ch_eqb. destruct (Ascii.eqb_spec c "/"%char); auto. subst. contradiction.
      * rewrite E. unfold p, q. rewrite app_assoc, skipn_app, skipn_all, Nat.sub_diag. cbn [skipn app].
        rewrite firstn_app. replace (_ - _ - _) with (List.length mid) by (rewrite !app_length; cbn; lia).
        rewrite firstn_all, Nat.sub_diag. cbn. now rewrite app_nil_r.
Qed.

(* ------------------------------------------------------ pixels and files *)

Lemma chunk_name_fixed : forall prefix d i, i < 10 ^ d -> 1 <= d ->
  chunk_name prefix d i = prefix ++ s ".C" ++ fixed d i ++ s "." ++ s "fits".
Proof. intros. unfold chunk_name. rewrite format0_fixed by auto. reflexivity. Qed.

Lemma fixed_numeral : forall d i, 1 <= d -> numeral (fixed d i).
Proof.
  intros d i H. split.
  - intros E. apply (f_equal (@List.length _)) in E. rewrite fixed_length in E. cbn in E. lia.
  - apply numeral_forallb, fixed_digits.
Qed.

Lemma chunk_name_lt : forall prefix d i j, 1 <= d -> i < j -> j < 10 ^ d -> str_lt (chunk_name prefix d i) (chunk_name prefix d j).
Proof.
  intros prefix d i j Hd Hij Hj. rewrite !chunk_name_fixed by lia. unfold str_lt. rewrite !str_ltb_app_same.
  apply str_ltb_app_lt; [now rewrite !fixed_length|]. now apply fixed_lt.
Qed.

Lemma chunk_name_inj : forall prefix d i j, 1 <= d -> i < 10 ^ d -> j < 10 ^ d -> chunk_name prefix d i = chunk_name prefix d j -> i = j.
Proof.
  intros prefix d i j Hd Hi Hj E. destruct (Nat.lt_trichotomy i j) as [K|[K|K]]; auto.
  - pose proof (chunk_name_lt prefix d i j Hd K Hj) as L. unfold str_lt in L. rewrite E, str_ltb_irrefl in L. discriminate.
  - pose proof (chunk_name_lt prefix d j i Hd K Hi) as L. unfold str_lt in L. rewrite E, str_ltb_irrefl in L. discriminate.
Qed.

Lemma names_sorted : forall prefix d a n, 1 <= d -> a + n <= 10 ^ d -> StronglySorted str_lt (map (chunk_name prefix d) (seq a n)).
Proof.
  intros prefix d a n Hd. revert a. induction n as [|n IH]; intros a H; cbn; constructor.
  - apply IH. lia.
  - apply Forall_forall. intros x I. apply in_map_iff in I. destruct I as (j & <- & I). apply in_seq in I.
    apply chunk_name_lt; lia.
Qed.

Lemma names_nodup : forall prefix d n, 1 <= d -> n <= 10 ^ d -> NoDup (map (chunk_name prefix d) (seq 0 n)).
Proof.
  intros prefix d n Hd H.
  assert (K : forall a, a + n <= 10 ^ d -> NoDup (map (chunk_name prefix d) (seq a n))).
  { clear H. induction n as [|n IH]; intros a H; cbn; constructor.
    - intros I. apply in_map_iff in I. destruct I as (j & E & I). apply in_seq in I. apply chunk_name_inj in E; lia.
    - apply IH. lia. }
  apply K. lia.
Qed.

Lemma fold_upd_spec : forall {A} (data : list A) z (pairs : list (nat * A)) large p,
  (forall q v, In (q, v) pairs -> v = nth q data z /\ q < List.length large) ->
  let out := fold_left (fun acc (pv : nat * A) => upd acc (fst pv) (fun _ => snd pv)) pairs large in
  List.length out = List.length large /\
  (In p (map fst pairs) -> nth p out z = nth p data z) /\
  (nth p large z = nth p data z -> nth p out z = nth p data z).
Proof.
  intros A data z pairs. induction pairs as [|[q v] pairs IH]; intros large p H; cbn [fold_left map fst snd]; cbv zeta.
  - split; auto. split; auto. intros [].
  - destruct (H q v (or_introl eq_refl)) as [Hv Hq].
    destruct (IH (upd large q (fun _ => v)) p) as (I1 & I2 & I3).
    { intros q' v' I. rewrite length_upd. apply H. now right. }
    rewrite length_upd in I1. split; auto. split.
    + intros [E|I]; auto. cbn in E. subst q. apply I3. rewrite nth_upd by auto. now rewrite Nat.eqb_refl.
    + intros E. apply I3. rewrite nth_upd by auto. destruct (Nat.eqb_spec p q) as [->|N]; auto.
Qed.

Lemma chunk_idx_in : forall N i k, In k (chunk_idx N i) <-> i * N <= k < i * N + N.
Proof.
  intros N i k. unfold chunk_idx. rewrite in_map_iff. split.
  - intros (j & <- & I). apply in_seq in I. lia.
  - intros H. exists (k - i * N). split; [lia|]. apply in_seq. lia.
Qed.
Lemma last_idx_in : forall N i npix k, In k (last_idx N i npix) <-> i * N <= k < i * N + N /\ k < npix.
Proof. intros. unfold last_idx. rewrite filter_In, chunk_idx_in, Nat.ltb_lt. tauto. Qed.

Lemma pix_pos_lt : forall nx ny m r k, r < m -> k < nx * ny -> pix_pos nx ny r k < m * (ny * nx).
Proof.
  intros nx ny m r k Hr Hk. unfold pix_pos.
  assert (ny <> 0) by (intros ->; lia).
  pose proof (Nat.mod_upper_bound k ny ltac:(lia)).
  assert (k / ny < nx) by (apply Nat.div_lt_upper_bound; lia).
  assert (r * ny + k mod ny < m * ny) by nia. nia.
Qed.

Lemma pix_pos_surj : forall nx ny m p, p < m * (ny * nx) -> exists r k, r < m /\ k < nx * ny /\ p = pix_pos nx ny r k.
Proof.
  intros nx ny m p H. assert (nx <> 0) by (intros ->; lia). assert (ny <> 0) by (intros ->; lia).
  set (x := p mod nx). set (q := p / nx). set (y := q mod ny). set (r := q / ny).
  pose proof (Nat.div_mod p nx ltac:(lia)) as D1. fold x q in D1.
  pose proof (Nat.div_mod q ny ltac:(lia)) as D2. fold y r in D2.
  assert (X : x < nx) by (apply Nat.mod_upper_bound; lia).
  assert (Y : y < ny) by (apply Nat.mod_upper_bound; lia).
  exists r, (x * ny + y). split; [|split].
  - assert (q < m * ny) by (apply Nat.div_lt_upper_bound; nia). apply Nat.div_lt_upper_bound; lia.
  - nia.
  - unfold pix_pos. rewrite (Nat.add_comm (x * ny)), Nat.mod_add, Nat.div_add by lia.
    rewrite (Nat.mod_small y), (Nat.div_small y) by lia. lia.
Qed.

Lemma nth_In_combine : forall (idx : list nat) j, j < List.length idx -> In (j, nth j idx 0) (combine (seq 0 (List.length idx)) idx).
Proof.
  intros idx j H. replace (j, nth j idx 0) with (nth j (combine (seq 0 (List.length idx)) idx) (0, 0)).
  - apply nth_In. rewrite combine_length, seq_length, Nat.min_id. auto.
  - rewrite combine_nth by (now rewrite seq_length). now rewrite seq_nth.
Qed.

Section Reassemble.
  Context {A : Type} (zero : A).

  Lemma take_chunk_nth : forall nx ny m data idx r j, r < m -> j < List.length idx ->
    nth (r * List.length idx + j) (take_chunk zero nx ny m data idx) zero = nth (pix_pos nx ny r (nth j idx 0)) data zero.
  Proof.
    intros nx ny m data idx r j Hr Hj. unfold take_chunk.
    assert (G : forall a n r, r < n -> nth (r * List.length idx + j)
      (flat_map (fun r => map (fun k => nth (pix_pos nx ny r k) data zero) idx) (seq a n)) zero =
      nth (pix_pos nx ny (a + r) (nth j idx 0)) data zero).
    { intros a n. revert a. induction n as [|n IH]; intros a [|r0] H; try lia; cbn [seq flat_map].
      - rewrite app_nth1 by (rewrite map_length; lia). cbn [Nat.mul Nat.add].
        rewrite nth_indep with (d' := (fun k => nth (pix_pos nx ny a k) data zero) 0) by (rewrite map_length; auto).
        rewrite (map_nth (fun k => nth (pix_pos nx ny a k) data zero)). now rewrite Nat.add_0_r.
      - rewrite app_nth2 by (rewrite map_length; nia). rewrite map_length.
        replace (S r0 * List.length idx + j - List.length idx) with (r0 * List.length idx + j) by nia.
        rewrite IH by lia. do 2 f_equal. lia. }
    rewrite (G 0 m r Hr). reflexivity.
  Qed.

  (** agreement with the original on a set of pixels *)
  Definition agrees (data : list A) (S : nat -> Prop) (large : list A) : Prop :=
    List.length large = List.length data /\ forall p, S p -> nth p large zero = nth p data zero.

  Lemma assign_agrees : forall nx ny m data idx large S, List.length data = m * (ny * nx) ->
    (forall k, In k idx -> k < nx * ny) -> agrees data S large ->
    agrees data (fun p => S p \/ exists r k, r < m /\ In k idx /\ p = pix_pos nx ny r k)
      (assign zero nx ny m idx (take_chunk zero nx ny m data idx) large).
  Proof.
    intros nx ny m data idx large S L B [L1 Ag]. unfold assign.
    set (pairs := flat_map _ _).
    assert (Hp : forall q v, In (q, v) pairs -> v = nth q data zero /\ q < List.length large).
    { intros q v I. unfold pairs in I. apply in_flat_map in I. destruct I as (r & Ir & I). apply in_seq in Ir.
      apply in_map_iff in I. destruct I as ((j & k) & E & I). cbn [fst snd] in E. injection E as <- <-.
      assert (J : j < List.length idx /\ k = nth j idx 0).
      { apply (In_nth _ _ (0, 0)) in I. destruct I as (t & Ht & E). rewrite combine_length, seq_length, Nat.min_id in Ht.
        rewrite combine_nth in E by (now rewrite seq_length). injection E as <- <-. rewrite seq_nth by auto. cbn. auto. }
      destruct J as [J ->]. split.
      - apply take_chunk_nth; lia.
      - rewrite L1, L. apply pix_pos_lt; [lia|]. apply B, nth_In, J. }
    split.
    - rewrite (proj1 (fold_upd_spec data zero pairs large 0 Hp)). exact L1.
    - intros p [Sp|(r & k & Hr & Ik & ->)].
      + apply (proj2 (proj2 (fold_upd_spec data zero pairs large p Hp))). now apply Ag.
      + apply (proj1 (proj2 (fold_upd_spec data zero pairs large _ Hp))).
        unfold pairs. apply in_map_iff. apply (In_nth _ _ 0) in Ik. destruct Ik as (j & Hj & <-).
        exists (pix_pos nx ny r (nth j idx 0), nth (r * List.length idx + j) (take_chunk zero nx ny m data idx) zero). split; auto.
        apply in_flat_map. exists r. split; [apply in_seq; lia|]. apply in_map_iff. exists (j, nth j idx 0). split; auto.
        apply nth_In_combine; auto.
  Qed.
End Reassemble.
