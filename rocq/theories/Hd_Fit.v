(** Proofs about headers, continued: depth axis after RM-CLEAN, the Stokes I fit,
    rescaling, and the names of the files. *)
From Coq Require Import Reals Lra Lia List Arith ZArith Bool Ascii String Sorted.
From Verif Require Import PyRes PyStr PyStr_Proofs PyList NdArray Setup_Spec Setup_Model Setup_Proofs Synth_Model Measure_Model Cube_Model Cube_Spec Cube_Proofs
  Icube_Model Header_Model Header_Spec Header_Proofs Fits_Model Fits_Spec Fits_Proofs Hd_Model Hd_Spec Hd_Proofs Hd_More Hd_Rest.
Import ListNotations.
Local Open Scope nat_scope.

(** RM-CLEAN leaves the depth axis as it was *)
Theorem clean_read : forall tmpl n f phi c x start step, says tmpl (s "NAXIS") (HInt (Z.of_nat n)) -> 1 <= f <= n -> depth_axis tmpl f phi ->
  (forall j t, f < j <= n -> says tmpl (key "CTYPE" j) (HStr t) -> ~ mentions (s "FDEP") (Some t)) ->
  2 <= List.length phi -> (0 < step)%R -> uniform phi start step -> clean_write tmpl = POk c ->
  (let '(q, u, p) := c_clean c in x = q \/ x = u \/ x = p) \/ (let '(q, u, p) := c_cc c in x = q \/ x = u \/ x = p) ->
  depth_axis x f phi /\ depth_of x = POk phi.
Proof.
  intros tmpl n f phi c x st d N Hf D B L Hd U H Hx. destruct (clean_cubes _ _ _ N H) as (P1 & P2 & _).
  assert (S : same_but (clean_touched tmpl n) tmpl x).
  { destruct (c_clean c) as [[q1 u1] p1], (c_cc c) as [[q2 u2] p2]. destruct P1 as ([? _] & [? _] & [? _] & _), P2 as ([? _] & [? _] & [? _] & _).
    destruct Hx as [[->|[->| ->]]|[->|[->| ->]]]; assumption. }
  assert (NA : forall a, stokes_at tmpl n 0 a -> a <> f).
  { intros a (_ & _ & (t & Ht & Hp) & _) ->. destruct D as (A & _). pose proof (says_fun _ _ _ _ A Ht) as [= <-]. apply has_part_iff in Hp. discriminate Hp. }
  assert (K : forall w, In w ["CTYPE"; "CUNIT"; "NAXIS"; "CDELT"; "CRPIX"; "CRVAL"]%string -> ~ clean_touched tmpl n (key w f)).
  { intros w Hw [E|[E|(a & Ha & E)]].
    - revert E. cases Hw; kneq.
    - revert E. cases Hw; kneq.
    - specialize (NA a Ha). destruct E as [E|E]; revert E; cases Hw; kneq. }
  assert (KC : forall j, ~ clean_touched tmpl n (key "CTYPE" j)).
  { intros j [E|E]; [revert E; kneq|exact (ctype_not_stokes _ _ _ E)]. }
  assert (Nx : says x (s "NAXIS") (HInt (Z.of_nat n))).
  { apply (sb_says _ _ _ _ _ S); auto. intros [E|E]; [discriminate E|]. revert E. apply stokes_touched_not. right. inn. }
  assert (Dx : depth_axis x f phi).
  { destruct D as (D1 & D2 & D3 & D4 & c0 & D5 & D6 & D7). unfold depth_axis. repeat split; try (apply (sb_says _ _ _ _ _ S); [apply K; inn|assumption]).
    exists c0. split; [apply (sb_says _ _ _ _ _ S); [apply K; inn|assumption]|]. split; auto. apply (sb_says _ _ _ _ _ S); [apply K; inn|assumption]. }
  split; auto. unfold depth_of. rewrite (naxis_of_nat _ _ Nx). cbn [pybind]. rewrite (depth_found x n f Nx Hf (proj1 Dx)).
  - eapply depth_axis_read; eauto; lia.
  - intros j t Hj Ht. apply (B j t Hj), (sb_says _ _ _ _ _ S (KC j)), Ht.
Qed.

(* ------------------------------------------------------ the Stokes I fit *)

Lemma flat_spec : forall h h', remove_header_third_fourth_axis (HInt 2) h = POk h' ->
  says h' (s "NAXIS") (HInt 2) /\ cards (s "WCSAXES") h' = [(s "WCSAXES", HInt 2)] /\ lacks h' (s "STOKES") /\ (forall k, axis_key k -> lacks h' k) /\
  same_but flat_touched h h'.
Proof.
  intros h h' H. destruct (header_2d _ _ _ H) as (G1 & G2 & G3 & _ & G5 & _). repeat split.
  - unfold says. rewrite G2. reflexivity.
  - exact G3.
  - apply cards_none. intros c Hc. apply (G1 c Hc).
  - intros k Hk. apply cards_none. intros c Hc E. subst k. exact (proj1 (G1 c Hc) Hk).
  - intros p Hp. apply G5. intros k Hk. unfold flat_touched in Hp. repeat split; intro Q; rewrite Hp in Hk; try discriminate Hk; auto; subst k; right; inn.
Qed.
(** the other keywords of the fit *)
Lemma not_flat : forall k, In k (map s ["BUNIT"; "BTYPE"; "HISTORY"; "DATAMAX"; "DATAMIN"; "REFFREQ"]%string) -> ~ flat_touched k.
Proof.
  intros k Hk [Q|Q].
  - destruct Q as [(w & a & Hw & _ & ->)|(i & j & _ & _ & _ & ->)].
    + change (In (key w a) (map s ["BUNIT"; "BTYPE"; "HISTORY"; "DATAMAX"; "DATAMIN"; "REFFREQ"]%string)) in Hk. cases Hw; litin Hk.
    + cbn in Hk. repeat (destruct Hk as [Hk|Hk]; [discriminate Hk|]). destruct Hk.
  - cbn [In map] in Hk. repeat (destruct Hk as [<-|Hk]; [litin Q|]). destruct Hk.
Qed.
Lemma not_flat_axis : forall k, In k (map s ["BUNIT"; "BTYPE"; "HISTORY"; "DATAMAX"; "DATAMIN"; "REFFREQ"]%string) -> ~ axis_key k.
Proof. intros k H Q. apply (not_flat k H). now left. Qed.

Lemma hist_lacks : forall line h k, k <> s "HISTORY" -> lacks h k -> lacks (add_history line h) k.
Proof. intros line h k N H. apply (sb_lacks (fun k => k = s "HISTORY") h); auto. apply sb_history; auto. apply sb_refl. Qed.
Lemma hist_cards : forall line h k, k <> s "HISTORY" -> cards k (add_history line h) = cards k h.
Proof. intros line h k N. apply (sb_cards (fun k => k = s "HISTORY") h); auto. apply sb_history; auto. apply sb_refl. Qed.

Definition fit_other (k : str) : Prop := In k (map s ["BUNIT"; "BTYPE"; "HISTORY"; "DATAMAX"; "DATAMIN"]%string).
Lemma fit_map_set : forall tmpl lines x k v, fit_map tmpl lines x -> fit_other k -> k <> s "HISTORY" -> fit_map tmpl lines (hset k v x).
Proof.
  intros tmpl lines x k v (A & B & C & D & E & F) Hk Nh.
  assert (NF : ~ flat_touched k). { apply not_flat. unfold fit_other in Hk. cbn [In map] in *. tauto. }
  assert (N2 : forall k', flat_touched k' -> k' <> k) by (intros k' Q ->; contradiction).
  unfold fit_map. repeat split.
  - apply says_set_o; auto. apply N2. right. inn.
  - rewrite cards_hset_other; auto. apply N2. right. inn.
  - apply lacks_set_o; auto. apply N2. right. inn.
  - intros k' Hk'. apply lacks_set_o; auto. apply N2. now left.
  - unfold history. rewrite cards_hset_other; auto.
  - apply sb_set; auto. 
Qed.
Lemma fit_map_pop : forall tmpl lines x k, fit_map tmpl lines x -> fit_other k -> k <> s "HISTORY" -> fit_map tmpl lines (hpop k x).
Proof.
  intros tmpl lines x k (A & B & C & D & E & F) Hk Nh.
  assert (NF : ~ flat_touched k). { apply not_flat. unfold fit_other in Hk. cbn [In map] in *. tauto. }
  assert (N2 : forall k', flat_touched k' -> k' <> k) by (intros k' Q ->; contradiction).
  unfold fit_map. repeat split.
  - apply says_pop_o; auto. apply N2. right. inn.
  - rewrite cards_hpop_other; auto. apply N2. right. inn.
  - apply lacks_pop_o; auto. apply N2. right. inn.
  - intros k' Hk'. apply lacks_pop_o; auto. apply N2. now left.
  - unfold history. rewrite cards_hpop_other; auto.
  - apply sb_pop; auto.
Qed.

Lemma hist_many : forall lines h, history (fold_left (fun h l => add_history l h) lines h) = (history h ++ map HStr lines)%list.
Proof. induction lines as [|l lines IH]; intros h; cbn [fold_left map]; [now rewrite app_nil_r|]. rewrite IH, history_added, <- app_assoc. reflexivity. Qed.
Lemma hist_many_sb : forall (T : str -> Prop) lines h h', T (s "HISTORY") -> same_but T h h' -> same_but T h (fold_left (fun h l => add_history l h) lines h').
Proof. intros T lines. induction lines as [|l lines IH]; intros h h' HT S; cbn; auto. apply IH; auto. now apply sb_history. Qed.

(** the header of the mask, from which the others are made *)
Lemma mask_spec : forall tmpl lines h0 h1 mask, remove_header_third_fourth_axis (HInt 2) tmpl = POk h0 -> hdel (s "BUNIT") h0 = POk h1 ->
  mask_header (fold_left (fun h l => add_history l h) lines h1) = POk mask ->
  fit_map tmpl lines mask /\ says mask (s "DATAMAX") (HInt 1) /\ says mask (s "DATAMIN") (HInt 0) /\ lacks mask (s "BUNIT") /\ cards (s "BTYPE") mask = cards (s "BTYPE") tmpl.
Proof.
  intros tmpl lines h0 h1 mask H0 H1 H. destruct (flat_spec _ _ H0) as (_ & _ & _ & _ & S0).
  unfold hdel in H1. destruct (is_some _); [|discriminate H1]. injection H1 as <-.
  unfold mask_header in H. apply pybind_ok in H. destruct H as (h2 & H2 & [= <-]). destruct (flat_spec _ _ H2) as (A & B & C & D & S2).
  set (T := fun k => flat_touched k \/ In k (map s ["BUNIT"; "BTYPE"; "HISTORY"; "DATAMAX"; "DATAMIN"]%string)).
  set (g := fold_left (fun h l => add_history l h) lines (hpop (s "BUNIT") h0)) in *.
  assert (Sg : same_but T tmpl g).
  { apply hist_many_sb; [right; inn|]. apply sb_pop; [right; inn|]. eapply sb_weak; [|exact S0]. unfold T. auto. }
  assert (S2' : same_but T tmpl h2) by (eapply sb_trans; [exact Sg|]; eapply sb_weak; [|exact S2]; unfold T; auto).
  assert (F2 : fit_map tmpl lines h2).
  { repeat split; auto. unfold history at 1. rewrite (sb_cards _ _ _ _ S2 (not_flat (s "HISTORY") ltac:(inn))). change (history g = history tmpl ++ map HStr lines)%list.
    unfold g. rewrite hist_many. f_equal. unfold history. rewrite cards_hpop_other by kneq. rewrite (sb_cards _ _ _ _ S0 (not_flat (s "HISTORY") ltac:(inn))). reflexivity. }
  split; [|split; [|split; [|split]]].
  - apply fit_map_pop; [|unfold fit_other; inn|kneq]. apply fit_map_set; [|unfold fit_other; inn|kneq]. apply fit_map_set; [|unfold fit_other; inn|kneq]. exact F2.
  - card.
  - card.
  - card.
  - rewrite cards_hpop_other, !cards_hset_other by kneq. rewrite (sb_cards _ _ _ _ S2 (not_flat (s "BTYPE") ltac:(inn))). unfold g.
    transitivity (cards (s "BTYPE") (hpop (s "BUNIT") h0)).
    + apply (sb_cards (fun k => k = s "HISTORY")); [|kneq]. apply hist_many_sb; auto. apply sb_refl.
    + rewrite cards_hpop_other by kneq. apply (sb_cards _ _ _ _ S0 (not_flat (s "BTYPE") ltac:(inn))).
Qed.

Lemma hset_same : forall h k v, says h k v -> hset k v h = h.
Proof.
  intros h k v. unfold says, cards. induction h as [|[k' v'] h IH]; cbn; intro H; [discriminate H|]. destruct (str_eqb k k') eqn:E.
  - cbn in H. injection H as -> ->. reflexivity.
  - now rewrite IH.
Qed.

Lemma strip_plain : forall k, In k (map s ["NAXIS1"; "NAXIS2"; "NAXIS3"]%string) -> untouched 3 k.
Proof.
  intros k Hk. assert (exists j, 1 <= j <= 3 /\ k = key "NAXIS" j) as (j & Hj & ->).
  { cbn [In map] in Hk. destruct Hk as [<-|[<-|[<-|[]]]]; [exists 1|exists 2|exists 3]; split; try lia; reflexivity. }
  unfold untouched. split; [kneq|]. split; [kneq|]. split.
  - intros i Hi (w & Hw & E). change (key "NAXIS" j = key w i) in E. cbn [In] in Hw.
    destruct Hw as [<-|[<-|[<-|[<-|[<-|[<-|[<-|[<-|[<-|[]]]]]]]]]]; try (revert E; kneq); apply (f_equal (firstn 3)) in E; discriminate E.
  - intros i i' _ E. unfold pc_term in E. apply (f_equal (firstn 2)) in E. discriminate E.
Qed.
Lemma model_spec : forall tmpl m, model_header tmpl = POk m <->
  strip_header tmpl 3 0 = POk m /\ forall k, In k (map s ["NAXIS1"; "NAXIS2"; "NAXIS3"]%string) -> ~ lacks tmpl k.
Proof.
  intros tmpl m. unfold model_header. rewrite pybind_ok.
  assert (K : forall m', strip_header tmpl 3 0 = POk m' -> forall k v, In k (map s ["NAXIS1"; "NAXIS2"; "NAXIS3"]%string) -> says tmpl k v -> says m' k v).
  { intros m' Hm k v Hk Hv. unfold says, cards in *. rewrite (strip_keeps tmpl 3 0 m' (str_eqb k) Hm); auto.
    intros k' E. apply str_eqb_eq in E. subst k'. apply strip_plain, Hk. }
  split.
  - intros (m' & A & B). specialize (K m' A).
    destruct (hget (s "NAXIS1") tmpl) as [a|] eqn:E1; [|discriminate B]. destruct (hget (s "NAXIS2") tmpl) as [b|] eqn:E2; [|discriminate B].
    destruct (hget (s "NAXIS3") tmpl) as [c|] eqn:E3; [|discriminate B]. apply (f_equal (fun r => match r with POk y => y | PErr => m end)) in B. cbv beta iota in B.
    pose proof E1 as F1. pose proof E2 as F2. pose proof E3 as F3. apply hget_says in E1, E2, E3.
    assert (M : hset (s "NAXIS3") c (hset (s "NAXIS2") b (hset (s "NAXIS1") a m')) = m').
    { rewrite (hset_same m' (s "NAXIS1") a (K (s "NAXIS1") a ltac:(inn) E1)), (hset_same m' (s "NAXIS2") b (K (s "NAXIS2") b ltac:(inn) E2)). apply hset_same. apply K; [inn|exact E3]. }
    assert (Em : m = m') by exact (eq_trans (eq_sym B) M). clear B. subst m. split; [exact A|]. intros k Hk Q. apply hget_lacks in Q. cbn [In map] in Hk. destruct Hk as [<-|[<-|[<-|[]]]]; congruence.
  - intros (A & B). exists m. split; auto. specialize (K m A).
    assert (G : forall k, In k (map s ["NAXIS1"; "NAXIS2"; "NAXIS3"]%string) -> exists v, hget k tmpl = Some v).
    { intros k Hk. destruct (hget k tmpl) as [v|] eqn:E; [eauto|]. exfalso. apply (B k Hk), hget_lacks, E. }
    destruct (G (s "NAXIS1") ltac:(inn)) as [a E1]. destruct (G (s "NAXIS2") ltac:(inn)) as [b E2]. destruct (G (s "NAXIS3") ltac:(inn)) as [c E3].
    rewrite E1, E2, E3. f_equal. apply hget_says in E1, E2, E3.
    rewrite (hset_same m (s "NAXIS1") a (K (s "NAXIS1") a ltac:(inn) E1)), (hset_same m (s "NAXIS2") b (K (s "NAXIS2") b ltac:(inn) E2)). apply hset_same. apply K; [inn|exact E3].
Qed.

Theorem fit_headers_spec : forall tmpl ord name o, fit_write tmpl ord name = POk o ->
  let lines := history_lines ord name in
  (fit_map tmpl lines (f_mask o) /\ lacks (f_mask o) (s "BUNIT") /\ cards (s "BTYPE") (f_mask o) = cards (s "BTYPE") tmpl) /\
  (fit_map tmpl lines (f_coeff o) /\ says (f_coeff o) (s "BUNIT") (HStr []) /\ lacks (f_coeff o) (s "BTYPE")) /\
  (fit_map tmpl lines (f_ref o) /\ says (f_ref o) (s "BUNIT") (HStr (s "Hz")) /\ lacks (f_ref o) (s "BTYPE")) /\
  (forall x, In x [f_mask o; f_coeff o; f_ref o; f_cov o] -> says x (s "DATAMAX") (HInt 1) /\ says x (s "DATAMIN") (HInt 0)).
Proof.
  intros tmpl ord name o H lines. unfold fit_write in H. apply pybind_ok in H. destruct H as (h0 & H0 & H). apply pybind_ok in H. destruct H as (h1 & H1 & H).
  fold lines in H. apply pybind_ok in H. destruct H as (mask & H2 & H). apply pybind_ok in H. destruct H as (m & H3 & [= <-]). cbn [f_mask f_coeff f_ref f_cov].
  destruct (mask_spec _ _ _ _ _ H0 H1 H2) as (M & X & Y & L & B).
  assert (C : fit_map tmpl lines (hpop (s "BTYPE") (hset (s "BUNIT") (HStr []) mask))).
  { apply fit_map_pop; [|unfold fit_other; inn|kneq]. apply fit_map_set; [exact M|unfold fit_other; inn|kneq]. }
  split; [auto|]. split; [split; [exact C|split; card]|]. split; [split; [apply fit_map_set; [exact C|unfold fit_other; inn|kneq]|split; card]|].
  intros x [<-|[<-|[<-|[<-|[]]]]]; split; unfold cov_header; cbn [fold_left fst snd]; card.
Qed.

Theorem fit_cov_spec : forall tmpl ord name o, fit_write tmpl ord name = POk o ->
  says (f_cov o) (s "NAXIS") (HInt 4) /\ cards (s "WCSAXES") (f_cov o) = [(s "WCSAXES", HInt 2)] /\
  (forall i, 3 <= i <= 4 -> says (f_cov o) (key "NAXIS" i) (HInt 6) /\ says (f_cov o) (key "CTYPE" i) (HStr (s "INDEX")) /\ says (f_cov o) (key "CUNIT" i) (HStr []) /\
     says (f_cov o) (key "CRPIX" i) (HInt 1) /\ says (f_cov o) (key "CRVAL" i) (HInt 0) /\ says (f_cov o) (key "CDELT" i) (HInt 1)) /\
  says (f_cov o) (s "BUNIT") (HStr []) /\ lacks (f_cov o) (s "BTYPE") /\ history (f_cov o) = (history tmpl ++ map HStr (history_lines ord name))%list /\
  same_but (fun k => flat_touched k \/ In k (map s ["BUNIT"; "BTYPE"; "HISTORY"; "DATAMAX"; "DATAMIN"]%string)) tmpl (f_cov o).
Proof.
  intros tmpl ord name o H. unfold fit_write in H. apply pybind_ok in H. destruct H as (h0 & H0 & H). apply pybind_ok in H. destruct H as (h1 & H1 & H).
  set (lines := history_lines ord name) in *. apply pybind_ok in H. destruct H as (mask & H2 & H). apply pybind_ok in H. destruct H as (m & H3 & [= <-]). cbn [f_cov].
  destruct (mask_spec _ _ _ _ _ H0 H1 H2) as ((A & B & C & D & E & F) & X & Y & L & BT).
  set (g := hpop (s "BTYPE") (hpop (s "BTYPE") (hset (s "BUNIT") (HStr []) mask))).
  assert (EC : cov_header g = fold_left (fun h kv => hset (key (fst (fst kv)) (snd (fst kv))) (snd kv) h)
    [("NAXIS", 3, HInt 6); ("NAXIS", 4, HInt 6); ("CTYPE", 3, HStr (s "INDEX")); ("CTYPE", 4, HStr (s "INDEX")); ("CRVAL", 3, HInt 0); ("CRVAL", 4, HInt 0);
     ("CDELT", 3, HInt 1); ("CDELT", 4, HInt 1); ("CRPIX", 3, HInt 1); ("CRPIX", 4, HInt 1); ("CUNIT", 3, HStr []); ("CUNIT", 4, HStr [])]%string (hset (s "NAXIS") (HInt 4) g)) by reflexivity.
  change (cov_header _) with (cov_header g). rewrite EC. clear EC. cbn [fold_left fst snd].
  assert (CK : forall k, (forall w, In w ["NAXIS"; "CTYPE"; "CRVAL"; "CDELT"; "CRPIX"; "CUNIT"]%string -> forall i, k <> key w i) -> k <> s "NAXIS" -> k <> s "BTYPE" -> k <> s "BUNIT" -> cards k mask =
     cards k (hset (key "CUNIT" 4) (HStr []) (hset (key "CUNIT" 3) (HStr []) (hset (key "CRPIX" 4) (HInt 1) (hset (key "CRPIX" 3) (HInt 1) (hset (key "CDELT" 4) (HInt 1) (hset (key "CDELT" 3) (HInt 1)
       (hset (key "CRVAL" 4) (HInt 0) (hset (key "CRVAL" 3) (HInt 0) (hset (key "CTYPE" 4) (HStr (s "INDEX")) (hset (key "CTYPE" 3) (HStr (s "INDEX")) (hset (key "NAXIS" 4) (HInt 6) (hset (key "NAXIS" 3) (HInt 6)
         (hset (s "NAXIS") (HInt 4) g)))))))))))))).
  { intros k W N1 N2 N3. unfold g. rewrite !cards_hset_other by (try assumption; apply W; inn). rewrite !cards_hpop_other, cards_hset_other by assumption. reflexivity. }
  split; [card|]. split; [|split; [|split; [unfold g; card|split; [unfold g; card|split]]]].
  - rewrite <- CK; [exact B| |kneq|kneq|kneq]. intros w Hw i. cases Hw; kneq.
  - intros i Hi. assert (i = 3 \/ i = 4) as [-> | ->] by lia; repeat split; card.
  - unfold history at 1. rewrite <- CK; [exact E| |kneq|kneq|kneq]. intros w Hw i. cases Hw; kneq.
  - assert (T34 : forall w i, In w ["NAXIS"; "CTYPE"; "CRVAL"; "CDELT"; "CRPIX"; "CUNIT"]%string -> i = 3 \/ i = 4 -> flat_touched (key w i)).
    { intros w i Hw Hi. left. left. exists w, i. split; [cbn [In] in *; tauto|auto]. }
    repeat (apply sb_set; [left; apply T34; [inn|auto]|]). apply sb_set; [left; right; inn|]. unfold g.
    apply sb_pop; [right; inn|]. apply sb_pop; [right; inn|]. apply sb_set; [right; inn|]. exact F.
Qed.

Theorem fit_model_spec : forall tmpl ord name o n, says tmpl (s "NAXIS") (HInt (Z.of_nat n)) -> fit_write tmpl ord name = POk o ->
  3 <= n /\ says (f_model o) (s "NAXIS") (HInt 3) /\ says (f_model o) (s "WCSAXES") (HInt 3) /\
  (forall k i, axis_kw k i -> 3 < i <= n -> lacks (f_model o) k) /\
  (forall keep : str -> bool, (forall k, keep k = true -> untouched 3 k) -> filter (fun c => keep (fst c)) (f_model o) = filter (fun c => keep (fst c)) tmpl).
Proof.
  intros tmpl ord name o n N H. unfold fit_write in H. apply pybind_ok in H. destruct H as (h0 & H0 & H). apply pybind_ok in H. destruct H as (h1 & H1 & H).
  apply pybind_ok in H. destruct H as (mask & H2 & H). apply pybind_ok in H. destruct H as (m & H3 & [= <-]). cbn [f_model].
  apply model_spec in H3. destruct H3 as [H3 _]. pose proof (strip_removes _ _ _ _ n H3 (says_hint _ _ _ N)) as [R1 _].
  assert (L : 3 <= n). { apply strip_eq in H3. destruct H3 as (n0 & A & B). rewrite (says_hint _ _ _ N) in A. injection A as <-. cbv zeta in B. rewrite forced_spec, Nat2Z.id in B. cbn in B. lia. }
  split; auto.
  assert (P : says m (s "NAXIS") (HInt 3) /\ says m (s "WCSAXES") (HInt 3)).
  { unfold strip_header in H3. rewrite (says_hint _ _ _ N) in H3. cbn [pybind] in H3. destruct (_ <? 3); [discriminate H3|]. injection H3 as <-. split; [|card].
    apply says_set_o; [kneq|]. card. }
  split; [apply P|]. split; [apply P|]. split.
  - intros k i Hk Hi. apply (R1 k i Hk). lia.
  - intros p Hp. exact (strip_keeps tmpl 3 0 m p H3 Hp).
Qed.

(** when the fit writes its files *)
Theorem fit_defined : forall tmpl ord name n, says tmpl (s "NAXIS") (HInt (Z.of_nat n)) ->
  ((exists o, fit_write tmpl ord name = POk o) <->
   (exists c, In c tmpl /\ celestial_key (fst c)) /\ ~ lacks tmpl (s "BUNIT") /\ 3 <= n /\
   forall k, In k (map s ["NAXIS1"; "NAXIS2"; "NAXIS3"]%string) -> ~ lacks tmpl k).
Proof.
  intros tmpl ord name n N. split.
  - intros [o H]. pose proof (fit_model_spec _ _ _ _ _ N H) as (L & _).
    unfold fit_write in H. apply pybind_ok in H. destruct H as (h0 & H0 & H). apply pybind_ok in H. destruct H as (h1 & H1 & H).
    apply pybind_ok in H. destruct H as (mask & H2 & H). apply pybind_ok in H. destruct H as (m & H3 & _).
    split; [apply (header_2d_defined (HInt 2) tmpl); eauto|]. split; [|split; auto; apply model_spec in H3; apply H3].
    intro Q. unfold hdel in H1. destruct (flat_spec _ _ H0) as (_ & _ & _ & _ & S0).
    apply (sb_lacks _ _ _ _ S0 (not_flat (s "BUNIT") ltac:(inn))) in Q. apply hget_lacks in Q. rewrite Q in H1. discriminate H1.
  - intros ((c & Hc & Cc) & B & L & D). destruct (proj2 (header_2d_defined (HInt 2) tmpl)) as [h0 H0]; [eauto|].
    unfold fit_write. rewrite H0. cbn [pybind]. destruct (flat_spec _ _ H0) as (_ & _ & _ & _ & S0).
    assert (H1 : hdel (s "BUNIT") h0 = POk (hpop (s "BUNIT") h0)).
    { unfold hdel. destruct (hget (s "BUNIT") h0) eqn:E; [reflexivity|]. exfalso. apply B. apply (sb_lacks _ _ _ _ S0 (not_flat (s "BUNIT") ltac:(inn))), hget_lacks, E. }
    rewrite H1. cbn [pybind]. set (lines := history_lines ord name). set (g := fold_left _ lines _).
    assert (G : exists c, In c g /\ celestial_key (fst c)).
    { destruct (header_2d _ _ _ H0) as (_ & _ & _ & (a & c' & b & E & Cc' & _) & _).
      assert (NB : fst c' <> s "BUNIT" /\ fst c' <> s "HISTORY").
      { split; intro Q; apply wcs_celestial in Cc'; rewrite Q in Cc'; revert Cc'; apply not_in_b; vm_compute; reflexivity. }
      exists c'. split; auto.
      assert (SG : same_but (fun k => k = s "BUNIT" \/ k = s "HISTORY") h0 g) by (apply hist_many_sb; auto; apply sb_pop; auto; apply sb_refl).
      assert (K : cards (fst c') g = cards (fst c') h0) by (apply (sb_cards _ _ _ _ SG); tauto).
      assert (I : In c' (cards (fst c') h0)). { apply filter_In. split; [rewrite E; apply in_or_app; right; right; now left|apply str_eqb_refl]. }
      rewrite <- K in I. apply filter_In in I. apply I. }
    destruct (proj2 (header_2d_defined (HInt 2) g) G) as [h2 H2].
    assert (exists mask, mask_header g = POk mask) as [mask HM]. { unfold mask_header. rewrite H2. cbn [pybind]. eauto. }
    rewrite HM. cbn [pybind].
    assert (exists m, model_header tmpl = POk m) as [m M].
    { assert (exists m, strip_header tmpl 3 0 = POk m) as [m M].
      { unfold strip_header. rewrite (says_hint _ _ _ N). cbn [pybind]. rewrite forced_spec, Nat2Z.id. cbn [Nat.eqb]. destruct (Nat.ltb_spec n 3); [lia|]. eauto. }
      exists m. apply model_spec. auto. }
    rewrite M. cbn [pybind]. eauto.
Qed.

(** rescaling *)
Theorem rescale_spec : forall h freq, let x := rescale_write h freq in
  history x = (history h ++ [HStr (s "Stokes I model rescaled to new reference frequency.")])%list /\ says x (s "REFFREQ") (HNum freq) /\ lacks x (s "BUNIT") /\
  same_but (fun k => In k (map s ["HISTORY"; "REFFREQ"; "BUNIT"]%string)) h x.
Proof.
  intros h freq x. unfold x, rescale_write. split; [|split; [card|split; [card|]]].
  - unfold history at 1. rewrite cards_hpop_other, cards_hset_other by kneq. apply history_added.
  - apply sb_pop; [inn|]. apply sb_set; [inn|]. apply sb_history; [inn|]. apply sb_refl.
Qed.

(** which header goes to which file *)
Theorem synth_names : forall prefix tmpl phi phi2 lam0 pk o, synth_write tmpl phi phi2 lam0 pk = POk o ->
  (forall q u p, h_fdf o = Some (q, u, p) ->
     (In ((prefix ++ s "FDF_real_dirty.fits")%list, [q]) (synth_files true prefix o) /\ In ((prefix ++ s "FDF_im_dirty.fits")%list, [u]) (synth_files true prefix o) /\
      In ((prefix ++ s "FDF_tot_dirty.fits")%list, [p]) (synth_files true prefix o)) /\ In ((prefix ++ s "FDF_dirty.fits")%list, [q; u; p]) (synth_files false prefix o)) /\
  (forall q u p w, h_rmsf o = Some (q, u, p) -> h_fwhm o = Some w ->
     (In ((prefix ++ s "RMSF_real.fits")%list, [q]) (synth_files true prefix o) /\ In ((prefix ++ s "RMSF_im.fits")%list, [u]) (synth_files true prefix o) /\
      In ((prefix ++ s "RMSF_tot.fits")%list, [p]) (synth_files true prefix o) /\ In ((prefix ++ s "RMSF_FWHM.fits")%list, [w]) (synth_files true prefix o)) /\
      In ((prefix ++ s "RMSF.fits")%list, [q; u; p; w]) (synth_files false prefix o)) /\
  (forall sep m r, h_peak o = Some (m, r) -> In ((prefix ++ s "FDF_maxPI.fits")%list, [m]) (synth_files sep prefix o) /\ In ((prefix ++ s "FDF_peakRM.fits")%list, [r]) (synth_files sep prefix o)) /\
  (forall sep, NoDup (map fst (synth_files sep prefix o)) /\
     List.length (synth_files sep prefix o) = (if h_fdf o then if sep then 3 else 1 else 0) + (if h_rmsf o then if sep then 4 else 1 else 0) + (if h_peak o then 2 else 0)).
Proof.
  intros prefix tmpl phi phi2 lam0 pk o H.
  assert (W : h_rmsf o = None <-> h_fwhm o = None).
  { apply synth_steps in H. destruct H as (_ & h & f & r1 & r2 & r3 & _ & _ & H2 & _ & ->). cbn. destruct phi2 as [p|]; cbn in H2.
    - destruct H2 as (? & ? & ? & _ & _ & _ & ->). cbn. split; intro Q; discriminate Q.
    - subst r2. cbn. tauto. }
  unfold synth_files. destruct o as [[[[q u] p]|] [[[q2 u2] p2]|] [w|] [[m r]|]]; cbn [h_fdf h_rmsf h_fwhm h_peak] in *;
  try (exfalso; destruct W as [W1 W2]; first [discriminate (W1 eq_refl) | discriminate (W2 eq_refl)]);
  (split; [intros ? ? ? E; try discriminate E; injection E as <- <- <-; cbn; tauto|]);
  (split; [intros ? ? ? ? E E'; try discriminate E; injection E as <- <- <-; injection E' as <-; cbn; tauto|]);
  (split; [intros sep ? ? E; try discriminate E; injection E as <- <-; destruct sep; cbn; tauto|]);
  (intros sep; destruct sep; (split; [|reflexivity]); cbn [parts app map fst snd];
   repeat (constructor; [cbn [In map]; intro Q; repeat (destruct Q as [Q|Q]; [apply app_inv_head in Q; discriminate Q|]); exact Q|]); constructor).
Qed.
