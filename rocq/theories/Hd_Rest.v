(** Proofs about headers, continued: reading the depth axis, RM-CLEAN, the Stokes
    I fit and its rescaling. *)
From Coq Require Import Reals Lra Lia List Arith ZArith Bool Ascii String Sorted.
From Verif Require Import PyRes PyStr PyStr_Proofs PyList NdArray Setup_Spec Setup_Model Setup_Proofs Synth_Model Measure_Model Cube_Model Cube_Spec Cube_Proofs
  Icube_Model Header_Model Header_Spec Header_Proofs Fits_Model Fits_Spec Fits_Proofs Hd_Model Hd_Spec Hd_Proofs Hd_More.
Import ListNotations.
Local Open Scope nat_scope.

(* ------------------------------------------------------------- reading *)

Lemma says_hint : forall h k z, says h k (HInt z) -> hint k h = POk z.
Proof. intros h k z H. apply hget_says in H. unfold hint. now rewrite H. Qed.
Lemma says_hnum : forall h k x, says h k (HNum x) -> hnum k h = POk x.
Proof. intros h k z H. apply hget_says in H. unfold hnum. now rewrite H. Qed.
Lemma says_hnum_int : forall h k z, says h k (HInt z) -> hnum k h = POk (IZR z).
Proof. intros h k z H. apply hget_says in H. unfold hnum. now rewrite H. Qed.

Lemma depth_axis_read : forall x n f phi start step, says x (s "NAXIS") (HInt (Z.of_nat n)) -> f <= n -> depth_axis x f phi ->
  2 <= List.length phi -> (0 < step)%R -> uniform phi start step -> header_axis x f = POk phi.
Proof.
  intros x n f phi st d N Hf (_ & _ & A & B & c & C & Hc & D) L Hd U. unfold header_axis. rewrite (naxis_of_nat _ _ N). cbn [pybind].
  destruct (Nat.ltb_spec n f); [lia|]. change (kw "NAXIS" f) with (key "NAXIS" f). change (kw "CRPIX" f) with (key "CRPIX" f). change (kw "CRVAL" f) with (key "CRVAL" f). change (kw "CDELT" f) with (key "CDELT" f).
  rewrite (says_hint _ _ _ A). cbn [pybind]. rewrite (says_hnum_int _ _ _ C). cbn [pybind].
  rewrite (says_hnum _ _ _ D). cbn [pybind]. rewrite (says_hnum _ _ _ B). cbn [pybind].
  replace (nth 1 phi 0 - nth 0 phi 0)%R with d. 2:{ rewrite (U 1), (U 0) by lia. cbn [INR]. lra. }
  destruct (lin_axis_world (List.length phi) (IZR (Z.of_nat c)) (nth (c - 1) phi 0%R) d Hd ltac:(lia)) as (l & E & Ll & W).
  rewrite E. f_equal. apply (uniform_ext phi st d); auto. intros k Hk. rewrite W by auto. unfold world. rewrite U by lia.
  rewrite <- INR_IZR_INZ, minus_INR, (S_INR k) by lia. cbn [INR]. ring.
Qed.

Lemma depth_found : forall x n f, says x (s "NAXIS") (HInt (Z.of_nat n)) -> 1 <= f <= n -> says x (key "CTYPE" f) (HStr (s "FDEP")) ->
  (forall j t, f < j <= n -> says x (key "CTYPE" j) (HStr t) -> ~ mentions (s "FDEP") (Some t)) -> find_axes (ctypes x n) n = f.
Proof.
  intros x n f N Hf A B. pose proof (ctypes_list x n) as [L T]. unfold find_axes.
  replace (find_axis (s "FDEP") n (ctypes x n)) with (find_axis (s "FDEP") (List.length (ctypes x n)) (ctypes x n)) by (now rewrite L).
  apply (find_axis_spec _ _ f caps_FDEP). unfold spectral_axis. rewrite L. split; auto. split.
  - intros j Hj. specialize (T j ltac:(lia)). destruct (nth (j - 1) (ctypes x n) None) as [t|] eqn:E.
    + apply (B j t Hj). apply T. reflexivity.
    + intros (a & m & b & Q & _). discriminate Q.
  - left. specialize (T f Hf). rewrite (proj2 (T _) A). exists [], (s "FDEP"), []. split; [reflexivity|]. repeat constructor.
Qed.

(** the depth axis of a cube is read back *)
Theorem cube_read : forall tmpl n f phi lam0 x start step, cube_header tmpl n f phi lam0 x -> 1 <= f <= n ->
  (forall j t, f < j <= n -> says tmpl (key "CTYPE" j) (HStr t) -> ~ mentions (s "FDEP") (Some t)) ->
  2 <= List.length phi -> (0 < step)%R -> uniform phi start step -> depth_of x = POk phi.
Proof.
  intros tmpl n f phi lam0 x st d (N & D & _ & _ & _ & S) Hf B L Hd U. unfold depth_of. rewrite (naxis_of_nat _ _ N). cbn [pybind].
  pose proof D as (A & _). rewrite (depth_found x n f N Hf A).
  - eapply depth_axis_read; eauto; lia.
  - intros j t Hj Ht. apply (B j t Hj). unfold says in *. rewrite <- Ht. symmetry. f_equal. apply (sb_cards _ _ _ _ S).
    intros [(w & Hw & E)|[[E|(a & _ & [E|E])]|E]].
    + apply key_inj in E; [destruct E; lia|reflexivity|]. cases Hw; reflexivity.
    + revert E. kneq.
    + revert E. kneq.
    + revert E. kneq.
    + litin E.
Qed.

(* ------------------------------------------------------------- history *)

Lemma after_last : forall k v h, match add_after_last k v h with
  | Some h' => exists a c b, h = (a ++ c :: b)%list /\ fst c = k /\ lacks b k /\ h' = (a ++ c :: (k, v) :: b)%list
  | None => lacks h k
  end.
Proof.
  intros k v h. induction h as [|c t IH]; cbn [add_after_last]; [reflexivity|]. destruct (add_after_last k v t) as [t'|].
  - destruct IH as (a & c' & b & -> & A & B & ->). exists (c :: a), c', b. auto.
  - destruct (str_eqb k (fst c)) eqn:E.
    + apply str_eqb_eq in E. exists [], c, t. auto.
    + unfold lacks, cards in *. cbn [filter]. now rewrite E.
Qed.
Lemma cards_app : forall k (a b : fheader), cards k (a ++ b)%list = (cards k a ++ cards k b)%list.
Proof. intros. unfold cards. apply filter_app. Qed.
Lemma history_cards : forall line h, cards (s "HISTORY") (add_history line h) = (cards (s "HISTORY") h ++ [(s "HISTORY", HStr line)])%list.
Proof.
  intros line h. unfold add_history. pose proof (after_last (s "HISTORY") (HStr line) h) as A. destruct (add_after_last _ _ h) as [h'|].
  - destruct A as (a & c & b & -> & E & L & ->). rewrite !cards_app, <- app_assoc. f_equal. unfold lacks in L. unfold cards in *. cbn [filter fst].
    rewrite E, !str_eqb_refl. rewrite L. reflexivity.
  - rewrite cards_app, A. reflexivity.
Qed.
Lemma history_added : forall line h, history (add_history line h) = (history h ++ [HStr line])%list.
Proof. intros. unfold history. rewrite history_cards, map_app. reflexivity. Qed.
Lemma sb_history : forall (T : str -> Prop) h h' line, T (s "HISTORY") -> same_but T h h' -> same_but T h (add_history line h').
Proof.
  intros T h h' line HT S p Hp. rewrite <- (S p Hp). unfold add_history. pose proof (after_last (s "HISTORY") (HStr line) h') as A.
  specialize (Hp _ HT). destruct (add_after_last _ _ h') as [h2|].
  - destruct A as (a & c & b & -> & E & L & ->). rewrite !filter_app. f_equal. cbn [filter fst]. rewrite E, Hp. reflexivity.
  - rewrite filter_app. cbn [filter fst]. rewrite Hp. apply app_nil_r.
Qed.
Lemma hist_says : forall line h k v, k <> s "HISTORY" -> says h k v -> says (add_history line h) k v.
Proof.
  intros line h k v N H. apply (sb_says (fun k => k = s "HISTORY") h); auto. apply sb_history; auto. apply sb_refl.
Qed.

(* ------------------------------------------------------------ RM-CLEAN *)

(** the same template but for its history *)
Lemma stokes_at_cards : forall h h' n f a, (forall i, cards (key "CTYPE" i) h' = cards (key "CTYPE" i) h) -> stokes_at h n f a <-> stokes_at h' n f a.
Proof.
  intros h h' n f a E. unfold stokes_at. assert (S : forall i v, says h (key "CTYPE" i) v <-> says h' (key "CTYPE" i) v) by (intros; unfold says; now rewrite E).
  split; (intros (A & B & (t & C & D) & F); repeat split; auto; try lia; [exists t; split; [apply S|]; auto|intros j t' Hj Nj H; apply (F j t' Hj Nj), S, H]).
Qed.
Lemma gen_stokes : forall h n sa, says h (s "NAXIS") (HInt (Z.of_nat n)) -> stokes_axis h = POk sa ->
  match sa with Some a => stokes_at h n 0 a | None => no_stokes h n 0 end.
Proof.
  intros h n sa N H. apply (stokes_axis_spec h n sa (naxis_of_nat _ _ N)) in H. destruct H as [_ B].
  assert (K : forall i, st_hit h i = true <-> exists t, says h (key "CTYPE" i) (HStr t) /\ has_part (s "STOKES") t).
  { intro i. unfold st_hit. destruct (ctype_of h i) as [t|] eqn:E.
    - split; [intro Q; exists t; split; [apply ctype_says, E|apply has_part_iff, Q]|]. intros (t' & Q & P). apply ctype_says in Q. rewrite Q in E. injection E as <-. apply has_part_iff, P.
    - split; [intro Q; discriminate Q|]. intros (t' & Q & _). apply ctype_says in Q. congruence. }
  destruct sa as [a|].
  - destruct B as (Ha & B1 & B2). repeat split; try lia; [apply K, B1|]. intros j t Hj _ Hs Hp.
    assert (st_hit h j = true) as Q by (apply K; eauto). rewrite B2 in Q by lia. discriminate Q.
  - intros j t Hj _ Hs Hp. assert (st_hit h j = true) as Q by (apply K; eauto). rewrite B in Q by lia. discriminate Q.
Qed.
Lemma gen_put : forall tmpl n h sa num st, match sa with Some a => stokes_at tmpl n 0 a | None => no_stokes tmpl n 0 end ->
  let x := put_stokes sa num st h in
  same_but (stokes_touched tmpl n 0) h x /\ says x (s "STOKES") (HStr st) /\ stokes_cards x n 0 tmpl num.
Proof.
  intros tmpl n h sa num st A x. split; [|split].
  - unfold x, put_stokes. apply sb_set; [now left|]. destruct sa as [a|]; [|apply sb_refl].
    apply sb_set; [right; exists a; auto|]. apply sb_set; [right; exists a; auto|]. apply sb_refl.
  - unfold x, put_stokes. card.
  - intros a' Ha'. unfold x, put_stokes. destruct sa as [a|].
    + rewrite <- (stokes_at_unique _ _ _ _ _ A Ha'). split; card.
    + exfalso. destruct Ha' as (X & Y & (t & Z & W) & _). exact (A a' t X Y Z W).
Qed.
Lemma gen_three : forall tmpl n h t, says h (s "NAXIS") (HInt (Z.of_nat n)) -> (forall i, cards (key "CTYPE" i) h = cards (key "CTYPE" i) tmpl) ->
  three h = POk t -> three_parts tmpl n 0 t (same_but (stokes_touched tmpl n 0) h).
Proof.
  intros tmpl n h t N C H. apply three_spec in H. destruct H as (sa & H & ->). cbv zeta.
  pose proof (gen_stokes _ _ _ N H) as A0.
  assert (A : match sa with Some a => stokes_at tmpl n 0 a | None => no_stokes tmpl n 0 end).
  { destruct sa as [a|]; [apply (stokes_at_cards tmpl h n 0 a C), A0|]. intros j t Hj Nj Hs. apply (A0 j t Hj Nj). unfold says in *. now rewrite C. }
  destruct (gen_put tmpl n h sa 2 (s "Q") A) as (Sq & Kq & Aq). set (q := put_stokes sa 2 (s "Q") h) in *.
  destruct (gen_put tmpl n q sa 3 (s "U") A) as (Su & Ku & Au). set (u := put_stokes sa 3 (s "U") q) in *.
  destruct (gen_put tmpl n u sa 0 (s "PI") A) as (Sp & Kp & Ap). set (p := put_stokes sa 0 (s "PI") u) in *.
  assert (Su' : same_but (stokes_touched tmpl n 0) h u) by (eapply sb_trans; eauto).
  assert (Sp' : same_but (stokes_touched tmpl n 0) h (hpop (s "STOKES") p)) by (apply sb_pop; [now left|]; eapply sb_trans; eauto).
  unfold three_parts. refine (conj Sq (conj Su' (conj Sp' (conj Kq (conj Ku (conj (lacks_pop _ _) (conj Aq (conj Au _)))))))).
  intros a Ha. destruct (Ap a Ha). split; (apply says_pop_o; [kneq|assumption]).
Qed.
Lemma ctype_not_stokes : forall tmpl n i, ~ stokes_touched tmpl n 0 (key "CTYPE" i).
Proof. intros tmpl n i [E|(a & _ & [E|E])]; revert E; kneq. Qed.

Definition clean_line : str := s "RM-CLEAN3D output from RM-Tools".

Theorem clean_cubes : forall tmpl n c, says tmpl (s "NAXIS") (HInt (Z.of_nat n)) -> clean_write tmpl = POk c ->
  three_parts tmpl n 0 (c_clean c) (fun x => same_but (clean_touched tmpl n) tmpl x /\ history x = (history tmpl ++ [HStr (s "RM-CLEAN3D output from RM-Tools")])%list) /\
  three_parts tmpl n 0 (c_cc c) (fun x => same_but (clean_touched tmpl n) tmpl x /\ history x = (history tmpl ++ [HStr (s "RM-CLEAN3D output from RM-Tools")])%list) /\
  (3 <= n -> degenerate (c_iter c) 3) /\ (n = 4 -> degenerate (c_iter c) 4) /\ says (c_iter c) (s "BUNIT") (HStr (s "Iterations")) /\ lacks (c_iter c) (s "STOKES") /\
  history (c_iter c) = (history tmpl ++ [HStr (s "RM-CLEAN3D output from RM-Tools")])%list /\
  same_but (fun k => clean_touched tmpl n k \/ k = s "BUNIT" \/ exists w i, In w ["NAXIS"; "CTYPE"; "CUNIT"]%string /\ 3 <= i <= n /\ i <= 4 /\ k = key w i) tmpl (c_iter c).
Proof.
  intros tmpl n c N H. unfold clean_write in H. fold clean_line in H |- *. set (h := add_history clean_line tmpl) in H.
  apply pybind_ok in H. destruct H as (t1 & H1 & H). apply pybind_ok in H. destruct H as (t2 & H2 & H). apply pybind_ok in H. destruct H as (n' & Hn & H).
  rewrite (naxis_of_nat _ _ N) in Hn. injection Hn as <-. injection H as <-. cbn [c_clean c_cc c_iter].
  assert (S0 : same_but (clean_touched tmpl n) tmpl h) by (apply sb_history; [now left|apply sb_refl]).
  assert (N0 : says h (s "NAXIS") (HInt (Z.of_nat n))) by (apply hist_says; [kneq|exact N]).
  assert (C0 : forall i, cards (key "CTYPE" i) h = cards (key "CTYPE" i) tmpl).
  { intro i. apply (sb_cards (fun k => k = s "HISTORY") tmpl h). apply sb_history; [auto|apply sb_refl]. kneq. }
  assert (K0 : history h = (history tmpl ++ [HStr clean_line])%list) by apply history_added.
  assert (KH : ~ stokes_touched tmpl n 0 (s "HISTORY")) by (apply stokes_touched_not; right; inn).
  assert (KN : ~ stokes_touched tmpl n 0 (s "NAXIS")) by (apply stokes_touched_not; right; inn).
  assert (W : forall x, same_but (stokes_touched tmpl n 0) h x -> same_but (clean_touched tmpl n) tmpl x /\ history x = (history tmpl ++ [HStr clean_line])%list).
  { intros x S. split.
    - eapply sb_trans; [exact S0|]. eapply sb_weak; [|exact S]. intros k Hk. now right.
    - rewrite <- K0. unfold history. f_equal. apply (sb_cards _ _ _ _ S KH). }
  pose proof (gen_three _ _ _ _ N0 C0 H1) as P1. destruct t1 as [[q1 u1] p1]. cbn [snd] in *.
  pose proof P1 as (_ & _ & Sp & _).
  assert (N1 : says p1 (s "NAXIS") (HInt (Z.of_nat n))) by (apply (sb_says _ _ _ _ _ Sp KN), N0).
  assert (C1 : forall i, cards (key "CTYPE" i) p1 = cards (key "CTYPE" i) tmpl).
  { intro i. rewrite <- C0. apply (sb_cards _ _ _ _ Sp), ctype_not_stokes. }
  pose proof (gen_three _ _ _ _ N1 C1 H2) as P2. destruct t2 as [[q2 u2] p2]. cbn [snd] in *.
  assert (P2' : three_parts tmpl n 0 (q2, u2, p2) (same_but (stokes_touched tmpl n 0) h)).
  { eapply parts_weak; [|exact P2]. intros x S. eapply sb_trans; eauto. }
  split; [eapply parts_weak; [|exact P1]; exact W|]. split; [eapply parts_weak; [|exact P2']; exact W|].
  assert (Hp2 : same_but (stokes_touched tmpl n 0) h p2) by apply P2'. destruct (W _ Hp2) as [W1 W2].
  set (T := fun k => clean_touched tmpl n k \/ k = s "BUNIT" \/ exists w i, In w ["NAXIS"; "CTYPE"; "CUNIT"]%string /\ 3 <= i <= n /\ i <= 4 /\ k = key w i).
  assert (W1' : same_but T tmpl p2) by (eapply sb_weak; [|exact W1]; unfold T; auto).
  assert (TI : forall w i, In w ["NAXIS"; "CTYPE"; "CUNIT"]%string -> 3 <= i <= n -> i <= 4 -> T (key w i)) by (intros w i A B C; right; right; exists w, i; auto).
  change (kw "CUNIT" 3) with (key "CUNIT" 3). change (kw "CTYPE" 3) with (key "CTYPE" 3). change (kw "NAXIS" 3) with (key "NAXIS" 3).
  change (kw "CUNIT" 4) with (key "CUNIT" 4). change (kw "CTYPE" 4) with (key "CTYPE" 4). change (kw "NAXIS" 4) with (key "NAXIS" 4).
  set (g := if n =? 4 then _ else _).
  assert (G1 : 3 <= n -> degenerate g 3).
  { intros L. unfold g. destruct (Nat.ltb_spec 2 n); [|lia]. unfold degenerate. destruct (n =? 4); repeat split; card. }
  assert (G2 : n = 4 -> degenerate g 4). { intros ->. unfold g. cbn [Nat.eqb Nat.ltb Nat.leb]. unfold degenerate. repeat split; card. }
  assert (G3 : same_but T tmpl g).
  { unfold g. destruct (Nat.ltb_spec 2 n); destruct (Nat.eqb_spec n 4); repeat (first [exact W1' | apply sb_set; [apply TI; [inn|lia|lia]|]]). }
  assert (G4 : history g = (history tmpl ++ [HStr clean_line])%list).
  { rewrite <- W2. unfold history, g. destruct (2 <? n); destruct (n =? 4); rewrite ?cards_hset_other by kneq; reflexivity. }
  split; [|split; [|split; [card|split; [apply lacks_pop|split]]]].
  - intro L. destruct (G1 L) as (X & Y & Z). unfold degenerate. repeat split; card.
  - intro L. destruct (G2 L) as (X & Y & Z). unfold degenerate. repeat split; card.
  - rewrite <- G4. unfold history. rewrite cards_hpop_other, cards_hset_other by kneq. reflexivity.
  - apply sb_pop; [left; right; now left|]. apply sb_set; [right; now left|]. exact G3.
Qed.

Theorem clean_defined : forall tmpl n, says tmpl (s "NAXIS") (HInt (Z.of_nat n)) ->
  ((exists c, clean_write tmpl = POk c) <-> forall i, 1 <= i <= n -> exists t, says tmpl (key "CTYPE" i) (HStr t)).
Proof.
  intros tmpl n N. set (h := add_history clean_line tmpl).
  assert (C0 : forall k, k <> s "HISTORY" -> cards k h = cards k tmpl).
  { intros k Hk. apply (sb_cards (fun k => k = s "HISTORY") tmpl h); auto. apply sb_history; [auto|apply sb_refl]. }
  assert (N0 : says h (s "NAXIS") (HInt (Z.of_nat n))) by (unfold says; rewrite C0; [exact N|kneq]).
  assert (T : stokes_axis h = stokes_axis tmpl) by (apply stokes_axis_cards; intros; apply C0; kneq).
  assert (D : (exists sa, stokes_axis tmpl = POk sa) <-> forall i, 1 <= i <= n -> exists t, says tmpl (key "CTYPE" i) (HStr t)).
  { split; [intros [sa A]; apply (stokes_axis_spec _ n sa (naxis_of_nat _ _ N)) in A; apply A|]. intros A.
    unfold stokes_axis. rewrite (naxis_of_nat _ _ N). cbn [pybind].
    assert (Q : forallb (fun c => is_some c) (ctypes tmpl n) = true); [|rewrite Q; eauto].
    apply forallb_forall. intros x Hx. apply in_map_iff in Hx. destruct Hx as (i & <- & Hi). apply in_seq in Hi. destruct (A i ltac:(lia)) as [t Ht].
    apply ctype_says in Ht. now rewrite Ht. }
  rewrite <- D. unfold clean_write. fold clean_line. fold h. split.
  - intros [c H]. apply pybind_ok in H. destruct H as (t1 & H1 & _). apply three_spec in H1. destruct H1 as (sa & H1 & _). rewrite T in H1. eauto.
  - intros [sa A]. assert (B : stokes_axis h = POk sa) by (now rewrite T).
    assert (exists t1, three h = POk t1) as [t1 H1]. { eexists. apply three_spec. exists sa. split; [exact B|reflexivity]. }
    rewrite H1. cbn [pybind]. apply three_spec in H1. destruct H1 as (sa' & B' & E).
    assert (exists t2, three (snd t1) = POk t2) as [t2 H2].
    { eexists. apply three_spec. exists sa. split; [|reflexivity]. rewrite E. cbn [snd]. rewrite <- B.
      rewrite (stokes_axis_cards (put_stokes sa' 0 (s "PI") (put_stokes sa' 3 (s "U") (put_stokes sa' 2 (s "Q") h))));
        [|rewrite cards_hpop_other; [reflexivity|kneq]|intro i; rewrite cards_hpop_other; [reflexivity|kneq]]. rewrite !put_axis. reflexivity. }
    rewrite H2. cbn [pybind]. rewrite (naxis_of_nat _ _ N). cbn [pybind]. eauto.
Qed.
