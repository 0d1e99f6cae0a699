(** Proofs about the headers of the 3-D products: peak maps, RM-CLEAN, the Stokes
    I fit, and reading the depth axis again. *)
From Coq Require Import Reals Lra Lia List Arith ZArith Bool Ascii String Sorted.
From Verif Require Import PyRes PyStr PyStr_Proofs PyList NdArray Setup_Spec Setup_Model Setup_Proofs Synth_Model Measure_Model Cube_Model Cube_Spec Cube_Proofs
  Icube_Model Header_Model Header_Spec Header_Proofs Fits_Model Fits_Spec Fits_Proofs Hd_Model Hd_Spec Hd_Proofs.
Import ListNotations.
Local Open Scope nat_scope.

(* ----------------------------------------------------------- peak maps *)

(** axis f is flattened *)
Definition flat_axis (f : nat) (h : fheader) : fheader :=
  hset (key "CUNIT" f) (HStr []) (hset (key "CTYPE" f) (HStr (s "DEGENERATE")) (hset (key "NAXIS" f) (HInt 1) h)).
Definition flat_unit (tmpl : fheader) (h : fheader) : fheader := match hget (s "BUNIT") tmpl with Some u => hset (s "BUNIT") u h | None => h end.
Definition flat_peak (tmpl : fheader) (f : nat) (phi : list R) (h : fheader) : fheader :=
  flat_axis f (flat_unit tmpl (hpop (s "DATAMIN") (hpop (s "DATAMAX") (hset (key "CRVAL" f) (HNum (nth 0 phi 0%R)) (hset (key "NAXIS" f) (HInt 1) (flat_axis f (flat_unit tmpl h))))))).
Lemma peak_eq : forall tmpl f phi h m, peak_header tmpl f phi h = POk m <-> exists sa, stokes_axis (flat_peak tmpl f phi h) = POk sa /\
  m = match sa with Some a => hset (key "CTYPE" a) (HStr (s "DEGENERATE")) (flat_peak tmpl f phi h) | None => flat_peak tmpl f phi h end.
Proof.
  intros tmpl f phi h m. unfold peak_header. change (stokes_axis _) with (stokes_axis (flat_peak tmpl f phi h)) at 1. rewrite pybind_ok.
  split; intros (sa & A & B); exists sa; (split; [exact A|]); [injection B as <-|subst m]; reflexivity.
Qed.

Lemma flat_unit_cards : forall tmpl h k, k <> s "BUNIT" -> cards k (flat_unit tmpl h) = cards k h.
Proof. intros tmpl h k N. unfold flat_unit. destruct (hget _ tmpl); auto. now rewrite cards_hset_other. Qed.
Lemma flat_unit_says : forall tmpl h k v, k <> s "BUNIT" -> says h k v -> says (flat_unit tmpl h) k v.
Proof. intros tmpl h k v N H. unfold says. now rewrite flat_unit_cards. Qed.
Lemma flat_unit_lacks : forall tmpl h k, k <> s "BUNIT" -> lacks h k -> lacks (flat_unit tmpl h) k.
Proof. intros tmpl h k N H. unfold lacks. now rewrite flat_unit_cards. Qed.
Lemma flat_unit_sb : forall (T : str -> Prop) tmpl h h', T (s "BUNIT") -> same_but T h h' -> same_but T h (flat_unit tmpl h').
Proof. intros T tmpl h h' A B. unfold flat_unit. destruct (hget _ tmpl); auto. now apply sb_set. Qed.
Ltac cardu :=
  first [ eassumption | apply says_set | apply lacks_pop
        | apply says_set_o; [kneq|cardu] | apply says_pop_o; [kneq|cardu] | apply flat_unit_says; [kneq|cardu]
        | apply lacks_set_o; [kneq|cardu] | apply lacks_pop_o; [kneq|cardu] | apply flat_unit_lacks; [kneq|cardu] ].

(** the flat header seen as a header on the way, but for the type of its axis f *)
Lemma peak_ctype : forall tmpl n f lam0 phi h i, core tmpl n f lam0 h -> i <> f -> cards (key "CTYPE" i) (flat_peak tmpl f phi h) = cards (key "CTYPE" i) tmpl.
Proof.
  intros tmpl n f lam0 phi h i C Ni. rewrite <- (core_ctype _ _ _ _ _ _ C Ni). unfold flat_peak, flat_axis.
  repeat (first [rewrite cards_hset_other by kneq | rewrite cards_hpop_other by kneq | rewrite flat_unit_cards by kneq]). reflexivity.
Qed.
Lemma peak_hit : forall tmpl n f lam0 phi h i, core tmpl n f lam0 h ->
  (st_hit (flat_peak tmpl f phi h) i = true <-> i <> f /\ exists t, says tmpl (key "CTYPE" i) (HStr t) /\ has_part (s "STOKES") t).
Proof.
  intros tmpl n f lam0 phi h i C. unfold st_hit. destruct (Nat.eq_dec i f) as [->|Ni].
  - assert (E : says (flat_peak tmpl f phi h) (key "CTYPE" f) (HStr (s "DEGENERATE"))) by (unfold flat_peak, flat_axis; cardu).
    apply ctype_says in E. rewrite E. split; [intro H; discriminate H|tauto].
  - rewrite (ctype_cards tmpl _ i (peak_ctype _ _ _ _ phi _ _ C Ni)). destruct (ctype_of tmpl i) as [t|] eqn:E.
    + split.
      * intros H. split; auto. exists t. split; [apply ctype_says, E|apply has_part_iff, H].
      * intros (_ & t' & A & B). apply ctype_says in A. rewrite A in E. injection E as <-. apply has_part_iff, B.
    + split; [intro H; discriminate H|]. intros (_ & t' & A & _). apply ctype_says in A. congruence.
Qed.

Lemma peak_spec : forall tmpl n f lam0 phi h m, core tmpl n f lam0 h -> peak_header tmpl f phi h = POk m ->
  degenerate m f /\ says m (key "CRVAL" f) (HNum (nth 0 phi 0%R)) /\
  (forall v, says tmpl (s "BUNIT") v -> says m (s "BUNIT") v) /\ lacks m (s "DATAMAX") /\ lacks m (s "DATAMIN") /\
  (forall a, stokes_at tmpl n f a -> says m (key "CTYPE" a) (HStr (s "DEGENERATE"))) /\
  (forall w v, (w = "CRPIX"%string \/ w = "CDELT"%string) -> says h (key w f) v -> says m (key w f) v) /\
  same_but (fun k => axis_card f k \/ In k (map s ["DATAMAX"; "DATAMIN"; "BUNIT"]%string) \/ exists a, stokes_at tmpl n f a /\ k = key "CTYPE" a) h m.
Proof.
  intros tmpl n f lam0 phi h m C H. apply peak_eq in H. destruct H as (sa & A & E).
  assert (N : says (flat_peak tmpl f phi h) (s "NAXIS") (HInt (Z.of_nat n))).
  { destruct C as (C1 & _). unfold flat_peak, flat_axis. cardu. }
  apply (stokes_axis_spec _ n sa (naxis_of_nat _ _ N)) in A. destruct A as [_ B].
  assert (SA : match sa with Some a => stokes_at tmpl n f a | None => no_stokes tmpl n f end).
  { destruct sa as [a|].
    - destruct B as (Ha & B1 & B2). apply (peak_hit _ _ _ _ phi _ a C) in B1. destruct B1 as [Na B1]. repeat split; auto; try lia.
      intros j t Hj Nj Hs Hp. assert (st_hit (flat_peak tmpl f phi h) j = true) as Q; [apply (peak_hit _ _ _ _ phi _ j C); eauto|]. rewrite B2 in Q by lia. discriminate Q.
    - intros j t Hj Nj Hs Hp. assert (st_hit (flat_peak tmpl f phi h) j = true) as Q; [apply (peak_hit _ _ _ _ phi _ j C); eauto|]. rewrite B in Q by lia. discriminate Q. }
  assert (AX : forall w, In w ["CTYPE"; "CUNIT"; "NAXIS"; "CDELT"; "CRPIX"; "CRVAL"]%string -> axis_card f (key w f)) by (intros w Hw; exists w; auto).
  set (g := flat_peak tmpl f phi h) in *.
  assert (G1 : degenerate g f) by (unfold degenerate, g, flat_peak, flat_axis; repeat split; cardu).
  assert (G2 : says g (key "CRVAL" f) (HNum (nth 0 phi 0%R))) by (unfold g, flat_peak, flat_axis; cardu).
  assert (G3 : forall v, says tmpl (s "BUNIT") v -> says g (s "BUNIT") v).
  { intros v Hv. apply hget_says in Hv. unfold g, flat_peak, flat_axis, flat_unit. rewrite Hv. card. }
  assert (G4 : lacks g (s "DATAMAX")) by (unfold g, flat_peak, flat_axis; cardu).
  assert (G5 : lacks g (s "DATAMIN")) by (unfold g, flat_peak, flat_axis; cardu).
  assert (G6 : forall w v, (w = "CRPIX"%string \/ w = "CDELT"%string) -> says h (key w f) v -> says g (key w f) v).
  { intros w v [-> | ->] Hv; unfold g, flat_peak, flat_axis; cardu. }
  assert (G7 : same_but (fun k => axis_card f k \/ In k (map s ["DATAMAX"; "DATAMIN"; "BUNIT"]%string) \/ exists a, stokes_at tmpl n f a /\ k = key "CTYPE" a) h g).
  { unfold g, flat_peak, flat_axis.
    repeat (first [apply sb_refl | apply flat_unit_sb; [right; left; inn|] | apply sb_set; [first [left; apply AX; inn]|] | apply sb_pop; [right; left; inn|]]). }
  subst m. destruct sa as [a|].
  - pose proof SA as (_ & Na & _). destruct G1 as (X1 & X2 & X3). unfold degenerate. repeat split; try card.
    + intros v Hv. apply says_set_o; [kneq|auto].
    + intros a' Ha'. rewrite (stokes_at_unique _ _ _ _ _ Ha' SA). card.
    + intros w v Hw Hv. apply says_set_o; [|apply G6; auto]. destruct Hw as [-> | ->]; kneq.
    + apply sb_set; auto. right. right. exists a. auto.
  - repeat split; auto; try apply G1. intros a' Ha'. exfalso. destruct Ha' as (X & Y & (t & Z & W) & _). exact (SA a' t X Y Z W).
Qed.

Lemma core_sb : forall tmpl n f lam0 h (T : str -> Prop), core tmpl n f lam0 h -> (forall k, synth_touched tmpl n f k -> T k) -> same_but T tmpl h.
Proof. intros tmpl n f lam0 h T (_ & _ & _ & _ & _ & _ & C7) W. eapply sb_weak; eauto. Qed.

(** the maps of the peak *)
Theorem synth_peak : forall tmpl phi phi2 lam0 o n l f, says tmpl (s "NAXIS") (HInt (Z.of_nat n)) -> type_list tmpl n l -> spectral_axis (s "FREQ") l f ->
  synth_write tmpl (Some phi) phi2 lam0 true = POk o ->
  exists m r, h_peak o = Some (m, r) /\
    (forall v, says tmpl (s "BUNIT") v -> says m (s "BUNIT") v) /\ says r (s "BUNIT") (HStr (s "rad/m^2")) /\ says r (s "BTYPE") (HStr (s "FDEP")) /\
    same_but (fun k => k = s "BUNIT" \/ k = s "BTYPE") m r /\
    degenerate m f /\ says m (key "CRVAL" f) (HNum (nth 0 phi 0%R)) /\ lacks m (s "DATAMAX") /\ lacks m (s "DATAMIN") /\ lacks m (s "STOKES") /\
    (forall a, stokes_at tmpl n f a -> says m (key "CTYPE" a) (HStr (s "DEGENERATE"))) /\
    same_but (fun k => synth_touched tmpl n f k \/ exists a, stokes_at tmpl n f a /\ k = key "CTYPE" a) tmpl m.
Proof.
  intros tmpl phi phi2 lam0 o n l f N T F H. apply synth_steps in H. destruct H as (_ & h & f' & r1 & r2 & r3 & Hb & H1 & H2 & H3 & ->).
  destruct (base_axis _ _ _ _ _ _ _ N T F Hb) as [-> _]. destruct (base_core _ _ _ _ _ N Hb) as [C _].
  pose proof (fdf_core _ _ _ _ _ _ _ C H1) as C1. pose proof (rmsf_core _ _ _ _ _ _ _ C1 H2) as C2.
  destruct H3 as (m & P & ->). cbn [h_peak]. exists m, (hset (s "BTYPE") (HStr (s "FDEP")) (hset (s "BUNIT") (HStr (s "rad/m^2")) m)). split; auto.
  destruct (peak_spec _ _ _ _ _ _ _ C2 P) as (D & V & U & X & Y & Z & _ & W).
  assert (LS : lacks (fst (fst r2)) (s "STOKES")).
  { assert (L1 : lacks (fst r1) (s "STOKES")). { destruct H1 as (h1 & t1 & A & B & ->). cbn [fst]. apply three_spec in B. destruct B as (sa & _ & ->). cbn [snd]. apply lacks_pop. }
    destruct phi2 as [p2|]; cbn in H2; [|subst r2; exact L1]. destruct H2 as (h2 & w & t2 & _ & _ & B & ->). cbn [fst]. apply three_spec in B. destruct B as (sa & _ & ->). cbn [snd]. apply lacks_pop. }
  refine (conj U (conj _ (conj _ (conj _ (conj D (conj V (conj X (conj Y (conj _ (conj Z _)))))))))).
  - card.
  - card.
  - apply sb_set; auto. apply sb_set; auto. apply sb_refl.
  - apply (sb_lacks _ _ _ _ W); auto. intros [(w & Hw & E)|[E|(a & _ & E)]].
    + revert E. cases Hw; kneq.
    + litin E.
    + revert E. kneq.
  - eapply sb_trans; [eapply core_sb; [exact C2|auto]|]. eapply sb_weak; [|exact W]. cbv beta. intros k [K|[K|K]]; auto.
    + left. now left.
    + left. right. right. cbn [map In] in *. tauto.
Qed.

(** when RM-synthesis writes its files *)
Theorem synth_defined : forall tmpl phi phi2 lam0 pk n l f, says tmpl (s "NAXIS") (HInt (Z.of_nat n)) -> type_list tmpl n l -> spectral_axis (s "FREQ") l f ->
  ((exists o, synth_write tmpl phi phi2 lam0 pk = POk o) <->
   usable tmpl n f /\ (phi <> None \/ phi2 <> None) /\ (forall p, phi = Some p \/ phi2 = Some p -> 2 <= List.length p)).
Proof.
  intros tmpl phi phi2 lam0 pk n l f N T F. destruct (freq_axis_spec _ _ _ _ T F) as [Ef Hf]. split.
  - intros [o H]. apply synth_steps in H. destruct H as (E & h & f' & r1 & r2 & r3 & Hb & H1 & H2 & H3 & ->).
    destruct (base_axis _ _ _ _ _ _ _ N T F Hb) as [-> _]. destruct (base_core _ _ _ _ _ N Hb) as [C _].
    pose proof (fdf_core _ _ _ _ _ _ _ C H1) as C1.
    apply (base_spec _ _ n _ _ (naxis_of_nat _ _ N)) in Hb. destruct Hb as (_ & B1 & B2 & B3). split; [|split; auto].
    + split; auto. split; auto. split.
      * destruct B3 as [[B3 _]|(u & B3 & _)]; eauto.
      * destruct phi as [p|].
        -- destruct H1 as (h1 & t1 & A & B & _). destruct (depth_spec _ _ _ _ _ _ _ C A) as (_ & C' & _). apply (three_defined _ _ _ _ _ C'). eauto.
        -- destruct phi2 as [p|]; [|destruct E; congruence]. destruct H2 as (h1 & w & t1 & A & _ & B & _).
           destruct (depth_spec _ _ _ _ _ _ _ C1 A) as (_ & C' & _). apply (three_defined _ _ _ _ _ (core_set _ _ _ _ _ (HStr []) C')). eauto.
    + intros p [-> | ->].
      * destruct H1 as (h1 & t1 & A & _). apply (depth_spec _ _ _ _ _ _ _ C A).
      * destruct H2 as (h1 & w & t1 & A & _). apply (depth_spec _ _ _ _ _ _ _ C1 A).
  - intros ((U1 & U2 & U3 & U4) & E & L).
    assert (exists h, base_header tmpl lam0 = POk (h, f)) as [h Hb].
    { destruct U3 as [U3|[u U3]].
      - exists (flat_base tmpl f lam0). apply (base_spec _ _ n _ _ (naxis_of_nat _ _ N)). split; [congruence|]. split; [exact U1|]. split; [exact U2|]. left. auto.
      - eexists. apply (base_spec _ _ n _ _ (naxis_of_nat _ _ N)). split; [symmetry; exact Ef|]. split; [exact U1|]. split; [exact U2|]. right. exists u. split; [exact U3|reflexivity]. }
    destruct (base_core _ _ _ _ _ N Hb) as [C _].
    assert (exists r1, fdf_step f phi h r1) as [r1 H1].
    { destruct phi as [p|]; [|exists (h, None); reflexivity]. destruct (proj2 (depth_defined f p h) (L p (or_introl eq_refl))) as [h1 A].
      destruct (depth_spec _ _ _ _ _ _ _ C A) as (_ & C' & _). destruct (proj2 (three_defined _ _ _ _ _ C') U4) as [t B]. exists (snd t, Some t). exists h1, t. auto. }
    pose proof (fdf_core _ _ _ _ _ _ _ C H1) as C1.
    assert (exists r2, rmsf_step f phi2 (fst r1) r2) as [r2 H2].
    { destruct phi2 as [p|]; [|exists (fst r1, None, None); reflexivity]. destruct (proj2 (depth_defined f p (fst r1)) (L p (or_intror eq_refl))) as [h1 A].
      destruct (depth_spec _ _ _ _ _ _ _ C1 A) as (_ & C' & _). assert (C'' := core_set _ _ _ _ _ (HStr []) C').
      destruct (proj2 (three_defined _ _ _ _ _ C'') U4) as [t B].
      assert (exists w, remove_header_third_fourth_axis (HInt 2) (wide (hset (s "BUNIT") (HStr []) h1)) = POk w) as [w W].
      { apply header_2d_defined. assert (exists t0, says (wide (hset (s "BUNIT") (HStr []) h1)) (key "CTYPE" 1) (HStr t0)) as [t0 Ht0].
        { destruct (Nat.eq_dec f 1) as [->|Nf].
          - exists (s "FDEP"). destruct C' as (_ & C2 & _). unfold wide. card.
          - destruct (U4 1 ltac:(lia) ltac:(lia)) as [t0 Ht0]. exists t0. pose proof (core_ctype _ _ _ _ _ 1 C' ltac:(lia)) as EC.
            assert (says h1 (key "CTYPE" 1) (HStr t0)) by (unfold says in *; now rewrite EC). unfold wide. card. }
        exact (first_ctype _ _ Ht0). }
      exists (snd t, Some t, Some w). exists h1, w, t. auto. }
    pose proof (rmsf_core _ _ _ _ _ _ _ C1 H2) as C2.
    assert (exists r3, peak_step tmpl f phi pk (fst (fst r2)) r3) as [r3 H3].
    { destruct phi as [p|]; [|exists None; reflexivity]. destruct pk; [|exists None; reflexivity].
      assert (exists m, peak_header tmpl f p (fst (fst r2)) = POk m) as [m M]; [|eexists; exists m; split; [exact M|reflexivity]].
      assert (N' : says (flat_peak tmpl f p (fst (fst r2))) (s "NAXIS") (HInt (Z.of_nat n))).
      { destruct C2 as (K1 & _). unfold flat_peak, flat_axis. cardu. }
      assert (exists sa, stokes_axis (flat_peak tmpl f p (fst (fst r2))) = POk sa) as [sa SA].
      { unfold stokes_axis. rewrite (naxis_of_nat _ _ N'). cbn [pybind].
        assert (Q : forallb (fun c => is_some c) (ctypes (flat_peak tmpl f p (fst (fst r2))) n) = true); [|rewrite Q; eauto].
        apply forallb_forall. intros x Hx. apply in_map_iff in Hx. destruct Hx as (i & <- & Hi). apply in_seq in Hi.
        destruct (Nat.eq_dec i f) as [->|Ni].
        - assert (K : says (flat_peak tmpl f p (fst (fst r2))) (key "CTYPE" f) (HStr (s "DEGENERATE"))) by (unfold flat_peak, flat_axis; cardu).
          apply ctype_says in K. now rewrite K.
        - destruct (U4 i ltac:(lia) Ni) as [t Ht]. rewrite (ctype_cards tmpl _ i (peak_ctype _ _ _ _ _ _ _ C2 Ni)). apply ctype_says in Ht. now rewrite Ht. }
      eexists. apply peak_eq. exists sa. split; [exact SA|reflexivity]. }
    eexists. apply synth_steps. split; auto. exists h, f, r1, r2, r3. repeat split; auto.
Qed.
