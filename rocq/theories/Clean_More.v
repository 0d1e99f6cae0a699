(** RM-CLEAN: single sources, windows, defaults and the failing cases, at the
    level of the API. *)
From Coq Require Import Reals List Arith ZArith Bool Lia Lra Permutation.
Set Warnings "-ambiguous-paths".
From Coquelicot Require Import Coquelicot.
From Verif Require Import PyRes CBase NdArray PyList PyList_Proofs Synth_Model Clean_Model Clean_Spec Clean_Proofs Clean_Cube Clean_Laws.
Import ListNotations.
Local Open Scope R_scope.

(** C16 *)
Theorem rmclean_single_source : forall dirty phi RMSF phi2 fwhm cutoff maxIter gain msk pool r p d rm fw imax i0 A,
  do_rmclean_hogbom dirty phi RMSF phi2 fwhm cutoff maxIter gain msk pool None = CRetOk r ->
  0 < cutoff ->
  let m := prodn (tl (shape dirty)) in
  any_order (n_loud m (length phi) (flat dirty) cutoff) pool ->
  (p < m)%nat -> length rm = length phi2 ->
  has_spec m p (flat dirty) d -> has_spec m p (flat RMSF) rm -> nth p fwhm None = Some fw ->
  unit_peak rm imax -> roomy (length phi) (length phi2) imax ->
  single_source rm imax (length phi) i0 A d ->
  exists k, (k <= maxIter)%nat /\
    (pool = None -> nth p (flat (iterCountArr r)) 0%nat = k) /\
    (forall j, (j < length phi)%nat ->
       at2 m None (flat (residFDF r)) j p = Some (RtoC ((1 - gain) ^ k) * nth j d czero)%C /\
       at2 m None (flat (ccArr r)) j p = Some (if Nat.eqb j i0 then (A * RtoC (1 - (1 - gain) ^ k))%C else czero)) /\
    (forall k', (k' < k)%nat -> cutoff <= Rabs (1 - gain) ^ k' * Cmod A) /\
    (k = maxIter \/ Rabs (1 - gain) ^ k * Cmod A < cutoff).
Proof.
  intros dirty phi RMSF phi2 fwhm cutoff maxIter gain msk pool r p d rm fw imax i0 A H Hc m HO Hp Lr Hd Hr Hf HU HR HS.
  pose proof HS as [Ld [Hi0 HS']].
  destruct (rmclean_pixel _ _ _ _ _ _ _ _ _ _ _ _ p d rm fw H Hc HO Hp Ld Lr Hd Hr Hf) as [s [[W1 [W2 _]] [S1 [S2 [_ [S4 S5]]]]]].
  exists (iters s). rewrite <- Lr in HR.
  assert (HI : pool = None -> nth p (flat (iterCountArr r)) 0%nat = iters s) by (intros ->; exact S4).
  destruct S5 as [[_ E]|[E1 E]].
  - destruct (clean_single_source _ _ _ _ _ _ _ _ _ _ _ HU HR HS Hc E) as [G1 [G2 [G3 G4]]].
    destruct (clean_stops _ _ _ _ _ _ _ _ Ld Hc E) as [B _].
    split; [exact B|]. split; [exact HI|]. split; [|auto].
    intros j Hj. unfold at2. fold m in S1, S2. rewrite S1, S2 by lia. rewrite <- G1, <- G2 by auto. auto.
  - subst s. simpl in *. split; [lia|]. split; [exact HI|].
    assert (Hlt : Cmod A < cutoff).
    { apply Rnot_le_lt. intros L. assert (reaches m (length phi) p (flat dirty) cutoff = true); [|unfold m in *; congruence].
      apply existsb_exists. exists i0. split; [apply in_seq; lia|]. rewrite Hd by lia. rewrite HS' by auto.
      replace (Z.of_nat imax + Z.of_nat i0 - Z.of_nat i0)%Z with (Z.of_nat imax) by lia.
      rewrite zsample_peak, Cmult_1_r by auto. destruct Rle_dec; auto. }
    split; [|split; [intros; lia|right; lra]].
    intros j Hj. unfold at2. fold m in S1, S2. rewrite S1, S2 by lia. rewrite nth_zeros. split; f_equal; [ring|].
    destruct (Nat.eqb j i0); auto. replace (1 - 1) with 0 by ring. unfold czero. ring.
Qed.

(** Two runs that differ in the window only: what the second phase does. *)
Lemma window_pixel : forall d RM phi fw gain cutoff maxIter w s1 s2,
  length d = length phi ->
  cleanloop d RM phi fw gain cutoff None maxIter = POk s1 ->
  cleanloop d RM phi fw gain cutoff (Some w) maxIter = POk s2 ->
  wf_cst phi s1 /\ wf_cst phi s2 /\ (iters s1 <= iters s2 <= maxIter)%nat /\
  (forall j, (j < length phi)%nat -> nth j (cc s2) czero <> nth j (cc s1) czero ->
     nth j (win_mask phi fw (cc s1)) false = true) /\
  (0 < w -> iters s2 = maxIter \/
     forall j, (j < length phi)%nat -> nth j (win_mask phi fw (cc s1)) false = true -> Cmod (nth j (resid s2) czero) < w).
Proof.
  intros d RM phi fw gain cutoff maxIter w s1 s2 HL H1 H2.
  destruct (cleanloop_inv _ _ _ _ _ _ _ _ _ HL H1) as [im [t1 [E [L1 [L2 [R1 [R2 [W1 W]]]]]]]].
  destruct (cleanloop_inv _ _ _ _ _ _ _ _ _ HL H2) as [im' [t1' [E' [L1' [L2' [R1' [R2' [W1' W']]]]]]]].
  rewrite E in E'. injection E' as <-. rewrite L1 in L1'. injection L1' as <-.
  assert (t1 = s1) by (destruct (maxIter - iters t1)%nat; simpl in L2; congruence). subst t1.
  destruct (loop1_reach _ _ _ _ _ _ _ _ _ _ (init_wf _ _ HL) L1) as [_ [B1 B2]]. simpl in B1, B2.
  destruct (loop2_reach _ _ _ _ _ _ _ _ _ _ _ W1 (win_mask_len _ _ _ W1) L2') as [_ [C1 C2]].
  pose proof (reach_iters _ _ _ _ _ _ _ _ _ W1 R2') as HI.
  split; [exact W1|]. split; [exact W'|]. split; [lia|]. split.
  - intros j Hj Hn. destruct (nth j (win_mask phi fw (cc s1)) false) eqn:Em; auto. exfalso. apply Hn.
    apply (reach_cc_stable _ _ _ _ _ _ _ _ _ W1 R2' j Hj). congruence.
  - intros Hw. destruct C2 as [C2|C2]; [left; lia|right]. intros j Hj Hm.
    assert (Hin : In j (open_chans (win_mask phi fw (cc s1)))).
    { apply in_open. rewrite length_win_mask. destruct W1 as [_ [W1 _]]. split; [lia|auto]. }
    destruct C2 as [C2|C2]; [rewrite C2 in Hin; destruct Hin|].
    apply (proj1 (maxabs_lt _ w Hw) C2). apply in_map_iff. eauto.
Qed.

(** C20: [width] is the FWHM of the RMSF in channels. *)
Theorem rmclean_window_sound : forall dirty phi RMSF phi2 fwhm cutoff maxIter gain msk pool w r1 r2 p d rm fw,
  do_rmclean_hogbom dirty phi RMSF phi2 fwhm cutoff maxIter gain msk pool None = CRetOk r1 ->
  do_rmclean_hogbom dirty phi RMSF phi2 fwhm cutoff maxIter gain msk pool (Some w) = CRetOk r2 ->
  0 < cutoff ->
  let m := prodn (tl (shape dirty)) in
  any_order (n_loud m (length phi) (flat dirty) cutoff) pool ->
  (p < m)%nat -> length d = length phi -> length rm = length phi2 ->
  has_spec m p (flat dirty) d -> has_spec m p (flat RMSF) rm -> nth p fwhm None = Some fw ->
  let width := fw / (nth 1 phi 0 - nth 0 phi 0) in
  0 <= width ->
  forall j, (j < length phi)%nat ->
    at2 m None (flat (ccArr r2)) j p <> at2 m None (flat (ccArr r1)) j p ->
    exists i, (i < length phi)%nat /\ at2 m None (flat (ccArr r1)) i p <> Some czero /\
      Rabs (INR j - INR i) < width / 2 + 1.
Proof.
  intros dirty phi RMSF phi2 fwhm cutoff maxIter gain msk pool w r1 r2 p d rm fw H1 H2 Hc m HO Hp Ld Lr Hd Hr Hf width Hw j Hj Hn.
  destruct (rmclean_pixel _ _ _ _ _ _ _ _ _ _ _ _ p d rm fw H1 Hc HO Hp Ld Lr Hd Hr Hf) as [s [[W1 [W2 _]] [_ [S2 [_ [_ S5]]]]]].
  destruct (rmclean_pixel _ _ _ _ _ _ _ _ _ _ _ _ p d rm fw H2 Hc HO Hp Ld Lr Hd Hr Hf) as [s' [[W1' [W2' _]] [_ [S2' [_ [_ S5']]]]]].
  fold m in S2, S2'. unfold at2 in *. rewrite S2, S2' in Hn by lia.
  destruct S5 as [[E1 E]|[E1 E]], S5' as [[E1' E']|[E1' E']]; try congruence.
  destruct (window_pixel _ _ _ _ _ _ _ _ _ _ Ld E E') as [_ [_ [_ [HM _]]]].
  destruct (win_mask_sound phi fw (cc s) j ltac:(lia) (HM j Hj ltac:(congruence)) Hw) as [i [Hi [Hz HR]]].
  exists i. split; [lia|]. split; [|exact HR]. rewrite S2 by auto. congruence.
Qed.

Lemma win_mask_complete : forall phi fwhm ccs i j,
  (i < length ccs)%nat -> (j < length ccs)%nat -> nth i ccs czero <> czero ->
  let width := fwhm / (nth 1 phi 0 - nth 0 phi 0) in
  -1 < INR i - width / 2 -> INR i - width / 2 <= INR j -> INR j + 1 <= INR i + width / 2 ->
  nth j (win_mask phi fwhm ccs) false = true.
Proof.
  intros phi fwhm ccs i j Hi Hj Hz width H0 H1 H2. unfold win_mask. rewrite nth_map_seq by auto. simpl.
  fold width. apply orb_true_iff. right. apply existsb_exists. exists i. split; [apply in_seq; lia|].
  apply andb_true_iff. split.
  - destruct Rlt_dec as [Hlt|Hlt]; auto. exfalso. apply Hz. apply Cmod_eq_0.
    generalize (Cmod_ge_0 (nth i ccs czero)). unfold czero in *. lra.
  - pose proof (pos_INR j) as Pj. unfold in_slice. apply andb_true_iff. split.
    + apply Z.leb_le. unfold py_bound.
      assert ((py_int (INR i - width / 2) <= Z.of_nat j)%Z /\ (0 <= py_int (INR i - width / 2))%Z).
      { destruct (Rle_dec 0 (INR i - width / 2)) as [Hp|Hp].
        - pose proof (py_int_pos _ Hp) as Q. split.
          + apply le_IZR. rewrite <- INR_IZR_INZ. lra.
          + assert (IZR (-1) < IZR (py_int (INR i - width / 2))) by lra. apply lt_IZR in H. lia.
        - pose proof (py_int_neg (INR i - width / 2) ltac:(lra)) as Q.
          assert (IZR (-1) < IZR (py_int (INR i - width / 2))) by lra. apply lt_IZR in H.
          assert (IZR (py_int (INR i - width / 2)) < IZR 1) by lra. apply lt_IZR in H3. lia. }
      destruct (Z.ltb_spec (py_int (INR i - width / 2)) 0); [lia|].
      destruct (Z.ltb_spec (py_int (INR i - width / 2)) 0); [lia|].
      destruct (Z.ltb_spec (Z.of_nat (length ccs)) (py_int (INR i - width / 2))); lia.
    + apply Z.ltb_lt. unfold py_bound.
      pose proof (py_int_pos (INR i + width / 2) ltac:(lra)) as Q.
      assert (Z.of_nat j < py_int (INR i + width / 2))%Z.
      { assert (IZR (Z.of_nat j) < IZR (py_int (INR i + width / 2))) by (rewrite <- INR_IZR_INZ; lra). now apply lt_IZR. }
      destruct (Z.ltb_spec (py_int (INR i + width / 2)) 0); [lia|].
      destruct (Z.ltb_spec (py_int (INR i + width / 2)) 0); [lia|].
      destruct (Z.ltb_spec (Z.of_nat (length ccs)) (py_int (INR i + width / 2))); lia.
Qed.

(** C20, the other direction: around a first-phase component that is at least
    half a width from the lower edge, every channel (up to the rounding of the
    window) is cleaned down to the window threshold. *)
Theorem rmclean_window_complete : forall dirty phi RMSF phi2 fwhm cutoff maxIter gain msk w r1 r2 p d rm fw,
  do_rmclean_hogbom dirty phi RMSF phi2 fwhm cutoff maxIter gain msk None None = CRetOk r1 ->
  do_rmclean_hogbom dirty phi RMSF phi2 fwhm cutoff maxIter gain msk None (Some w) = CRetOk r2 ->
  0 < cutoff -> 0 < w ->
  let m := prodn (tl (shape dirty)) in
  (p < m)%nat -> length d = length phi -> length rm = length phi2 ->
  has_spec m p (flat dirty) d -> has_spec m p (flat RMSF) rm -> nth p fwhm None = Some fw ->
  let width := fw / (nth 1 phi 0 - nth 0 phi 0) in
  nth p (flat (iterCountArr r2)) 0%nat = maxIter \/
  forall i j, (i < length phi)%nat -> (j < length phi)%nat ->
    at2 m None (flat (ccArr r1)) i p <> Some czero ->
    width / 2 <= INR i -> INR i - width / 2 <= INR j -> INR j + 1 <= INR i + width / 2 ->
    exists z, at2 m None (flat (residFDF r2)) j p = Some z /\ Cmod z < w.
Proof.
  intros dirty phi RMSF phi2 fwhm cutoff maxIter gain msk w r1 r2 p d rm fw H1 H2 Hc Hw m Hp Ld Lr Hd Hr Hf width.
  destruct (rmclean_pixel _ _ _ _ _ _ _ _ _ _ _ _ p d rm fw H1 Hc I Hp Ld Lr Hd Hr Hf) as [s [[W1 [W2 _]] [_ [S2 [_ [_ S5]]]]]].
  destruct (rmclean_pixel _ _ _ _ _ _ _ _ _ _ _ _ p d rm fw H2 Hc I Hp Ld Lr Hd Hr Hf) as [s' [[W1' [W2' _]] [S1' [S2' [_ [S4' S5']]]]]].
  fold m in S1', S2, S2'. unfold at2.
  destruct S5 as [[E1 E]|[E1 E]], S5' as [[E1' E']|[E1' E']]; try congruence.
  - destruct (window_pixel _ _ _ _ _ _ _ _ _ _ Ld E E') as [_ [_ [_ [_ HM]]]].
    destruct (HM Hw) as [HM'|HM']; [left; congruence|right].
    intros i j Hi Hj Hn A1 A2 A3. rewrite S1' by lia. eexists. split; [reflexivity|]. apply HM'; auto.
    rewrite S2 in Hn by lia.
    apply win_mask_complete with i; try lia; try congruence; fold width; lra.
  - right. intros i j Hi Hj Hn. exfalso. apply Hn. rewrite S2 by lia. subst s. simpl. now rewrite nth_zeros.
Qed.

(** The default of do_rmclean_hogbom, [window=0], is not "no window": every
    pixel with a component uses up all its iterations. *)
Lemma loop2_zero : forall RMSF phi fwhm gain imax pad mask rem s s', wf_cst phi s -> length mask = length phi ->
  open_chans mask <> [] ->
  loop2 RMSF phi fwhm gain imax pad (Some 0) mask rem s = POk s' -> iters s' = (iters s + rem)%nat.
Proof.
  intros RMSF phi fwhm gain imax pad mask. induction rem as [|rem IH]; intros s s' W HM HO H; simpl in H.
  - injection H as <-. lia.
  - destruct (argmax _ (map _ (open_chans mask))) as [a|] eqn:Ea.
    + match type of H with (if Rle_dec 0 ?x then _ else _) = _ => assert (X : 0 <= x) by apply maxabs_nonneg; destruct (Rle_dec 0 x); [|lra] end.
      destruct (clean_step RMSF phi fwhm gain imax pad (nth a (open_chans mask) 0%nat) s) as [s1|] eqn:Es; [|discriminate].
      apply argmax_mod in Ea. destruct Ea as [Ha _]. rewrite map_length in Ha.
      assert (Hin : In (nth a (open_chans mask) 0%nat) (open_chans mask)) by (apply nth_In; auto).
      apply in_open in Hin. rewrite HM in Hin.
      destruct (step_spec _ _ _ _ _ _ _ s s1 W (proj1 Hin) Es) as [W1 [E1 _]].
      rewrite (IH s1 s' W1 HM HO H). lia.
    + destruct (open_chans mask); [congruence|discriminate].
Qed.

Theorem rmclean_default_window_refuted : forall dirty phi RMSF phi2 fwhm cutoff maxIter gain msk r p d rm fw,
  do_rmclean_hogbom dirty phi RMSF phi2 fwhm cutoff maxIter gain msk None (Some 0) = CRetOk r ->
  0 < cutoff ->
  let m := prodn (tl (shape dirty)) in
  (p < m)%nat -> length d = length phi -> length rm = length phi2 ->
  has_spec m p (flat dirty) d -> has_spec m p (flat RMSF) rm -> nth p fwhm None = Some fw ->
  (exists j, (j < length phi)%nat /\ at2 m None (flat (ccArr r)) j p <> Some czero) ->
  nth p (flat (iterCountArr r)) 0%nat = maxIter.
Proof.
  intros dirty phi RMSF phi2 fwhm cutoff maxIter gain msk r p d rm fw H Hc m Hp Ld Lr Hd Hr Hf [j [Hj Hn]].
  destruct (rmclean_pixel _ _ _ _ _ _ _ _ _ _ _ _ p d rm fw H Hc I Hp Ld Lr Hd Hr Hf) as [s [[W1 [W2 _]] [_ [S2 [_ [S4 S5]]]]]].
  fold m in S2. unfold at2 in Hn. rewrite S2 in Hn by lia. rewrite S4.
  destruct S5 as [[E1 E]|[E1 E]].
  - destruct (cleanloop_inv _ _ _ _ _ _ _ _ _ Ld E) as [im [t [Ea [L1 [L2 [R1 [R2 [Wt W]]]]]]]].
    destruct (loop1_reach _ _ _ _ _ _ _ _ _ _ (init_wf _ _ Ld) L1) as [_ [B1 B2]]. simpl in B1, B2.
    apply loop2_zero in L2; auto; [lia|now apply win_mask_len|].
    intros HO. apply Hn. f_equal.
    assert (HF : forall k, (k < length phi)%nat -> nth k (win_mask phi fw (cc t)) false = false).
    { intros k Hk. destruct (nth k (win_mask phi fw (cc t)) false) eqn:Em; auto.
      assert (In k (open_chans (win_mask phi fw (cc t)))) by (apply in_open; rewrite win_mask_len by auto; auto).
      rewrite HO in H0. destruct H0. }
    rewrite (reach_cc_stable _ _ _ _ _ _ _ _ _ Wt R2 j Hj) by (rewrite HF; auto).
    specialize (HF j Hj). unfold win_mask in HF. destruct Wt as [_ [Wt _]]. rewrite nth_map_seq in HF by lia. simpl in HF.
    apply orb_false_iff in HF. destruct HF as [HF _].
    destruct (Rlt_dec 0 (Cmod (nth j (cc t) (RtoC 0)))); [discriminate|].
    apply Cmod_eq_0. generalize (Cmod_ge_0 (nth j (cc t) (RtoC 0))). unfold czero. lra.
  - exfalso. apply Hn. subst s. simpl. now rewrite nth_zeros.
Qed.

(** C19, the iteration map: with a pool it is zero everywhere. *)
Theorem rmclean_pool_iterations_zero : forall dirty phi RMSF phi2 fwhm cutoff maxIter gain msk sched window r p,
  do_rmclean_hogbom dirty phi RMSF phi2 fwhm cutoff maxIter gain msk (Some sched) window = CRetOk r ->
  nth p (flat (iterCountArr r)) 0%nat = 0%nat.
Proof.
  intros dirty phi RMSF phi2 fwhm cutoff maxIter gain msk sched window r p H. unfold do_rmclean_hogbom in H.
  do 7 match type of H with (if ?b then _ else _) = _ => destruct b; [discriminate|] end.
  destruct (pool_imap _ _ _) as [outs|]; [|discriminate]. injection H as <-. simpl.
  rewrite (map_ext _ (fun _ => 0%nat)) by (intros a; destruct (lookup a _); auto).
  revert p. generalize (seq 0 (prodn (tl (shape dirty)))). induction l; destruct p; simpl; auto.
Qed.

(* --------------------------------------------------- a concrete spectrum *)
(** Two sources in channels 0 and 1 of 5; RMSF = delta; width 4 channels. *)
Definition x_phi : list R := [-2; -1; 0; 1; 2].
Definition x_phi2 : list R := [-5; -4; -3; -2; -1; 0; 1; 2; 3; 4; 5].
Definition zz : C := RtoC 0.
Definition x_rm : list C := [zz; zz; zz; zz; zz; RtoC 1; zz; zz; zz; zz; zz].
Definition x_d : list C := [RtoC 10; RtoC 1; zz; zz; zz].

Lemma x_peak : peak_at x_rm 5.
Proof.
  split; [simpl; lia|]. intros k Hk Hn. do 11 (destruct k as [|k]; [try (simpl; lra); try lia|]). simpl in Hk. lia.
Qed.
Lemma x_roomy : roomy 5 11 5.
Proof. split; [exists 3%nat; lia|lia]. Qed.
Lemma x_unit : unit_peak x_rm 5.
Proof.
  split; [simpl; lia|]. split; [reflexivity|]. intros k Hk Hn. unfold x_rm, zz.
  do 11 (destruct k as [|k]; [try (simpl nth; rewrite Cmod_0; lra); try lia|]). simpl in Hk. lia.
Qed.

Lemma x_loop1 : exists cl,
  loop1 x_rm x_phi 4 1 5 3 5 10 (init_cst x_d) =
  POk (mk_cst [zz; RtoC 1; zz; zz; zz] [RtoC 10; zz; zz; zz; zz] cl 1).
Proof.
  unfold loop1 at 1. fold (loop1 x_rm x_phi 4 1 5 3).
  assert (M10 : Cmod (RtoC 10) = 10) by (rewrite Cmod_R; apply Rabs_pos_eq; lra).
  assert (M1 : Cmod (RtoC 1) = 1) by (rewrite Cmod_R; apply Rabs_pos_eq; lra).
  assert (M0 : Cmod zz = 0) by apply Cmod_0.
  simpl resid.
  destruct (Rle_dec 5 (maxabs x_d)) as [L|L].
  2:{ exfalso. apply L. eapply Rle_trans; [|apply maxabs_ge; left; reflexivity]. lra. }
  assert (EA : argmax (fun a b => Rltb (Cmod a) (Cmod b)) x_d = Some 0%nat).
  { unfold x_d. simpl. unfold Rltb. rewrite M10, M1, M0.
    repeat match goal with |- context[Rlt_dec ?a ?b] => destruct (Rlt_dec a b); [lra|] end. reflexivity. }
  rewrite EA. unfold clean_step.
  assert (ES : shifted x_rm 5 3 0 = [RtoC 1; zz; zz; zz; zz]).
  { unfold shifted, x_rm. fold zz. generalize (RtoC 1) zz. intros o z. vm_compute. reflexivity. }
  rewrite ES. simpl length. cbn [Nat.eqb negb]. cbn [init_cst resid cc cln iters combine map x_d upd nth fst snd].
  assert (E0 : (RtoC 10 - RtoC 1 * RtoC 10 * RtoC 1 = zz)%C) by (unfold zz; apply injective_projections; simpl; ring).
  assert (E1 : (RtoC 1 - RtoC 1 * RtoC 10 * zz = RtoC 1)%C) by (unfold zz; apply injective_projections; simpl; ring).
  assert (E2 : (zz - RtoC 1 * RtoC 10 * zz = zz)%C) by (unfold zz; apply injective_projections; simpl; ring).
  assert (E3 : (RtoC 0 + RtoC 1 * RtoC 10 = RtoC 10)%C) by (unfold zz; apply injective_projections; simpl; ring).
  rewrite E0, E1, E2, E3.
  simpl loop1. destruct (Rle_dec 5 _) as [L'|L'].
  - exfalso. apply (Rle_not_lt _ _ L'). apply maxabs_lt; [lra|].
    intros z [<-|[<-|[<-|[<-|[<-|[]]]]]]; rewrite ?M0, ?M1; lra.
  - eexists. reflexivity.
Qed.

Lemma x_mask : win_mask x_phi 4 [RtoC 10; zz; zz; zz; zz] = [true; false; false; false; false].
Proof.
  assert (M10 : Cmod (RtoC 10) = 10) by (rewrite Cmod_R; apply Rabs_pos_eq; lra).
  assert (M0 : Cmod zz = 0) by apply Cmod_0.
  unfold win_mask. simpl length. simpl seq. simpl map.
  change (RtoC 0) with zz. rewrite M10, M0.
  destruct (Rlt_dec 0 10); [|lra]. destruct (Rlt_dec 0 0); [lra|].
  simpl orb. simpl andb.
  replace (0 - 4 / (-1 - -2) / 2) with (IZR (-2)) by field.
  replace (0 + 4 / (-1 - -2) / 2) with (IZR 2) by field.
  rewrite !py_int_IZR. reflexivity.
Qed.

Lemma loop2_low : forall RMSF phi fwhm gain imax pad w mask rem s, 0 < w ->
  (forall j, In j (open_chans mask) -> Cmod (nth j (resid s) czero) < w) ->
  loop2 RMSF phi fwhm gain imax pad (Some w) mask rem s = POk s.
Proof.
  intros RMSF phi fwhm gain imax pad w mask rem s Hw H. destruct rem; simpl; auto.
  destruct (argmax _ _); auto.
  destruct (Rle_dec w _) as [L|L]; auto. exfalso. apply (Rle_not_lt _ _ L). apply maxabs_lt; auto.
  intros z Hz. apply in_map_iff in Hz. destruct Hz as [j [<- Hj]]. now apply H.
Qed.

Lemma x_run : exists cl, cleanloop x_d x_rm x_phi 4 1 5 (Some (1/2)) 10 =
  POk (mk_cst [zz; RtoC 1; zz; zz; zz] [RtoC 10; zz; zz; zz; zz] cl 1).
Proof.
  unfold cleanloop. rewrite (cltb_peak _ _ x_peak). simpl length. change (Nat.div2 (11 - 5)) with 3%nat.
  change (mk_cst x_d (map (fun _ => RtoC 0) x_d) (map (fun _ => RtoC 0) x_d) 0) with (init_cst x_d).
  destruct x_loop1 as [cl E]. rewrite E. exists cl. cbn [cc iters]. rewrite x_mask.
  change (10 - 1)%nat with (S 8). rewrite loop2_low; [reflexivity|lra|].
  intros j Hj. apply in_open in Hj. destruct Hj as [Hj1 Hj2]. simpl in Hj1.
  destruct j as [|[|[|[|[|j]]]]]; try discriminate Hj2; [|lia]. unfold zz. simpl. rewrite Cmod_0. lra.
Qed.

Lemma x_hogbom : forall pool window, any_order 1 pool -> (window = None \/ window = Some (1/2)) ->
  exists r, do_rmclean_hogbom (mk_nd [5%nat] (map Some x_d)) x_phi (mk_nd [11%nat] (map Some x_rm)) x_phi2 [Some 4]
     5 10 1 None pool window = CRetOk r.
Proof.
  intros pool window HO HW.
  assert (HC : forall window, exists s, cleanloop x_d x_rm x_phi 4 1 5 window 10 = POk s)
    by (intros; apply (clean_total x_d x_rm x_phi 4 1 5 _ 10 5 eq_refl ltac:(simpl; lia) x_peak x_roomy)).
  destruct (HC window) as [s Es].
  unfold do_rmclean_hogbom. simpl length. simpl shape. cbn [nth Nat.eqb negb Nat.leb Nat.mul Nat.add tl].
  destruct (list_eq_dec Nat.eq_dec [] []); [|congruence]. simpl negb. cbv iota zeta.
  change (prodn []) with 1%nat. cbn [seq flat].
  assert (E1 : col 1 None (map Some x_d) 5 0 = map Some x_d) by reflexivity.
  assert (E2 : col 1 None (map Some x_rm) 11 0 = map Some x_rm) by reflexivity.
  set (task := fun p : nat => cleanloop_nan _ _ _ _ _ _ _ _).
  assert (ET : exists o, task 0%nat = POk o).
  { unfold task. rewrite E1, E2. unfold cleanloop_nan. simpl all_some. cbn [nth].
    fold x_d. fold x_rm. rewrite Es. eauto. }
  destruct ET as [o Eo].
  clearbody task. cbn [filter]. generalize (above 5 (col 1 None (map Some x_d) 5 0)). intros [|]; cbn [rev app].
  - destruct pool as [sched|].
    + simpl in HO. apply Permutation_sym, Permutation_length_1_inv in HO. subst sched. rewrite pool_imap_serial by apply Permutation_refl. simpl. rewrite Eo. eauto.
    + simpl. rewrite Eo. eauto.
  - destruct pool as [sched|]; [unfold pool_imap|]; simpl; eauto.
Qed.

Lemma x_spec : forall l : list C, has_spec 1 0 (map Some l) l.
Proof.
  intros l k Hk. rewrite nth_indep with (d' := Some czero) by (rewrite map_length; lia).
  replace (k * 1 + 0)%nat with k by lia. now rewrite map_nth.
Qed.

Lemma x_reaches : reaches 1 5 0 (map Some x_d) 5 = true.
Proof.
  apply existsb_exists. exists 0%nat. split; [apply in_seq; lia|]. simpl. rewrite Cmod_R, Rabs_pos_eq by lra.
  destruct Rle_dec; [reflexivity|lra].
Qed.

(** C20 is false at the lower edge: channel 1 is one channel from a component
    in channel 0, the half width is two channels, its residual is above the
    window threshold, and iterations are left; yet it is not cleaned. *)
Theorem rmclean_window_edge_refuted : exists dirty phi RMSF phi2 fw cutoff maxIter gain w r,
  do_rmclean_hogbom dirty phi RMSF phi2 [Some fw] cutoff maxIter gain None None (Some w) = CRetOk r /\
  0 < cutoff /\ 0 < w /\
  fw / (nth 1 phi 0 - nth 0 phi 0) / 2 = 2 /\
  (nth 0 (flat (iterCountArr r)) 0 < maxIter)%nat /\
  nth 0 (flat (ccArr r)) None = Some (RtoC 10) /\
  exists z, nth 1 (flat (residFDF r)) None = Some z /\ w <= Cmod z.
Proof.
  destruct (x_hogbom None (Some (1/2)) I (or_intror eq_refl)) as [r Er].
  exists (mk_nd [5%nat] (map Some x_d)), x_phi, (mk_nd [11%nat] (map Some x_rm)), x_phi2, 4, 5, 10%nat, 1, (1/2), r.
  split; [exact Er|]. split; [lra|]. split; [lra|]. split; [simpl; lra|].
  destruct (rmclean_pixel _ _ _ _ _ _ _ _ _ _ _ _ 0 x_d x_rm 4 Er ltac:(lra) I ltac:(simpl; lia) eq_refl eq_refl
     (x_spec x_d) (x_spec x_rm) eq_refl) as [s [_ [S1 [S2 [_ [S4 S5]]]]]].
  destruct S5 as [[_ E]|[E _]].
  2:{ exfalso. change (reaches 1 5 0 (map Some x_d) 5 = false) in E. rewrite x_reaches in E. discriminate. }
  destruct x_run as [cl Ex]. rewrite Ex in E. injection E as <-.
  split; [rewrite S4; simpl; lia|]. split.
  - specialize (S2 0%nat). simpl in S2. rewrite S2 by lia. reflexivity.
  - exists (RtoC 1). split.
    + specialize (S1 1%nat). simpl in S1. rewrite S1 by lia. reflexivity.
    + rewrite Cmod_1. lra.
Qed.

(** C19 is false for the iteration map. *)
Theorem rmclean_pool_iterations_refuted : exists dirty phi RMSF phi2 fwhm cutoff maxIter gain window sched r r',
  do_rmclean_hogbom dirty phi RMSF phi2 fwhm cutoff maxIter gain None None window = CRetOk r /\
  do_rmclean_hogbom dirty phi RMSF phi2 fwhm cutoff maxIter gain None (Some sched) window = CRetOk r' /\
  Permutation sched (seq 0 (n_loud (prodn (tl (shape dirty))) (length phi) (flat dirty) cutoff)) /\
  iterCountArr r <> iterCountArr r'.
Proof.
  destruct (x_hogbom None (Some (1/2)) I (or_intror eq_refl)) as [r Er].
  destruct (x_hogbom (Some [0%nat]) (Some (1/2)) (Permutation_refl _) (or_intror eq_refl)) as [r' Er'].
  exists (mk_nd [5%nat] (map Some x_d)), x_phi, (mk_nd [11%nat] (map Some x_rm)), x_phi2, [Some 4], 5, 10%nat, 1, (Some (1/2)), [0%nat], r, r'.
  split; [exact Er|]. split; [exact Er'|]. split.
  { unfold n_loud. change (filter (fun p => reaches (prodn (tl (shape (mk_nd [5%nat] (map Some x_d))))) (length x_phi) p (flat (mk_nd [5%nat] (map Some x_d))) 5)
      (seq 0 (prodn (tl (shape (mk_nd [5%nat] (map Some x_d)))))))
      with (if reaches 1 5 0 (map Some x_d) 5 then [0%nat] else []). rewrite x_reaches. apply Permutation_refl. }
  intros HE.
  pose proof (rmclean_pool_iterations_zero _ _ _ _ _ _ _ _ _ _ _ _ 0 Er') as Z. rewrite <- HE in Z.
  destruct (rmclean_pixel _ _ _ _ _ _ _ _ _ _ _ _ 0 x_d x_rm 4 Er ltac:(lra) I ltac:(simpl; lia) eq_refl eq_refl
     (x_spec x_d) (x_spec x_rm) eq_refl) as [s [_ [S1 [S2 [_ [S4 S5]]]]]].
  destruct S5 as [[_ E]|[E _]].
  2:{ exfalso. change (reaches 1 5 0 (map Some x_d) 5 = false) in E. rewrite x_reaches in E. discriminate. }
  destruct x_run as [cl Ex]. rewrite Ex in E. injection E as <-. rewrite S4 in Z. discriminate.
Qed.
