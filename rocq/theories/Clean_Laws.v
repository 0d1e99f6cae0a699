(** RM-CLEAN: the laws of Clean_Properties, at the level of the API. *)
From Coq Require Import Reals List Arith ZArith Bool Lia Lra Permutation.
Set Warnings "-ambiguous-paths".
From Coquelicot Require Import Coquelicot.
From Verif Require Import PyRes CBase NdArray PyList PyList_Proofs Synth_Model Clean_Model Clean_Spec Clean_Proofs Clean_Cube.
Import ListNotations.
Local Open Scope R_scope.

Lemma order_model : forall dirty (phi : list R) cutoff pool, 0 < cutoff ->
  any_order (n_loud (prodn (tl (shape dirty))) (length phi) (flat dirty) cutoff) pool ->
  match pool with None => True | Some sched =>
     Permutation sched (seq 0 (length (rev (filter (fun p => above cutoff
        (col (prodn (tl (shape dirty))) None (flat dirty) (length phi) p)) (seq 0 (prodn (tl (shape dirty)))))))) end.
Proof.
  intros dirty phi cutoff pool Hc H. destruct pool as [sched|]; auto. simpl in H. rewrite rev_length.
  unfold n_loud in H. erewrite filter_ext; [exact H|]. intros p. now apply above_reaches.
Qed.

(** One finite pixel of a cube: the spectra it ends with. *)
Lemma rmclean_pixel : forall dirty phi RMSF phi2 fwhm cutoff maxIter gain msk pool window r p d rm fw,
  do_rmclean_hogbom dirty phi RMSF phi2 fwhm cutoff maxIter gain msk pool window = CRetOk r ->
  0 < cutoff ->
  let m := prodn (tl (shape dirty)) in
  any_order (n_loud m (length phi) (flat dirty) cutoff) pool ->
  (p < m)%nat -> length d = length phi -> length rm = length phi2 ->
  has_spec m p (flat dirty) d -> has_spec m p (flat RMSF) rm -> nth p fwhm None = Some fw ->
  exists s, wf_cst phi s /\
    has_spec m p (flat (residFDF r)) (resid s) /\
    has_spec m p (flat (ccArr r)) (cc s) /\
    has_spec m p (flat (cleanFDF r)) (map (fun ab => fst ab + snd ab)%C (combine (cln s) (resid s))) /\
    nth p (flat (iterCountArr r)) 0%nat = match pool with None => iters s | _ => 0%nat end /\
    ((reaches m (length phi) p (flat dirty) cutoff = true /\ cleanloop d rm phi fw gain cutoff window maxIter = POk s) \/
     (reaches m (length phi) p (flat dirty) cutoff = false /\ s = init_cst d)).
Proof.
  intros dirty phi RMSF phi2 fwhm cutoff maxIter gain msk pool window r p d rm fw H Hc m HO Hp Ld Lr Hd Hr Hf.
  pose proof (rmclean_pixels _ _ _ _ _ _ _ _ _ _ _ _ H (order_model _ _ _ _ Hc HO) p Hp) as [A1 A2]. fold m in A1, A2.
  rewrite above_reaches in A1, A2 by auto.
  destruct (reaches m (length phi) p (flat dirty) cutoff) eqn:E.
  - destruct (A1 eq_refl) as [o [Eo [Ei Ek]]]. unfold cleanloop_nan in Eo.
    rewrite (has_spec_col m p (flat dirty) d) in Eo by auto.
    rewrite (has_spec_col m p (flat RMSF) rm) in Eo by auto. rewrite Hf in Eo.
    destruct (cleanloop d rm phi fw gain cutoff window maxIter) as [s|] eqn:Es; [|discriminate].
    injection Eo as <-. simpl in Ei, Ek. exists s.
    destruct (cleanloop_inv _ _ _ _ _ _ _ _ _ Ld Es) as [im [s1 [_ [_ [_ [_ [_ [_ W]]]]]]]].
    pose proof W as [W1 [W2 W3]].
    split; [exact W|]. repeat split.
    + apply has_spec_map with (map Some (resid s)); auto. intros k Hk. apply Ek; lia.
    + apply has_spec_map with (map Some (cc s)); auto. intros k Hk. apply Ek; lia.
    + intros k Hk. rewrite map_length, combine_length in Hk.
      destruct (Ek k ltac:(lia)) as [_ [_ E3]]. unfold at2 in E3. rewrite E3.
      rewrite (nth_map_combine _ _ _ _ _ czero czero) by lia. simpl.
      rewrite !nth_indep with (d := None) (d' := Some czero) by (rewrite map_length; lia).
      rewrite !map_nth. reflexivity.
    + exact Ei.
    + left. auto.
  - destruct (A2 eq_refl) as [Ei Ek]. exists (init_cst d).
    split; [now apply init_wf|]. repeat split.
    + intros k Hk. simpl in Hk |- *. destruct (Ek k ltac:(lia)) as [E1 _]. unfold at2 in E1. rewrite E1. now apply Hd.
    + intros k Hk. simpl in Hk |- *. rewrite map_length in Hk. destruct (Ek k ltac:(lia)) as [_ [E1 _]].
      unfold at2 in E1. rewrite E1. now rewrite nth_zeros.
    + intros k Hk. rewrite map_length, combine_length in Hk. simpl in Hk. rewrite map_length in Hk.
      destruct (Ek k ltac:(lia)) as [_ [_ E1]]. unfold at2 in E1. rewrite E1.
      rewrite (nth_map_combine _ _ _ _ _ czero czero) by (simpl; rewrite map_length; lia). simpl.
      rewrite nth_zeros. rewrite Hd by lia. f_equal. unfold czero. ring.
    + simpl. rewrite Ei. destruct pool; auto.
    + right. auto.
Qed.

Lemma response_zero : forall RMSF imax d j, response RMSF imax (map (fun _ : C => RtoC 0) d) j = czero.
Proof. intros. unfold response. apply csum_zero. intros. rewrite nth_zeros. unfold czero. ring. Qed.

Lemma restored_zero : forall fw phi (d : list C) j, restored fw phi (map (fun _ => RtoC 0) d) j = czero.
Proof. intros. unfold restored. apply csum_zero. intros. rewrite nth_zeros. unfold czero. ring. Qed.

(** C12, C13 *)
Theorem rmclean_conserves_restores : forall dirty phi RMSF phi2 fwhm cutoff maxIter gain msk pool window r p d rm fw imax,
  do_rmclean_hogbom dirty phi RMSF phi2 fwhm cutoff maxIter gain msk pool window = CRetOk r ->
  0 < cutoff ->
  let m := prodn (tl (shape dirty)) in
  any_order (n_loud m (length phi) (flat dirty) cutoff) pool ->
  (p < m)%nat -> length d = length phi -> length rm = length phi2 ->
  has_spec m p (flat dirty) d -> has_spec m p (flat RMSF) rm -> nth p fwhm None = Some fw -> fw <> 0 ->
  peak_at rm imax -> roomy (length phi) (length phi2) imax ->
  exists res comp clean,
    length res = length phi /\ length comp = length phi /\ length clean = length phi /\
    has_spec m p (flat (residFDF r)) res /\ has_spec m p (flat (ccArr r)) comp /\
    has_spec m p (flat (cleanFDF r)) clean /\
    forall j, (j < length phi)%nat ->
      nth j d czero = (nth j res czero + response rm imax comp j)%C /\
      nth j clean czero = (restored fw phi comp j + nth j res czero)%C.
Proof.
  intros dirty phi RMSF phi2 fwhm cutoff maxIter gain msk pool window r p d rm fw imax H Hc m HO Hp Ld Lr Hd Hr Hf Hfw HP HR.
  destruct (rmclean_pixel _ _ _ _ _ _ _ _ _ _ _ _ p d rm fw H Hc HO Hp Ld Lr Hd Hr Hf) as [s [[W1 [W2 W3]] [S1 [S2 [S3 [_ S5]]]]]].
  exists (resid s), (cc s), (map (fun ab => fst ab + snd ab)%C (combine (cln s) (resid s))).
  rewrite map_length, combine_length. repeat (split; [auto; lia|]).
  intros j Hj. rewrite (nth_map_combine _ _ _ _ _ czero czero) by lia. simpl.
  destruct S5 as [[_ E]|[_ E]].
  - rewrite <- Lr in HR. split; [exact (clean_conserves _ _ _ _ _ _ _ _ _ _ Ld HP HR E j Hj)|].
    f_equal. exact (clean_restores _ _ _ _ _ _ _ _ _ Ld Hfw E j Hj).
  - subst s. simpl. rewrite response_zero, restored_zero, nth_zeros. split; [unfold czero; ring|auto].
Qed.

(** C14 *)
Theorem rmclean_stops : forall dirty phi RMSF phi2 fwhm cutoff maxIter gain msk r p d rm fw,
  do_rmclean_hogbom dirty phi RMSF phi2 fwhm cutoff maxIter gain msk None None = CRetOk r ->
  0 < cutoff ->
  let m := prodn (tl (shape dirty)) in
  (p < m)%nat -> length d = length phi -> length rm = length phi2 ->
  has_spec m p (flat dirty) d -> has_spec m p (flat RMSF) rm -> nth p fwhm None = Some fw ->
  exists res, length res = length phi /\ has_spec m p (flat (residFDF r)) res /\
    (nth p (flat (iterCountArr r)) 0 <= maxIter)%nat /\
    (nth p (flat (iterCountArr r)) 0%nat = maxIter \/ all_below cutoff res).
Proof.
  intros dirty phi RMSF phi2 fwhm cutoff maxIter gain msk r p d rm fw H Hc m Hp Ld Lr Hd Hr Hf.
  destruct (rmclean_pixel _ _ _ _ _ _ _ _ _ _ _ _ p d rm fw H Hc I Hp Ld Lr Hd Hr Hf) as [s [[W1 _] [S1 [_ [_ [S4 S5]]]]]].
  exists (resid s). rewrite S4. repeat (split; [now auto|]).
  destruct S5 as [[_ E]|[E1 E]].
  - exact (clean_stops _ _ _ _ _ _ _ _ Ld Hc E).
  - subst s. simpl. split; [lia|right]. intros z Hz. apply Rnot_le_lt. intros L.
    destruct (In_nth d z czero Hz) as [k [Hk Ek]].
    assert (reaches m (length phi) p (flat dirty) cutoff = true); [|unfold m in *; congruence].
    apply existsb_exists. exists k. split; [apply in_seq; lia|]. rewrite Hd by auto. rewrite Ek.
    destruct Rle_dec; auto.
Qed.

Theorem rmclean_stops_window : forall dirty phi RMSF phi2 fwhm cutoff maxIter gain msk w r p d rm fw,
  do_rmclean_hogbom dirty phi RMSF phi2 fwhm cutoff maxIter gain msk None (Some w) = CRetOk r ->
  0 < cutoff -> 0 < w ->
  let m := prodn (tl (shape dirty)) in
  (p < m)%nat -> length d = length phi -> length rm = length phi2 ->
  has_spec m p (flat dirty) d -> has_spec m p (flat RMSF) rm -> nth p fwhm None = Some fw ->
  exists res comp, length res = length phi /\ has_spec m p (flat (residFDF r)) res /\
    length comp = length phi /\ has_spec m p (flat (ccArr r)) comp /\
    (nth p (flat (iterCountArr r)) 0 <= maxIter)%nat /\
    (nth p (flat (iterCountArr r)) 0%nat = maxIter \/
     forall j, (j < length phi)%nat -> nth j comp czero <> czero -> Cmod (nth j res czero) < w).
Proof.
  intros dirty phi RMSF phi2 fwhm cutoff maxIter gain msk w r p d rm fw H Hc Hw m Hp Ld Lr Hd Hr Hf.
  destruct (rmclean_pixel _ _ _ _ _ _ _ _ _ _ _ _ p d rm fw H Hc I Hp Ld Lr Hd Hr Hf) as [s [[W1 [W2 _]] [S1 [S2 [_ [S4 S5]]]]]].
  exists (resid s), (cc s). rewrite S4. repeat (split; [now auto|]).
  destruct S5 as [[_ E]|[E1 E]].
  - exact (clean_stops_window _ _ _ _ _ _ _ _ _ Ld Hw E).
  - subst s. simpl. split; [lia|right]. intros j Hj Hn. rewrite nth_zeros in Hn. congruence.
Qed.

(** C18 *)
Theorem rmclean_quiet_pixel : forall dirty phi RMSF phi2 fwhm cutoff maxIter gain msk pool window r p,
  do_rmclean_hogbom dirty phi RMSF phi2 fwhm cutoff maxIter gain msk pool window = CRetOk r ->
  0 < cutoff ->
  let m := prodn (tl (shape dirty)) in
  any_order (n_loud m (length phi) (flat dirty) cutoff) pool ->
  (p < m)%nat -> reaches m (length phi) p (flat dirty) cutoff = false ->
  nth p (flat (iterCountArr r)) 0%nat = 0%nat /\
  forall k, (k < length phi)%nat ->
    at2 m None (flat (residFDF r)) k p = at2 m None (flat dirty) k p /\
    at2 m None (flat (ccArr r)) k p = Some (RtoC 0) /\
    at2 m None (flat (cleanFDF r)) k p = at2 m None (flat dirty) k p.
Proof.
  intros dirty phi RMSF phi2 fwhm cutoff maxIter gain msk pool window r p H Hc m HO Hp Hq.
  apply (rmclean_pixels _ _ _ _ _ _ _ _ _ _ _ _ H (order_model _ _ _ _ Hc HO) p Hp).
  now rewrite above_reaches.
Qed.

(** C19 *)
Theorem rmclean_pool_same_cubes : forall dirty phi RMSF phi2 fwhm cutoff maxIter gain msk window sched,
  0 < cutoff ->
  Permutation sched (seq 0 (n_loud (prodn (tl (shape dirty))) (length phi) (flat dirty) cutoff)) ->
  match do_rmclean_hogbom dirty phi RMSF phi2 fwhm cutoff maxIter gain msk None window,
        do_rmclean_hogbom dirty phi RMSF phi2 fwhm cutoff maxIter gain msk (Some sched) window with
  | CRetOk r, CRetOk r' => cleanFDF r' = cleanFDF r /\ ccArr r' = ccArr r /\ residFDF r' = residFDF r
  | CRaise, CRaise => True
  | CRetNone4, CRetNone4 => True
  | _, _ => False
  end.
Proof.
  intros dirty phi RMSF phi2 fwhm cutoff maxIter gain msk window sched Hc HS.
  pose proof (order_model dirty phi cutoff (Some sched) Hc HS) as HM. simpl in HM.
  unfold do_rmclean_hogbom.
  do 7 match goal with |- match (if ?b then _ else _) with _ => _ end => destruct b; [exact I|] end.
  cbv zeta. rewrite pool_imap_serial by exact HM.
  destruct (run_all _ _); simpl; auto.
Qed.

(* ------------------------------------------------------------ C16 *)
Lemma zsample_bound : forall RMSF imax k, unit_peak RMSF imax -> k <> Z.of_nat imax ->
  Cmod (zsample RMSF k) < 1.
Proof.
  intros RMSF imax k [H1 [H2 H3]] Hk. unfold zsample. destruct (Z.ltb_spec k 0); [unfold czero; rewrite Cmod_0; lra|].
  destruct (lt_dec (Z.to_nat k) (length RMSF)).
  - apply H3; auto. lia.
  - rewrite nth_overflow by lia. unfold czero. rewrite Cmod_0. lra.
Qed.

Lemma zsample_peak : forall RMSF imax, unit_peak RMSF imax -> zsample RMSF (Z.of_nat imax) = RtoC 1.
Proof.
  intros RMSF imax [H1 [H2 _]]. unfold zsample. destruct (Z.ltb_spec (Z.of_nat imax) 0); [lia|]. now rewrite Nat2Z.id.
Qed.

Lemma unit_peak_at : forall RMSF imax, unit_peak RMSF imax -> peak_at RMSF imax.
Proof.
  intros RMSF imax [H1 [H2 H3]]. split; auto. intros k Hk Hn. rewrite H2. simpl.
  specialize (H3 k Hk Hn). eapply Rle_lt_trans; [|exact H3].
  eapply Rle_trans; [apply Rle_abs|]. generalize (Rmax_Cmod (nth k RMSF czero)). intros.
  eapply Rle_trans; [apply Rmax_l|exact H].
Qed.

Section Single.
  Variables (RMSF : list C) (phi : list R) (fwhm gain cutoff : R) (imax i0 : nat) (A : C) (d : list C).
  Hypothesis HU : unit_peak RMSF imax.
  Hypothesis HR : roomy (length phi) (length RMSF) imax.
  Hypothesis HS : single_source RMSF imax (length phi) i0 A d.
  Hypothesis Hc : 0 < cutoff.
  Let n := length phi.
  Let pad := Nat.div2 (length RMSF - n).

  Definition geo (s : cst) : Prop :=
    wf_cst phi s /\
    (forall j, (j < n)%nat -> nth j (resid s) czero = (RtoC ((1 - gain) ^ iters s) * nth j d czero)%C) /\
    (forall j, (j < n)%nat -> nth j (cc s) czero = if Nat.eqb j i0 then (A * RtoC (1 - (1 - gain) ^ iters s))%C else czero).

  Lemma geo_mod : forall s j, geo s -> (j < n)%nat ->
    Cmod (nth j (resid s) czero) =
    Rabs (1 - gain) ^ iters s * Cmod A * Cmod (zsample RMSF (Z.of_nat imax + Z.of_nat j - Z.of_nat i0)).
  Proof.
    intros s j [_ [G _]] Hj. rewrite G by auto. destruct HS as [_ [_ HS']]. rewrite HS' by auto.
    rewrite !Cmod_mult, Cmod_R, <- RPow_abs. ring.
  Qed.

  Lemma geo_maxabs : forall s, geo s -> maxabs (resid s) = Rabs (1 - gain) ^ iters s * Cmod A.
  Proof.
    intros s G. pose proof G as [[W _] _]. destruct HS as [_ [Hi _]]. fold n in Hi.
    assert (Hpk : Cmod (nth i0 (resid s) czero) = Rabs (1 - gain) ^ iters s * Cmod A).
    { rewrite geo_mod by auto. replace (Z.of_nat imax + Z.of_nat i0 - Z.of_nat i0)%Z with (Z.of_nat imax) by lia.
      rewrite zsample_peak by auto. rewrite Cmod_1. ring. }
    apply Rle_antisym.
    - destruct (maxabs_attained (resid s)) as [z [Hz E]].
      { destruct (resid s); [simpl in W; fold n in W; lia|discriminate]. }
      rewrite E. destruct (In_nth _ _ czero Hz) as [j [Hj <-]]. rewrite W in Hj. rewrite geo_mod by auto.
      assert (0 <= Rabs (1 - gain) ^ iters s * Cmod A).
      { rewrite <- Hpk. apply Cmod_ge_0. }
      assert (Cmod (zsample RMSF (Z.of_nat imax + Z.of_nat j - Z.of_nat i0)) <= 1).
      { destruct (Z.eq_dec (Z.of_nat imax + Z.of_nat j - Z.of_nat i0) (Z.of_nat imax)) as [->|Hn].
        - rewrite zsample_peak, Cmod_1 by auto. lra.
        - left. now apply zsample_bound with imax. }
      rewrite <- (Rmult_1_r (_ * Cmod A)) at 2. apply Rmult_le_compat_l; auto.
    - rewrite <- Hpk. apply maxabs_ge. apply nth_In. rewrite W. exact Hi.
  Qed.

  Lemma geo_argmax : forall s, geo s -> 0 < Rabs (1 - gain) ^ iters s * Cmod A ->
    argmax (fun a b => Rltb (Cmod a) (Cmod b)) (resid s) = Some i0.
  Proof.
    intros s G Hp. pose proof G as [[W _] _]. destruct HS as [_ [Hi _]]. fold n in Hi.
    apply argmax_unique with (le := modle) (d := czero); unfold modle, Rltb.
    - intros; lra.
    - intros; lra.
    - intros a b; destruct Rlt_dec; [lra|discriminate].
    - intros a b; destruct Rlt_dec; [discriminate|lra].
    - rewrite W. exact Hi.
    - intros j Hj Hn. rewrite W in Hj. fold n in Hj. rewrite !geo_mod by auto.
      replace (Z.of_nat imax + Z.of_nat i0 - Z.of_nat i0)%Z with (Z.of_nat imax) by lia.
      rewrite zsample_peak, Cmod_1 by auto.
      assert (Cmod (zsample RMSF (Z.of_nat imax + Z.of_nat j - Z.of_nat i0)) < 1) by (apply zsample_bound with imax; auto; lia).
      nra.
  Qed.

  Lemma geo_step : forall s s', geo s -> clean_step RMSF phi fwhm gain imax pad i0 s = POk s' -> geo s' /\ iters s' = S (iters s).
  Proof.
    intros s s' [W [G1 G2]] H. destruct HS as [_ [Hi HS']]. fold n in Hi, HS'.
    destruct (step_spec _ _ _ _ _ _ _ _ _ W Hi H) as [W' [E1 E2]]. split; auto. split; auto.
    split; intros j Hj; destruct (E2 j Hj) as [Ea [Eb _]].
    - rewrite Ea, E1, !G1 by auto.
      destruct (shifted_spec RMSF n imax i0 pad HR eq_refl Hi) as [_ Esh]. rewrite Esh by auto.
      rewrite !HS' by auto.
      replace (Z.of_nat imax + Z.of_nat i0 - Z.of_nat i0)%Z with (Z.of_nat imax) by lia.
      rewrite zsample_peak by auto. simpl pow. rewrite RtoC_mult, RtoC_minus. ring.
    - rewrite Eb, E1, G2, G1 by auto. rewrite HS' by auto.
      replace (Z.of_nat imax + Z.of_nat i0 - Z.of_nat i0)%Z with (Z.of_nat imax) by lia.
      rewrite zsample_peak by auto.
      destruct (Nat.eqb j i0); [|unfold czero; ring].
      simpl pow. rewrite !RtoC_minus, RtoC_mult, RtoC_minus. ring.
  Qed.

  Lemma geo_loop1 : forall rem s s', geo s -> loop1 RMSF phi fwhm gain imax pad cutoff rem s = POk s' ->
    geo s' /\ (iters s <= iters s')%nat /\
    (forall k, (iters s <= k < iters s')%nat -> cutoff <= Rabs (1 - gain) ^ k * Cmod A).
  Proof.
    induction rem as [|rem IH]; intros s s' G H; simpl in H.
    - injection H as <-. repeat split; auto; try apply G. intros; lia.
    - destruct (Rle_dec cutoff (maxabs (resid s))) as [Hm|Hm].
      + rewrite geo_maxabs in Hm by auto.
        rewrite geo_argmax in H by (auto; lra).
        destruct (clean_step _ _ _ _ _ _ _ _) as [s1|] eqn:Es; [|discriminate].
        destruct (geo_step _ _ G Es) as [G1 E1].
        destruct (IH s1 s' G1 H) as [G' [Hle Hk]]. split; auto. split; [lia|].
        intros k Hk'. destruct (Nat.eq_dec k (iters s)); [subst; auto|]. apply Hk. lia.
      + injection H as <-. repeat split; auto; try apply G. intros; lia.
  Qed.

  Lemma geo_init : geo (init_cst d).
  Proof.
    destruct HS as [HL _]. split; [now apply init_wf|]. simpl. split; intros j Hj.
    - ring.
    - rewrite nth_zeros. destruct (Nat.eqb j i0); auto. replace (1 - 1) with 0 by ring. unfold czero. ring.
  Qed.
End Single.

Theorem clean_single_source : forall RMSF phi fwhm gain cutoff imax i0 A d maxIter s,
  unit_peak RMSF imax -> roomy (length phi) (length RMSF) imax ->
  single_source RMSF imax (length phi) i0 A d -> 0 < cutoff ->
  cleanloop d RMSF phi fwhm gain cutoff None maxIter = POk s ->
  (forall j, (j < length phi)%nat -> nth j (resid s) czero = (RtoC ((1 - gain) ^ iters s) * nth j d czero)%C) /\
  (forall j, (j < length phi)%nat -> nth j (cc s) czero = if Nat.eqb j i0 then (A * RtoC (1 - (1 - gain) ^ iters s))%C else czero) /\
  (forall k, (k < iters s)%nat -> cutoff <= Rabs (1 - gain) ^ k * Cmod A) /\
  (iters s = maxIter \/ Rabs (1 - gain) ^ iters s * Cmod A < cutoff).
Proof.
  intros RMSF phi fwhm gain cutoff imax i0 A d maxIter s HU HR HS Hc H.
  pose proof HS as [HL _].
  destruct (cleanloop_inv _ _ _ _ _ _ _ _ _ HL H) as [im [s1 [E [L1 [L2 [R1 [R2 [W1 W]]]]]]]].
  rewrite (cltb_peak _ _ (unit_peak_at _ _ HU)) in E. injection E as <-.
  destruct (geo_loop1 RMSF phi fwhm gain cutoff imax i0 A d HU HR HS Hc maxIter _ _ (geo_init RMSF phi gain imax i0 A d HS) L1) as [G [_ Hk]].
  assert (Es : s = s1).
  { destruct (maxIter - iters s1)%nat; simpl in L2; congruence. }
  subst s1. destruct G as [G0 [G1 G2]].
  split; [exact G1|]. split; [exact G2|]. split.
  - intros k Hk'. apply Hk. simpl. lia.
  - destruct (loop1_reach _ _ _ _ _ _ _ _ _ _ (init_wf _ _ HL) L1) as [_ [_ [B|B]]].
    + left. exact B.
    + right. rewrite (geo_maxabs RMSF phi gain imax i0 A d HU HS) in B by (repeat split; auto; apply W1). exact B.
Qed.

(** convergence *)
Theorem clean_single_source_converges : forall RMSF phi fwhm gain cutoff imax i0 A d,
  unit_peak RMSF imax -> roomy (length phi) (length RMSF) imax ->
  single_source RMSF imax (length phi) i0 A d -> 0 < cutoff -> 0 < gain < 2 -> (2 <= length phi)%nat ->
  exists N, forall maxIter, (N <= maxIter)%nat ->
    exists s, cleanloop d RMSF phi fwhm gain cutoff None maxIter = POk s /\
      (iters s <= N)%nat /\ all_below cutoff (resid s).
Proof.
  intros RMSF phi fwhm gain cutoff imax i0 A d HU HR HS Hc Hg Hn.
  pose proof HS as [HL _].
  assert (Hq : Rabs (1 - gain) < 1) by (apply Rabs_def1; lra).
  assert (HN : exists N, Rabs (1 - gain) ^ N * Cmod A < cutoff).
  { destruct (Req_dec (Cmod A) 0) as [E|E].
    - exists 0%nat. rewrite E. lra.
    - assert (0 < Cmod A) by (generalize (Cmod_ge_0 A); lra).
      destruct (pow_lt_1_zero (Rabs (1 - gain)) ltac:(rewrite Rabs_Rabsolu; auto) (cutoff / Cmod A)) as [N HN].
      + apply Rdiv_lt_0_compat; auto.
      + exists N. specialize (HN N (le_n N)). rewrite Rabs_pos_eq in HN by (apply pow_le, Rabs_pos).
        apply Rmult_lt_compat_r with (r := Cmod A) in HN; auto.
        unfold Rdiv in HN. rewrite Rmult_assoc, Rinv_l, Rmult_1_r in HN by auto. exact HN. }
  destruct HN as [N HN]. exists N. intros maxIter HM.
  destruct (clean_total d RMSF phi fwhm gain cutoff None maxIter imax HL Hn (unit_peak_at _ _ HU) HR) as [s Hs].
  exists s. split; auto.
  destruct (clean_single_source _ _ _ _ _ _ _ _ _ _ _ HU HR HS Hc Hs) as [G1 [G2 [G3 G4]]].
  assert (HiN : (iters s <= N)%nat).
  { destruct (le_lt_dec (iters s) N); auto. specialize (G3 N l). lra. }
  split; auto.
  destruct (clean_stops _ _ _ _ _ _ _ _ HL Hc Hs) as [_ [E|E]]; auto.
  assert (iters s = N) by lia. rewrite H in *.
  destruct (cleanloop_inv _ _ _ _ _ _ _ _ _ HL Hs) as [_ [_ [_ [_ [_ [_ [_ [_ W]]]]]]]].
  apply maxabs_lt; auto. rewrite (geo_maxabs RMSF phi gain imax i0 A d HU HS).
  - rewrite H. exact HN.
  - split; [exact W|]. rewrite H. split; auto.
Qed.
