(** Proofs about one pixel of RM-CLEAN (Clean_Model.cleanloop). *)
From Coq Require Import Reals List Arith ZArith Bool Lia Lra Psatz.
Set Warnings "-ambiguous-paths".
From Coquelicot Require Import Coquelicot.
From Verif Require Import PyRes CBase NdArray PyList PyList_Proofs Synth_Model Clean_Model Clean_Spec.
Import ListNotations.
Local Open Scope R_scope.

(* ------------------------------------------------------------ maxabs, order *)
Lemma maxabs_nonneg : forall l, 0 <= maxabs l.
Proof. induction l; simpl; [lra|]. eapply Rle_trans; [apply IHl|apply Rmax_r]. Qed.

Lemma maxabs_ge : forall l z, In z l -> Cmod z <= maxabs l.
Proof.
  induction l; simpl; intros z []; [subst; apply Rmax_l|].
  eapply Rle_trans; [now apply IHl|apply Rmax_r].
Qed.

Lemma maxabs_lt : forall l t, 0 < t -> (maxabs l < t <-> all_below t l).
Proof.
  intros l t Ht. unfold all_below. split.
  - intros H z Hz. apply maxabs_ge in Hz. lra.
  - induction l; simpl; intros H; [lra|]. apply Rmax_lub_lt; [apply H; now left|].
    apply IHl. intros; apply H; now right.
Qed.

Lemma maxabs_attained : forall l, l <> [] -> exists z, In z l /\ maxabs l = Cmod z.
Proof.
  induction l; intros H; [congruence|]. destruct l as [|b l].
  - exists a. simpl. split; auto. apply Rmax_left, Cmod_ge_0.
  - destruct IHl as [z [Hz E]]; [discriminate|]. change (maxabs (a :: b :: l)) with (Rmax (Cmod a) (maxabs (b :: l))).
    unfold Rmax. destruct Rle_dec.
    + exists z. split; [now right|auto].
    + exists a. split; [now left|auto].
Qed.

Definition modle (a b : C) : Prop := Cmod a <= Cmod b.
Definition modltb (a b : C) : bool := Rltb (Cmod a) (Cmod b).

Lemma argmax_mod : forall l r, argmax modltb l = Some r ->
  (r < length l)%nat /\ forall j, (j < length l)%nat -> Cmod (nth j l czero) <= Cmod (nth r l czero).
Proof.
  intros l r H.
  apply (argmax_spec modltb modle) with (d := czero) in H; auto; unfold modle, modltb, Rltb.
  - intros; lra.
  - intros; lra.
  - intros a b; destruct Rlt_dec; [lra|discriminate].
  - intros a b; destruct Rlt_dec; [discriminate|lra].
Qed.

Lemma argmax_mod_value : forall l r, argmax modltb l = Some r -> Cmod (nth r l czero) = maxabs l.
Proof.
  intros l r H. destruct (argmax_mod l r H) as [H1 H2].
  destruct (maxabs_attained l) as [z [Hz E]]; [destruct l; simpl in *; [lia|discriminate]|].
  rewrite E. apply Rle_antisym.
  - rewrite <- E. apply maxabs_ge. now apply nth_In.
  - destruct (In_nth l z czero Hz) as [j [Hj Ej]]. rewrite <- Ej. now apply H2.
Qed.

Lemma cltb_peak : forall l imax, peak_at l imax -> argmax cltb l = Some imax.
Proof.
  intros l imax [Hi Hp].
  apply argmax_unique with (le := fun a b => fst a < fst b \/ (fst a = fst b /\ snd a <= snd b)) (d := czero); auto.
  - intros. right. split; lra.
  - intros a b c [H|[H H']] [K|[K K']]; try (left; lra). right; split; lra.
  - intros a b. unfold cltb, Rltb. destruct Rlt_dec; [now left|].
    destruct Req_EM_T; [|discriminate]. destruct Rlt_dec; [|discriminate]. right; split; lra.
  - intros a b. unfold cltb, Rltb. destruct Rlt_dec; [discriminate|].
    destruct Req_EM_T.
    + destruct Rlt_dec; [discriminate|]. right; split; lra.
    + left. lra.
  - intros j Hj Hn H. specialize (Hp j Hj Hn). unfold C in *.
    destruct H as [H|[H _]]; lra.
Qed.

(* ------------------------------------------------------------ gauss = beam *)
Lemma gauss1D_beam : forall amp mean fwhm x, fwhm <> 0 ->
  gauss1D amp mean fwhm x = (amp * RtoC (beam fwhm (x - mean)))%C.
Proof.
  intros amp mean fwhm x Hf. unfold gauss1D, beam. do 3 f_equal.
  assert (H2 : 0 < ln 2) by (rewrite <- ln_1; apply ln_increasing; lra).
  assert (Hs : sqrt (2 * ln 2) * sqrt (2 * ln 2) = 2 * ln 2) by (apply sqrt_sqrt; lra).
  assert (Hp : 0 < sqrt (2 * ln 2)) by (apply sqrt_lt_R0; lra).
  replace (4 * ln 2) with (2 * (sqrt (2 * ln 2) * sqrt (2 * ln 2))) by (rewrite Hs; ring).
  field. split; lra.
Qed.

Lemma beam_peak : forall fwhm, beam fwhm 0 = 1.
Proof. intros. unfold beam. replace (- (4 * ln 2) * (0 / fwhm) ^ 2) with 0 by (unfold Rdiv; ring). apply exp_0. Qed.

Lemma beam_half : forall fwhm, fwhm <> 0 -> beam fwhm (fwhm / 2) = 1 / 2.
Proof.
  intros. unfold beam. replace (- (4 * ln 2) * (fwhm / 2 / fwhm) ^ 2) with (- ln 2) by (field; auto).
  rewrite exp_Ropp, exp_ln by lra. lra.
Qed.

(* ------------------------------------------------------------ one step *)
Lemma in_open : forall mask j, In j (open_chans mask) <-> (j < length mask)%nat /\ nth j mask false = true.
Proof. intros. unfold open_chans. rewrite filter_In, in_seq. split; intros [H1 H2]; split; auto; lia. Qed.


Section Pixel.
  Variables (RMSF : list C) (phi : list R) (fwhm gain : R) (imax pad : nat).
  Let n := length phi.
  Let step := clean_step RMSF phi fwhm gain imax pad.
  Let sh := shifted RMSF imax pad.

  Definition wf_cst (s : cst) : Prop :=
    length (resid s) = n /\ length (cc s) = n /\ length (cln s) = n.

  Lemma step_spec : forall i s s', wf_cst s -> (i < n)%nat -> step i s = POk s' ->
    wf_cst s' /\ iters s' = S (iters s) /\
    (forall j, (j < n)%nat ->
       nth j (resid s') czero = (nth j (resid s) czero - RtoC gain * nth i (resid s) czero * nth j (sh i) czero)%C /\
       nth j (cc s') czero = (nth j (cc s) czero + if Nat.eqb j i then RtoC gain * nth i (resid s) czero else czero)%C /\
       nth j (cln s') czero = (nth j (cln s) czero + gauss1D (RtoC gain * nth i (resid s) czero) (nth i phi 0) fwhm (nth j phi 0))%C).
  Proof.
    intros i s s' [W1 [W2 W3]] Hi. unfold step, clean_step. fold sh.
    destruct (Nat.eqb_spec (length (sh i)) (length (resid s))) as [E|E]; simpl; [|discriminate].
    intros H. injection H as H. subst s'. unfold wf_cst; simpl.
    rewrite !map_length, !combine_length, length_upd. fold n.
    split; [repeat split; lia|]. split; [reflexivity|].
    intros j Hj. repeat split.
    - rewrite (nth_map_combine _ _ _ _ _ czero czero) by lia. reflexivity.
    - rewrite nth_upd by lia. destruct (Nat.eqb_spec j i).
      + subst. reflexivity.
      + unfold czero. ring.
    - rewrite (nth_map_combine _ _ _ _ _ czero 0) by (fold n; lia). reflexivity.
  Qed.

  (** reachability by steps whose channel satisfies P *)
  Inductive reach (P : nat -> Prop) : cst -> cst -> Prop :=
  | reach_refl : forall s, reach P s s
  | reach_step : forall s s' s'' i, reach P s s' -> (i < n)%nat -> P i -> step i s' = POk s'' -> reach P s s''.

  Lemma reach_trans : forall P s1 s2 s3, reach P s1 s2 -> reach P s2 s3 -> reach P s1 s3.
  Proof. intros P s1 s2 s3 H12 H. induction H as [|s s' s'' i HH IH Hi HP Hs]; auto. apply reach_step with s' i; auto. Qed.

  Lemma reach_mono : forall (P Q : nat -> Prop) s s', (forall i, P i -> Q i) -> reach P s s' -> reach Q s s'.
  Proof. intros P Q s s' HPQ H. induction H as [|s s' s'' i HH IH Hi HP Hs]; [constructor|]. apply reach_step with s' i; auto. Qed.

  Lemma reach_wf : forall P s s', wf_cst s -> reach P s s' -> wf_cst s'.
  Proof. intros P s s' W H. induction H as [|s s' s'' i HH IH Hi HP Hs]; auto. apply (step_spec i s' s''); auto. Qed.

  Lemma csum_one : forall (f : nat -> C) i k, (i < k)%nat ->
    csum (map (fun j => (if Nat.eqb j i then f j else czero)) (seq 0 k)) = f i.
  Proof.
    intros f i k H.
    replace (seq 0 k) with (seq 0 i ++ i :: seq (S i) (k - S i)).
    - rewrite map_app, csum_app. simpl. rewrite csum_cons, Nat.eqb_refl.
      rewrite !csum_zero; [unfold czero; ring| |].
      + intros x Hx. apply in_seq in Hx. destruct (Nat.eqb_spec x i); [lia|reflexivity].
      + intros x Hx. apply in_seq in Hx. destruct (Nat.eqb_spec x i); [lia|reflexivity].
    - replace k with (i + S (k - S i))%nat at 2 by lia. rewrite seq_app. reflexivity.
  Qed.

  (** Generic linear invariant: any quantity q_j that each step changes by
      CC * f(i,j) stays equal to its start value plus sum_i cc_i f(i,j). *)
  Lemma reach_linear : forall P s s', wf_cst s -> reach P s s' ->
    forall (q : cst -> C) (f : nat -> C),
    (forall i t t', wf_cst t -> (i < n)%nat -> step i t = POk t' ->
        q t' = (q t + RtoC gain * nth i (resid t) czero * f i)%C) ->
    (q s' - csum (map (fun i => nth i (cc s') czero * f i)%C (seq 0 n)) =
     q s - csum (map (fun i => nth i (cc s) czero * f i)%C (seq 0 n)))%C.
  Proof.
    intros P s s' W H q f Hq. induction H as [|s s' s'' i H IH Hi HP Hs]; auto.
    rewrite <- IH by auto. pose proof (reach_wf P _ _ W H) as W'.
    rewrite (Hq i s' s'') by auto.
    destruct (step_spec i s' s'' W' Hi Hs) as [_ [_ E]].
    rewrite (csum_map_ext (fun k => (nth k (cc s'') czero * f k)%C)
       (fun k => (nth k (cc s') czero * f k + if Nat.eqb k i then RtoC gain * nth i (resid s') czero * f k else czero)%C)).
    - rewrite csum_map_plus, (csum_one (fun k => RtoC gain * nth i (resid s') czero * f k)%C) by auto. ring.
    - intros k Hk. apply in_seq in Hk. destruct (E k) as [_ [Ek _]]; [lia|]. rewrite Ek.
      destruct (Nat.eqb k i); unfold czero; ring.
  Qed.

  Lemma reach_resid : forall P s s', wf_cst s -> reach P s s' ->
    (forall k, (k < n)%nat -> nth k (cc s) czero = czero) ->
    forall j, (j < n)%nat ->
    nth j (resid s) czero = (nth j (resid s') czero + csum (map (fun i => nth i (cc s') czero * nth j (sh i) czero)%C (seq 0 n)))%C.
  Proof.
    intros P s s' W H Hz j Hj.
    pose proof (reach_linear P s s' W H (fun t => - nth j (resid t) czero)%C (fun i => nth j (sh i) czero)) as L.
    cbv beta in L.
    rewrite (csum_zero (fun i => (nth i (cc s) czero * _)%C) (seq 0 n)) in L
      by (intros k Hk; apply in_seq in Hk; rewrite Hz by lia; unfold czero; ring).
    match type of L with _ -> ?a = ?b => assert (L' : a = b) end.
    { apply L. intros i t t' Wt Hi Hs. destruct (step_spec i t t' Wt Hi Hs) as [_ [_ E]].
      destruct (E j Hj) as [E1 _]. rewrite E1. ring. }
    apply (f_equal Copp) in L'. ring_simplify in L'. rewrite <- L'. ring.
  Qed.

  Lemma reach_cln : forall P s s', fwhm <> 0 -> wf_cst s -> reach P s s' ->
    (forall k, (k < n)%nat -> nth k (cc s) czero = czero) ->
    (forall k, (k < n)%nat -> nth k (cln s) czero = czero) ->
    forall j, (j < n)%nat -> nth j (cln s') czero = restored fwhm phi (cc s') j.
  Proof.
    intros P s s' Hf W H Hz Hc j Hj. unfold restored. pose proof (reach_wf P _ _ W H) as W'.
    replace (length (cc s')) with n by (symmetry; apply W').
    pose proof (reach_linear P s s' W H (fun t => nth j (cln t) czero) (fun i => RtoC (beam fwhm (nth j phi 0 - nth i phi 0)))) as L.
    cbv beta in L.
    rewrite (csum_zero (fun i => (nth i (cc s) czero * _)%C) (seq 0 n)) in L
      by (intros k Hk; apply in_seq in Hk; rewrite Hz by lia; unfold czero; ring).
    match type of L with _ -> ?a = ?b => assert (L' : a = b) end.
    { apply L. intros i t t' Wt Hi Hs. destruct (step_spec i t t' Wt Hi Hs) as [_ [_ E]].
      destruct (E j Hj) as [_ [_ E3]]. rewrite E3, gauss1D_beam by auto. ring. }
    rewrite Hc in L' by auto.
    apply (f_equal (fun z => z + csum (map (fun i => nth i (cc s') czero * RtoC (beam fwhm (nth j phi 0 - nth i phi 0))) (seq 0 n)))%C) in L'.
    ring_simplify in L'. rewrite L'. unfold czero. ring.
  Qed.

  Lemma reach_iters : forall P s s', wf_cst s -> reach P s s' -> (iters s <= iters s')%nat.
  Proof.
    intros P s s' W H. induction H; auto. pose proof (reach_wf P _ _ W H).
    destruct (step_spec i s' s'' H3 H0 H2) as [_ [E _]]. specialize (IHreach W). lia.
  Qed.

  (** channels that are never chosen keep their component *)
  Lemma reach_cc_stable : forall P s s', wf_cst s -> reach P s s' ->
    forall j, (j < n)%nat -> ~ P j -> nth j (cc s') czero = nth j (cc s) czero.
  Proof.
    intros P s s' W H j Hj HP. induction H; auto. pose proof (reach_wf P _ _ W H).
    destruct (step_spec i s' s'' H3 H0 H2) as [_ [_ E]]. destruct (E j Hj) as [_ [E2 _]]. rewrite E2.
    destruct (Nat.eqb_spec j i); [subst; contradiction|]. rewrite IHreach by auto. unfold czero. ring.
  Qed.

  (* ---------------------------------------------------------- the loops *)
  Lemma loop1_reach : forall cutoff rem s s', wf_cst s -> loop1 RMSF phi fwhm gain imax pad cutoff rem s = POk s' ->
    reach (fun _ => True) s s' /\ (iters s' <= iters s + rem)%nat /\
    ((iters s' = iters s + rem)%nat \/ maxabs (resid s') < cutoff).
  Proof.
    induction rem as [|rem IH]; intros s s' W H; simpl in H.
    - injection H as <-. repeat split; [constructor|lia|left; lia].
    - destruct (Rle_dec cutoff (maxabs (resid s))) as [Hc|Hc].
      + destruct (argmax _ (resid s)) as [i|] eqn:Ea; [|discriminate].
        destruct (clean_step RMSF phi fwhm gain imax pad i s) as [s1|] eqn:Es; [|discriminate].
        apply argmax_mod in Ea. destruct Ea as [Hi _].
        assert (Hi' : (i < n)%nat) by (destruct W as [W _]; lia).
        destruct (step_spec i s s1 W Hi' Es) as [W1 [E1 _]].
        destruct (IH s1 s' W1 H) as [H1 [H2 H3]].
        split; [|split; [lia|]].
        * eapply reach_trans; [|exact H1]. econstructor; [constructor|exact Hi'|exact I|exact Es].
        * destruct H3; [left; lia|right; auto].
      + injection H as <-. repeat split; [constructor|lia|right; lra].
  Qed.

  Lemma loop2_reach : forall window mask rem s s', wf_cst s -> length mask = n ->
    loop2 RMSF phi fwhm gain imax pad window mask rem s = POk s' ->
    reach (fun j => nth j mask false = true) s s' /\ (iters s' <= iters s + rem)%nat /\
    ((iters s' = iters s + rem)%nat \/
     match window with None => s' = s
     | Some w => open_chans mask = [] \/ maxabs (map (fun j => nth j (resid s') czero) (open_chans mask)) < w end).
  Proof.
    induction rem as [|rem IH]; intros s s' W HM H; simpl in H.
    - injection H as <-. repeat split; [constructor|lia|left; lia].
    - destruct window as [w|].
      2:{ injection H as <-. repeat split; [constructor|lia|right; auto]. }
      destruct (argmax _ (map _ (open_chans mask))) as [a|] eqn:Ea.
      + destruct (Rle_dec w _) as [Hc|Hc].
        * destruct (clean_step RMSF phi fwhm gain imax pad (nth a (open_chans mask) 0%nat) s) as [s1|] eqn:Es; [|discriminate].
          apply argmax_mod in Ea. destruct Ea as [Ha _]. rewrite map_length in Ha.
          assert (Hin : In (nth a (open_chans mask) 0%nat) (open_chans mask)) by (apply nth_In; auto).
          apply in_open in Hin. rewrite HM in Hin.
          destruct (step_spec _ s s1 W (proj1 Hin) Es) as [W1 [E1 _]].
          destruct (IH s1 s' W1 HM H) as [H1 [H2 H3]].
          split; [|split; [lia|]].
          -- eapply reach_trans; [|exact H1]. econstructor; [constructor|apply Hin|apply Hin|exact Es].
          -- destruct H3; [left; lia|right; auto].
        * injection H as <-. repeat split; [constructor|lia|right; right]. unfold czero. lra.
      + injection H as <-. repeat split; [constructor|lia|right; left].
        destruct (open_chans mask); [auto|discriminate].
  Qed.

  Lemma length_win_mask : forall ccs, length (win_mask phi fwhm ccs) = length ccs.
  Proof. intros. unfold win_mask. now rewrite map_length, seq_length. Qed.
End Pixel.

(* ---------------------------------------------------------------- no wrap *)
Lemma shifted_spec : forall RMSF n imax i pad,
  roomy n (length RMSF) imax -> pad = Nat.div2 (length RMSF - n) -> (i < n)%nat ->
  length (shifted RMSF imax pad i) = n /\
  forall j, (j < n)%nat ->
    nth j (shifted RMSF imax pad i) czero = zsample RMSF (Z.of_nat imax + Z.of_nat j - Z.of_nat i).
Proof.
  intros RMSF n imax i pad [[p [Hp E]] [R1 R2]] Epad Hi.
  assert (pad = p).
  { rewrite Epad, E. replace (n + 2 * p - n)%nat with (2 * p)%nat by lia. apply Nat.div2_double. }
  subst pad. rewrite H. unfold shifted.
  destruct (py_slice_clip (np_roll (RtoC 0) RMSF (Z.of_nat (i + p) - Z.of_nat imax)) p) as [L N].
  - lia.
  - rewrite length_np_roll. lia.
  - rewrite length_np_roll in L, N. split; [lia|]. intros j Hj. rewrite N by lia.
    change czero with (RtoC 0). rewrite nth_np_roll by lia. unfold zsample.
    destruct (Z.ltb_spec (Z.of_nat imax + Z.of_nat j - Z.of_nat i) 0); [lia|].
    rewrite Z.mod_small by lia. f_equal. lia.
Qed.

Lemma step_ok : forall RMSF phi fwhm gain imax i s,
  roomy (length phi) (length RMSF) imax -> (i < length phi)%nat -> length (resid s) = length phi ->
  exists s', clean_step RMSF phi fwhm gain imax (Nat.div2 (length RMSF - length phi)) i s = POk s'.
Proof.
  intros RMSF phi fwhm gain imax i s HR Hi HL. unfold clean_step.
  destruct (shifted_spec RMSF (length phi) imax i _ HR eq_refl Hi) as [L _].
  rewrite L, HL, Nat.eqb_refl. simpl. eauto.
Qed.

Definition init_cst (dirty : list C) : cst :=
  mk_cst dirty (map (fun _ => RtoC 0) dirty) (map (fun _ => RtoC 0) dirty) 0.

Lemma nth_zeros : forall {A} (l : list A) j, nth j (map (fun _ => RtoC 0) l) czero = czero.
Proof. induction l; destruct j; simpl; auto. Qed.

Lemma init_wf : forall phi dirty, length dirty = length phi -> wf_cst phi (init_cst dirty).
Proof. intros. unfold wf_cst, init_cst; simpl. now rewrite map_length. Qed.

Lemma win_mask_len : forall phi fwhm s, wf_cst phi s -> length (win_mask phi fwhm (cc s)) = length phi.
Proof. intros phi fwhm s W. rewrite length_win_mask. apply W. Qed.

(** What a successful run is made of. *)
Lemma cleanloop_inv : forall dirty RMSF phi fwhm gain cutoff window maxIter s,
  length dirty = length phi ->
  cleanloop dirty RMSF phi fwhm gain cutoff window maxIter = POk s ->
  exists imax s1, argmax cltb RMSF = Some imax /\
    let pad := Nat.div2 (length RMSF - length phi) in
    loop1 RMSF phi fwhm gain imax pad cutoff maxIter (init_cst dirty) = POk s1 /\
    loop2 RMSF phi fwhm gain imax pad window (win_mask phi fwhm (cc s1)) (maxIter - iters s1) s1 = POk s /\
    reach RMSF phi fwhm gain imax pad (fun _ => True) (init_cst dirty) s1 /\
    reach RMSF phi fwhm gain imax pad (fun j => nth j (win_mask phi fwhm (cc s1)) false = true) s1 s /\
    wf_cst phi s1 /\ wf_cst phi s.
Proof.
  intros dirty RMSF phi fwhm gain cutoff window maxIter s HL H. unfold cleanloop in H.
  destruct (argmax cltb RMSF) as [imax|] eqn:Ei; [|discriminate].
  fold (init_cst dirty) in H.
  destruct (loop1 _ _ _ _ _ _ _ _ _) as [s1|] eqn:E1; [|discriminate].
  destruct (Nat.ltb (length phi) 2); [discriminate|].
  exists imax, s1. split; [reflexivity|]. intros pad. split; [exact E1|]. split; [exact H|].
  pose proof (init_wf phi dirty HL) as W0.
  destruct (loop1_reach _ _ _ _ _ _ _ _ _ _ W0 E1) as [R1 _].
  pose proof (reach_wf _ _ _ _ _ _ _ _ _ W0 R1) as W1.
  destruct (loop2_reach _ _ _ _ _ _ _ _ _ _ _ W1 (win_mask_len _ _ _ W1) H) as [R2 _].
  repeat split; auto; try apply W1; eapply reach_wf; eauto.
Qed.

Lemma cleanloop_reach : forall dirty RMSF phi fwhm gain cutoff window maxIter s imax,
  length dirty = length phi -> argmax cltb RMSF = Some imax ->
  cleanloop dirty RMSF phi fwhm gain cutoff window maxIter = POk s ->
  reach RMSF phi fwhm gain imax (Nat.div2 (length RMSF - length phi)) (fun _ => True) (init_cst dirty) s /\
  wf_cst phi s.
Proof.
  intros. destruct (cleanloop_inv _ _ _ _ _ _ _ _ _ H H1) as [im [s1 [E [_ [_ [R1 [R2 [W1 W]]]]]]]].
  rewrite H0 in E. injection E as <-. split; auto.
  eapply reach_trans; [exact R1|]. eapply reach_mono; [|exact R2]. auto.
Qed.

(** C12 *)
Lemma clean_conserves : forall dirty RMSF phi fwhm gain cutoff window maxIter s imax,
  length dirty = length phi -> peak_at RMSF imax -> roomy (length phi) (length RMSF) imax ->
  cleanloop dirty RMSF phi fwhm gain cutoff window maxIter = POk s ->
  forall j, (j < length phi)%nat ->
    nth j dirty czero = (nth j (resid s) czero + response RMSF imax (cc s) j)%C.
Proof.
  intros dirty RMSF phi fwhm gain cutoff window maxIter s imax HL HP HR H j Hj.
  destruct (cleanloop_reach _ _ _ _ _ _ _ _ _ imax HL (cltb_peak _ _ HP) H) as [R W].
  pose proof (reach_resid _ _ _ _ _ _ _ _ _ (init_wf _ _ HL) R
    ltac:(intros; simpl; apply nth_zeros) j Hj) as E. simpl in E. rewrite E. f_equal.
  unfold response. destruct W as [_ [W _]]. rewrite W. apply csum_map_ext. intros i Hi. apply in_seq in Hi.
  f_equal. apply (shifted_spec RMSF (length phi) imax i _ HR eq_refl); lia.
Qed.

(** C13 *)
Lemma clean_restores : forall dirty RMSF phi fwhm gain cutoff window maxIter s,
  length dirty = length phi -> fwhm <> 0 ->
  cleanloop dirty RMSF phi fwhm gain cutoff window maxIter = POk s ->
  forall j, (j < length phi)%nat -> nth j (cln s) czero = restored fwhm phi (cc s) j.
Proof.
  intros. destruct (cleanloop_inv _ _ _ _ _ _ _ _ _ H H1) as [im [s1 [E _]]].
  destruct (cleanloop_reach _ _ _ _ _ _ _ _ _ im H E H1) as [R W].
  apply (reach_cln _ _ _ _ _ _ _ _ _ H0 (init_wf _ _ H) R); auto; intros; simpl; apply nth_zeros.
Qed.

(** Runs never raise when the shapes are right. *)
Lemma loop1_ok : forall RMSF phi fwhm gain imax cutoff rem s,
  roomy (length phi) (length RMSF) imax -> phi <> [] -> wf_cst phi s ->
  exists s', loop1 RMSF phi fwhm gain imax (Nat.div2 (length RMSF - length phi)) cutoff rem s = POk s'.
Proof.
  induction rem as [|rem IH]; intros s HR Hphi W; simpl; [eauto|].
  destruct (Rle_dec cutoff (maxabs (resid s))); [|eauto].
  destruct (argmax _ (resid s)) as [i|] eqn:Ea.
  - apply argmax_mod in Ea. destruct Ea as [Hi _]. pose proof W as [W1 _].
    destruct (step_ok RMSF phi fwhm gain imax i s HR ltac:(lia) W1) as [s1 E]. rewrite E.
    apply IH; auto. eapply step_spec; eauto. lia.
  - destruct W as [W _]. destruct (resid s); [|discriminate]. destruct phi; [congruence|simpl in W; lia].
Qed.

Lemma loop2_ok : forall RMSF phi fwhm gain imax window mask rem s,
  roomy (length phi) (length RMSF) imax -> wf_cst phi s -> length mask = length phi ->
  exists s', loop2 RMSF phi fwhm gain imax (Nat.div2 (length RMSF - length phi)) window mask rem s = POk s'.
Proof.
  induction rem as [|rem IH]; intros s HR W HM; simpl; [eauto|].
  destruct window as [w|]; [|eauto].
  destruct (argmax _ (map _ (open_chans mask))) as [a|] eqn:Ea; [|eauto].
  destruct (Rle_dec w _); [|eauto].
  apply argmax_mod in Ea. destruct Ea as [Ha _]. rewrite map_length in Ha.
  assert (Hin : In (nth a (open_chans mask) 0%nat) (open_chans mask)) by (apply nth_In; auto).
  apply in_open in Hin. rewrite HM in Hin. destruct Hin as [Hin _].
  destruct (step_ok RMSF phi fwhm gain imax _ s HR Hin (proj1 W)) as [s1 E]. rewrite E.
  apply IH; auto. exact (proj1 (step_spec _ _ _ _ _ _ _ _ _ W Hin E)).
Qed.

Lemma clean_total : forall dirty RMSF phi fwhm gain cutoff window maxIter imax,
  length dirty = length phi -> (2 <= length phi)%nat -> peak_at RMSF imax ->
  roomy (length phi) (length RMSF) imax ->
  exists s, cleanloop dirty RMSF phi fwhm gain cutoff window maxIter = POk s.
Proof.
  intros dirty RMSF phi fwhm gain cutoff window maxIter imax HL Hn HP HR. unfold cleanloop.
  rewrite (cltb_peak _ _ HP). fold (init_cst dirty).
  destruct (loop1_ok RMSF phi fwhm gain imax cutoff maxIter (init_cst dirty) HR) as [s1 E1].
  - destruct phi; simpl in *; [lia|discriminate].
  - now apply init_wf.
  - rewrite E1. destruct (Nat.ltb_spec (length phi) 2); [lia|].
    destruct (loop1_reach _ _ _ _ _ _ _ _ _ _ (init_wf _ _ HL) E1) as [R1 _].
    pose proof (reach_wf _ _ _ _ _ _ _ _ _ (init_wf _ _ HL) R1) as W1.
    apply loop2_ok; auto. rewrite length_win_mask. apply W1.
Qed.

(** C14 *)
Lemma clean_stops : forall dirty RMSF phi fwhm gain cutoff maxIter s,
  length dirty = length phi -> 0 < cutoff ->
  cleanloop dirty RMSF phi fwhm gain cutoff None maxIter = POk s ->
  (iters s <= maxIter)%nat /\ (iters s = maxIter \/ all_below cutoff (resid s)).
Proof.
  intros dirty RMSF phi fwhm gain cutoff maxIter s HL Hc H.
  destruct (cleanloop_inv _ _ _ _ _ _ _ _ _ HL H) as [im [s1 [E [L1 [L2 [R1 [R2 [W1 W]]]]]]]].
  destruct (loop1_reach _ _ _ _ _ _ _ _ _ _ (init_wf _ _ HL) L1) as [_ [B1 B2]]. simpl in B1, B2.
  destruct (loop2_reach _ _ _ _ _ _ _ _ _ _ _ W1 (win_mask_len _ _ _ W1) L2) as [_ [C1 C2]].
  destruct C2 as [C2|C2]; [split; [lia|left; lia]|]. subst s1.
  split; [lia|]. destruct B2; [now left|right]. now apply maxabs_lt.
Qed.

Lemma clean_stops_window : forall dirty RMSF phi fwhm gain cutoff w maxIter s,
  length dirty = length phi -> 0 < w ->
  cleanloop dirty RMSF phi fwhm gain cutoff (Some w) maxIter = POk s ->
  (iters s <= maxIter)%nat /\
  (iters s = maxIter \/ forall j, (j < length phi)%nat -> nth j (cc s) czero <> czero -> Cmod (nth j (resid s) czero) < w).
Proof.
  intros dirty RMSF phi fwhm gain cutoff w maxIter s HL Hw H.
  destruct (cleanloop_inv _ _ _ _ _ _ _ _ _ HL H) as [im [s1 [E [L1 [L2 [R1 [R2 [W1 W]]]]]]]].
  destruct (loop1_reach _ _ _ _ _ _ _ _ _ _ (init_wf _ _ HL) L1) as [_ [B1 B2]]. simpl in B1, B2.
  destruct (loop2_reach _ _ _ _ _ _ _ _ _ _ _ W1 (win_mask_len _ _ _ W1) L2) as [_ [C1 C2]].
  split; [lia|]. destruct C2 as [C2|C2]; [left; lia|right]. intros j Hj Hcc.
  assert (Hm : nth j (win_mask phi fwhm (cc s1)) false = true).
  { destruct (nth j (win_mask phi fwhm (cc s1)) false) eqn:Em; auto. exfalso. apply Hcc.
    rewrite (reach_cc_stable _ _ _ _ _ _ _ _ _ W1 R2 j Hj) by congruence.
    unfold win_mask in Em. destruct W1 as [_ [W1 _]]. rewrite nth_map_seq in Em by lia. simpl in Em.
    apply orb_false_iff in Em. destruct Em as [Em _].
    destruct (Rlt_dec 0 (Cmod (nth j (cc s1) (RtoC 0)))); [discriminate|].
    apply Cmod_eq_0. generalize (Cmod_ge_0 (nth j (cc s1) (RtoC 0))). unfold czero. lra. }
  assert (Hin : In j (open_chans (win_mask phi fwhm (cc s1)))).
  { apply in_open. rewrite length_win_mask. destruct W1 as [_ [W1 _]]. split; [lia|auto]. }
  destruct C2 as [C2|C2]; [rewrite C2 in Hin; destruct Hin|].
  apply (proj1 (maxabs_lt _ w Hw) C2). apply in_map_iff. eauto.
Qed.

(** C20 soundness: a component is within half a width (plus one channel) of a
    component of the first pass. *)
Lemma win_mask_sound : forall phi fwhm ccs j,
  (j < length ccs)%nat -> nth j (win_mask phi fwhm ccs) false = true ->
  0 <= fwhm / (nth 1 phi 0 - nth 0 phi 0) ->
  exists i, (i < length ccs)%nat /\ nth i ccs czero <> czero /\
    Rabs (INR j - INR i) < fwhm / (nth 1 phi 0 - nth 0 phi 0) / 2 + 1.
Proof.
  intros phi fwhm ccs j Hj Hm Hf. unfold win_mask in Hm. rewrite nth_map_seq in Hm by auto. simpl in Hm.
  set (f := fwhm / (nth 1 phi 0 - nth 0 phi 0)) in *.
  assert (Hnz : forall k, (if Rlt_dec 0 (Cmod (nth k ccs (RtoC 0))) then true else false) = true -> nth k ccs czero <> czero).
  { intros k. destruct (Rlt_dec 0 (Cmod (nth k ccs (RtoC 0)))); [|intros HH; discriminate HH]. intros _ Hz. unfold czero in *. rewrite Hz, Cmod_0 in r. lra. }
  apply orb_true_iff in Hm. destruct Hm as [Hm|Hm].
  - exists j. split; auto. split; [now apply Hnz|]. rewrite Rminus_diag_eq, Rabs_R0 by auto. lra.
  - apply existsb_exists in Hm. destruct Hm as [i [Hi Hm]]. apply in_seq in Hi.
    apply andb_true_iff in Hm. destruct Hm as [H1 H2].
    exists i. split; [lia|]. split; [now apply Hnz|].
    unfold in_slice in H2. apply andb_true_iff in H2. destruct H2 as [Ha Hb].
    apply Z.leb_le in Ha. apply Z.ltb_lt in Hb.
    pose proof (pos_INR i) as Pi. pose proof (pos_INR j) as Pj.
    apply Rabs_def1.
    + (* upper side *)
      assert (Hp := py_int_pos (INR i + f / 2) ltac:(lra)).
      assert (Z.of_nat j < py_int (INR i + f / 2))%Z.
      { unfold py_bound in Hb. destruct (Z.ltb_spec (py_int (INR i + f / 2)) 0).
        - assert (IZR (py_int (INR i + f / 2)) < 0) by (apply IZR_lt; auto).
          assert (py_int (INR i + f / 2) <= -1)%Z by lia. apply IZR_le in H2. lra.
        - destruct (Z.ltb_spec (py_int (INR i + f / 2)) 0); [lia|].
          destruct (Z.ltb_spec (Z.of_nat (length ccs)) (py_int (INR i + f / 2))); lia. }
      apply IZR_lt in H. rewrite <- INR_IZR_INZ in H. lra.
    + destruct (Rle_dec 0 (INR i - f / 2)) as [Hs|Hs]; [|lra].
      assert (Hp := py_int_pos (INR i - f / 2) Hs).
      assert (0 <= py_int (INR i - f / 2))%Z.
      { apply le_IZR. destruct (Z_lt_le_dec (py_int (INR i - f / 2)) 0) as [L|L]; [|now apply IZR_le].
        assert (py_int (INR i - f / 2) <= -1)%Z by lia. apply IZR_le in H. lra. }
      assert (py_int (INR i - f / 2) <= Z.of_nat j)%Z.
      { unfold py_bound in Ha. destruct (Z.ltb_spec (py_int (INR i - f / 2)) 0); [lia|].
        destruct (Z.ltb_spec (py_int (INR i - f / 2)) 0); [lia|].
        destruct (Z.ltb_spec (Z.of_nat (length ccs)) (py_int (INR i - f / 2))); lia. }
      apply IZR_le in H0. rewrite <- INR_IZR_INZ in H0. lra.
Qed.
