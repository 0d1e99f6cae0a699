(** Laws of measure_FDF_parms. *)
From Coq Require Import Reals List Arith ZArith Bool Lia Lra Psatz.
Set Warnings "-ambiguous-paths".
From Coquelicot Require Import Coquelicot.
From Verif Require Import CBase NdArray PyRes PyList PyList_Proofs Clean_Grid Interp_Model Synth_Model Synth_Spec Synth_Proofs Synth_Laws Setup_Model Setup_Spec Setup_Proofs
  Rmsf_Peak Peak_Proofs Measure_Model Measure_Spec Measure_Proofs.
Import ListNotations.
Local Open Scope R_scope.

(* ---------------------------------------------------------------- nanargmax *)

Definition ole (a b : option R) : Prop := match a, b with None, _ => True | Some x, Some y => x <= y | Some _, None => False end.
Definition oltb (a b : option R) : bool :=
  match a, b with None, Some _ => true | Some x, Some y => Rltb x y | _, None => false end.

Lemma ole_refl : forall a, ole a a.
Proof. intros [x|]; simpl; auto. lra. Qed.
Lemma ole_trans : forall a b c, ole a b -> ole b c -> ole a c.
Proof. intros [x|] [y|] [z|]; simpl; auto; try lra; intros []. Qed.
Lemma oltb_true : forall a b, oltb a b = true -> ole a b.
Proof. intros [x|] [y|]; simpl; auto; try discriminate. intros H. apply Rltb_true in H. lra. Qed.
Lemma oltb_false : forall a b, oltb a b = false -> ole b a.
Proof. intros [x|] [y|]; simpl; auto; try discriminate. intros H. apply Rltb_false in H. lra. Qed.
Lemma ole_oltb : forall a b c, ole a b -> oltb b c = true -> oltb a c = true.
Proof.
  intros [x|] [y|] [z|]; simpl; auto; try discriminate; try contradiction. intros H1 H2. apply Rltb_true in H2. apply Rltb_true. lra.
Qed.

Section First.
  Context {A : Type} (ltb : A -> A -> bool) (le : A -> A -> Prop).
  Hypothesis le_refl : forall a, le a a.
  Hypothesis le_trans : forall a b c, le a b -> le b c -> le a c.
  Hypothesis ltb_true : forall a b, ltb a b = true -> le a b.
  Hypothesis ltb_false : forall a b, ltb a b = false -> le b a.
  Hypothesis le_ltb : forall a b c, le a b -> ltb b c = true -> ltb a c = true.
  Lemma argmax_aux_before : forall (l : list A) i best bv d pre,
    length pre = i -> (best < i)%nat -> nth best pre d = bv ->
    (forall j, (j < i)%nat -> le (nth j pre d) bv) -> (forall j, (j < best)%nat -> ltb (nth j pre d) bv = true) ->
    let r := argmax_aux ltb i best bv l in
    forall j, (j < r)%nat -> ltb (nth j (pre ++ l) d) (nth r (pre ++ l) d) = true.
  Proof.
    induction l as [|x t IH]; intros i best bv d pre Hl Hb Hv Hm Hf.
    - cbn. rewrite app_nil_r, Hv. exact Hf.
    - cbn. destruct (ltb bv x) eqn:E.
      + replace (pre ++ x :: t) with ((pre ++ [x]) ++ t) by (rewrite <- app_assoc; reflexivity).
        apply IH.
        * rewrite app_length; simpl; lia.
        * lia.
        * rewrite app_nth2 by lia. rewrite Hl, Nat.sub_diag. reflexivity.
        * intros j Hj. destruct (Nat.eq_dec j i).
          -- subst j. rewrite app_nth2 by lia. rewrite Hl, Nat.sub_diag. simpl. apply le_refl.
          -- rewrite app_nth1 by lia. eapply le_trans; [apply Hm; lia|]. now apply ltb_true.
        * intros j Hj. rewrite app_nth1 by lia. eapply le_ltb; [apply Hm; lia|exact E].
      + replace (pre ++ x :: t) with ((pre ++ [x]) ++ t) by (rewrite <- app_assoc; reflexivity).
        apply IH.
        * rewrite app_length; simpl; lia.
        * lia.
        * rewrite app_nth1 by lia. exact Hv.
        * intros j Hj. destruct (Nat.eq_dec j i).
          -- subst j. rewrite app_nth2 by lia. rewrite Hl, Nat.sub_diag. simpl. apply ltb_false. exact E.
          -- rewrite app_nth1 by lia. apply Hm; lia.
        * intros j Hj. rewrite app_nth1 by lia. apply Hf, Hj.
  Qed.
  Lemma argmax_before : forall (l : list A) r d, argmax ltb l = Some r ->
    forall j, (j < r)%nat -> ltb (nth j l d) (nth r l d) = true.
  Proof.
    intros [|x t] r d H; [discriminate|]. injection H as <-.
    apply (argmax_aux_before t 1 0 x d [x]); simpl; auto.
    - intros [|j] Hj; [apply le_refl|lia].
    - intros j Hj. lia.
  Qed.
End First.

Lemma nanargmax_spec : forall l i, nanargmax l = POk i ->
  (i < length l)%nat /\ exists v, nth i l None = Some v /\
  (forall j w, nth j l None = Some w -> w <= v) /\ (forall j w, (j < i)%nat -> nth j l None = Some w -> w < v).
Proof.
  intros l i H. unfold nanargmax in H. fold oltb in H. destruct (argmax oltb l) as [k|] eqn:E; [|discriminate].
  destruct (nth k l None) as [v|] eqn:Ev; [|discriminate]. injection H as <-.
  destruct (argmax_spec oltb ole ole_refl ole_trans oltb_true oltb_false l k None E) as [Hk Hm].
  split; auto. exists v. split; auto. rewrite Ev in Hm. split.
  - intros j w Hw. destruct (le_lt_dec (length l) j) as [L|L]; [rewrite nth_overflow in Hw by lia; discriminate|].
    specialize (Hm j L). rewrite Hw in Hm. exact Hm.
  - intros j w Hj Hw.
    pose proof (argmax_before oltb ole ole_refl ole_trans oltb_true oltb_false ole_oltb l k None E j Hj) as B.
    rewrite Hw, Ev in B. simpl in B. apply Rltb_true in B. exact B.
Qed.

Lemma nanargmax_some : forall l j w, nth j l None = Some w -> exists i, nanargmax l = POk i.
Proof.
  intros l j w Hw. unfold nanargmax. fold oltb.
  assert (j < length l)%nat as L by (destruct (le_lt_dec (length l) j); [rewrite nth_overflow in Hw by lia; discriminate|auto]).
  destruct (argmax_some oltb l) as [k E]; [intros ->; simpl in L; lia|]. rewrite E.
  destruct (argmax_spec oltb ole ole_refl ole_trans oltb_true oltb_false l k None E) as [Hk Hm].
  specialize (Hm j L). rewrite Hw in Hm. destruct (nth k l None); [eauto|destruct Hm].
Qed.

Lemma inner_slice : forall {A} (l : list A) (d : A), (2 <= length l)%nat ->
  length (py_slice l 1 (-1)) = (length l - 2)%nat /\
  forall i, (i < length l - 2)%nat -> nth i (py_slice l 1 (-1)) d = nth (S i) l d.
Proof.
  intros A l d H. unfold py_slice, py_bound.
  replace (-1 <? 0)%Z with true by reflexivity. replace (1 <? 0)%Z with false by reflexivity.
  replace (-1 + Z.of_nat (length l) <? 0)%Z with false by (symmetry; apply Z.ltb_ge; lia).
  replace (Z.of_nat (length l) <? -1 + Z.of_nat (length l))%Z with false by (symmetry; apply Z.ltb_ge; lia).
  replace (Z.of_nat (length l) <? 1)%Z with false by (symmetry; apply Z.ltb_ge; lia).
  replace (1 <? 0)%Z with false by reflexivity.
  replace (Z.to_nat (-1 + Z.of_nat (length l)) - Z.to_nat 1)%nat with (length l - 2)%nat by lia.
  replace (Z.to_nat 1) with 1%nat by reflexivity. split.
  - rewrite firstn_length, skipn_length. lia.
  - intros i Hi. rewrite nth_firstn_lt by lia. rewrite nth_skipn_add. reflexivity.
Qed.
Lemma inner_slice_short : forall {A} (l : list A), (length l < 3)%nat -> py_slice l 1 (-1) = [].
Proof. intros A [|a [|b [|c l]]] H; simpl in H; try lia; reflexivity. Qed.

(* ---------------------------------------------------------------- interpolation *)

Lemma increasing_tl : forall x l, increasing (x :: l) -> increasing l.
Proof. intros x l H i j Hij. apply (H (S i) (S j)). simpl. lia. Qed.

Lemma interp_from_segment : forall xs ys k x, length xs = length ys -> increasing xs -> (S k < length xs)%nat ->
  nth k xs 0 <= x < nth (S k) xs 0 ->
  interp_from_o x (combine xs ys) =
  match nth k ys None, nth (S k) ys None with
  | Some a, Some b => Some (a + (x - nth k xs 0) * ((b - a) / (nth (S k) xs 0 - nth k xs 0)))
  | _, _ => None
  end.
Proof.
  induction xs as [|x0 xs IH]; intros ys k x Hl Hi Hk Hx; [simpl in Hk; lia|].
  destruct ys as [|y0 ys]; [discriminate|]. destruct xs as [|x1 xs]; [simpl in Hk; lia|].
  destruct ys as [|y1 ys]; [discriminate|].
  destruct k as [|k].
  - cbn [combine interp_from_o nth] in *. destruct (Rlt_dec x x1); [reflexivity|lra].
  - change (nth (S k) (x0 :: x1 :: xs) 0) with (nth k (x1 :: xs) 0) in *.
    change (nth (S (S k)) (x0 :: x1 :: xs) 0) with (nth (S k) (x1 :: xs) 0) in *.
    change (nth (S k) (y0 :: y1 :: ys) None) with (nth k (y1 :: ys) None).
    change (nth (S (S k)) (y0 :: y1 :: ys) None) with (nth (S k) (y1 :: ys) None).
    assert (x1 <= nth k (x1 :: xs) 0) as Hle.
    { destruct k; [simpl; lra|]. apply Rlt_le. apply (increasing_tl _ _ Hi 0%nat (S k)). simpl in *. lia. }
    cbn [combine interp_from_o]. destruct (Rlt_dec x x1) as [L|_]; [lra|].
    apply (IH (y1 :: ys)); auto; [eapply increasing_tl; eauto|simpl in *; lia].
Qed.

(** inside the grid the interpolation is linear between the two neighbours *)
Lemma interp_segment : forall xs ys k x, length xs = length ys -> increasing xs -> (S k < length xs)%nat ->
  nth k xs 0 <= x < nth (S k) xs 0 ->
  np_interp_o x xs ys =
  match nth k ys None, nth (S k) ys None with
  | Some a, Some b => Some (a + (x - nth k xs 0) * ((b - a) / (nth (S k) xs 0 - nth k xs 0)))
  | _, _ => None
  end.
Proof.
  intros xs ys k x Hl Hi Hk Hx. rewrite <- interp_from_segment by auto. unfold np_interp_o.
  destruct (combine xs ys) as [|[x0 y0] rest] eqn:E; [reflexivity|].
  destruct xs as [|x0' xs]; [discriminate|]. destruct ys as [|y0' ys]; [discriminate|].
  simpl in E. injection E as -> -> _. destruct (Rlt_dec x x0) as [L|_]; auto. exfalso.
  assert (x0 <= nth k (x0 :: xs) 0); [|lra]. destruct k; [simpl; lra|]. apply Rlt_le, (Hi 0%nat (S k)). simpl in *. lia.
Qed.

Lemma interp_node : forall xs ys k, length xs = length ys -> increasing xs -> (S k < length xs)%nat ->
  nth (S k) ys None <> None -> np_interp_o (nth k xs 0) xs ys = nth k ys None.
Proof.
  intros xs ys k Hl Hi Hk Hf. rewrite (interp_segment xs ys k); auto.
  - destruct (nth k ys None), (nth (S k) ys None); try reflexivity; try contradiction. f_equal. rewrite Rminus_diag_eq by auto. ring.
  - split; [lra|]. apply Hi. lia.
Qed.

(* ---------------------------------------------------------------- structure *)

Lemma nth_omap : forall (f : C -> R) l k, nth k (map (option_map f) l) None = option_map f (nth k l None).
Proof. intros f l k. exact (map_nth (option_map f) l None k). Qed.

(** the variance from the sums *)
Lemma sum_sq_dev : forall l m, rsum (map (fun x => (x - m) ^ 2) l) = rsum (map (fun x => x ^ 2) l) - 2 * m * rsum l + INR (length l) * m ^ 2.
Proof.
  induction l as [|x l IH]; intros m; cbn [map length]; rewrite ?rsum_nil, ?rsum_cons; [simpl; ring|]. rewrite IH, S_INR. ring.
Qed.
Lemma sample_variance_sums : forall l, 1 < INR (length l) ->
  sample_variance l = (rsum (map (fun x => x ^ 2) l) - rsum l ^ 2 / INR (length l)) / (INR (length l) - 1).
Proof. intros l H. unfold sample_variance. rewrite sum_sq_dev. field. lra. Qed.

Section Measure.
  Variables (FDF : list (option C)) (phi : list R) (fw : option R) (dFDF : option (option R)) (l2 : list R) (lam0 snrBias : R).
  Hypothesis Hlen : length FDF = length phi.

  Let n := length phi.
  Let amp (k : nat) : option R := option_map Cmod (nth k FDF None).

  Local Notation peak_channel := (Measure_Spec.peak_channel FDF (length phi)).

  Lemma absFDF_nth : forall k, nth k (map (option_map Cmod) FDF) None = amp k.
  Proof. intros k. unfold amp. exact (map_nth (option_map Cmod) FDF None k). Qed.

  Lemma peak_index : forall i0, nanargmax (py_slice (map (option_map Cmod) FDF) 1 (-1)) = POk i0 ->
    exists z, peak_channel (S i0) z.
  Proof.
    intros i0 H. apply nanargmax_spec in H. destruct H as (Hi & v & Hv & Hm & Hf).
    destruct (le_lt_dec (length FDF) 2) as [L|L].
    { exfalso. rewrite inner_slice_short in Hi by (rewrite map_length; lia). simpl in Hi. lia. }
    destruct (inner_slice (map (option_map Cmod) FDF) None) as [S1 S2]; [rewrite map_length; lia|].
    rewrite map_length in S1, S2. rewrite S1 in Hi. rewrite S2, absFDF_nth in Hv by lia. unfold amp in Hv.
    destruct (nth (S i0) FDF None) as [z|] eqn:Ez; [|discriminate]. injection Hv as <-.
    exists z. split; [fold n; unfold n; lia|]. split; [exact Ez|]. split.
    - intros j w Hj Hw. destruct j as [|j]; [lia|]. apply (Hm j). rewrite S2, absFDF_nth by lia. unfold amp. rewrite Hw. reflexivity.
    - intros j w Hj Hw. destruct j as [|j]; [lia|]. apply (Hf j); [lia|]. rewrite S2, absFDF_nth by lia. unfold amp. rewrite Hw. reflexivity.
  Qed.

  Lemma np_diff_length : forall l : list R, length (np_diff l) = (length l - 1)%nat.
  Proof. intros l. unfold np_diff. rewrite map_length, combine_length. destruct l; cbn [tl length]; lia. Qed.

  Lemma diff_min : (2 <= length phi)%nat -> exists d, rmin_list (np_diff phi) = Some d.
  Proof.
    intros H. pose proof (np_diff_length phi). destruct (np_diff phi) as [|x t]; [simpl in *; lia|]. simpl. eauto.
  Qed.

  Definition the_vertex (i : nat) : option (R * R) :=
    match amp (i - 1), amp i, amp (i + 1) with
    | Some y1, Some y2, Some y3 => calc_parabola_vertex (nth (i - 1) phi 0) y1 (nth i phi 0) y2 (nth (i + 1) phi 0) y3
    | _, _, _ => None
    end.
  Definition the_kept (i : nat) : option (R * R) :=
    match the_vertex i, rmax_list (map Rabs phi) with
    | Some (p, a), Some m => if Rltb m (Rabs p) then None else Some (p, a)
    | _, _ => None
    end.

  Lemma measure_shape : forall p, measure_FDF_parms FDF phi fw dFDF l2 lam0 snrBias = POk p ->
    exists i z, peak_channel i z /\
      let dF := dAmpPeakPIfit p in let ph := phiPeakPIfit p in let a := ampPeakPIfit p in
      dF = match dFDF with Some d => d | None => dFDFcorMAD p end /\
      ph = option_map fst (the_kept i) /\ a = option_map snd (the_kept i) /\
      snrPIfit p = odiv (option_map snd (the_vertex i)) dF /\
      dPhiPeakPIfit p = odiv (omul fw dF) (omul (Some 2) a) /\
      ampPeakPIfitEff p = (if oge (snrPIfit p) (Some snrBias) then osqrt (osub (omul a a) (omul (Some (23 / 10)) (omul dF dF))) else a) /\
      indxPeakPIfit p = np_interp_x ph phi (map (fun k => Some (INR k)) (seq 0 (length phi))) /\
      peakFDFimagFit p = np_interp_x ph phi (map (option_map snd) FDF) /\
      peakFDFrealFit p = np_interp_x ph phi (map (option_map fst) FDF) /\
      polAngleFit_deg p = match peakFDFimagFit p, peakFDFrealFit p with Some y, Some x => Some (angle_of y x) | _, _ => None end /\
      dPolAngleFit_deg p = option_map degrees (odiv dF (omul (Some 2) a)) /\
      polAngle0Fit_deg p = match polAngleFit_deg p, ph with Some b, Some q => Some (fmod (degrees (radians b - q * lam0)) 180) | _, _ => None end /\
      dPolAngle0Fit_deg p = option_map degrees (osqrt (omul
          (odiv (omul (omul dF dF) (Some (INR (length l2)))) (omul (Some (4 * (INR (length l2) - 2))) (omul a a)))
          (oadd (odiv (Some (INR (length l2) - 1)) (Some (INR (length l2))))
                (odiv (Some (lam0 ^ 2)) (odiv (osub (Some (rsum (map (fun l => l ^ 2) l2))) (odiv (Some (rsum l2 ^ 2)) (Some (INR (length l2))))) (Some (INR (length l2) - 1))))))).
  Proof.
    intros p H. unfold measure_FDF_parms in H.
    destruct (nanargmax _) as [i0|] eqn:E; [|discriminate]. cbn [pybind] in H.
    destruct (peak_index i0 E) as (z & P). exists (S i0), z. split; [exact P|].
    destruct (rmin_list (np_diff phi)) as [dPhi|]; [|discriminate].
    destruct P as (Hi & _). rewrite Hlen in H.
    replace ((0 <? S i0)%nat && (S i0 <? length phi - 1)%nat) with true in H
      by (symmetry; apply andb_true_iff; split; apply Nat.ltb_lt; lia).
    injection H as <-. cbn [dFDFcorMAD phiPeakPIfit dPhiPeakPIfit ampPeakPIfit ampPeakPIfitEff dAmpPeakPIfit snrPIfit indxPeakPIfit
      peakFDFimagFit peakFDFrealFit polAngleFit_deg dPolAngleFit_deg polAngle0Fit_deg dPolAngle0Fit_deg].
    rewrite !absFDF_nth. fold (the_vertex (S i0)). fold (the_kept (S i0)).
    repeat split; reflexivity.
  Qed.

  (** a spectrum with a finite non-edge channel can be measured *)
  Lemma measure_defined : (exists k z, (0 < k < length phi - 1)%nat /\ nth k FDF None = Some z) ->
    exists p, measure_FDF_parms FDF phi fw dFDF l2 lam0 snrBias = POk p.
  Proof.
    intros (k & z & Hk & Hz). unfold measure_FDF_parms.
    destruct (inner_slice (map (option_map Cmod) FDF) None) as [S1 S2]; [rewrite map_length; lia|].
    rewrite map_length in S2.
    destruct (nanargmax_some (py_slice (map (option_map Cmod) FDF) 1 (-1)) (k - 1) (Cmod z)) as [i0 E].
    { rewrite S2, absFDF_nth by lia. unfold amp. replace (S (k - 1)) with k by lia. rewrite Hz. reflexivity. }
    rewrite E. cbn [pybind]. destruct diff_min as [d ->]; [lia|].
    destruct (_ && _)%bool; eauto.
  Qed.

  Lemma measure_undefined : (forall k, (0 < k < length phi - 1)%nat -> nth k FDF None = None) ->
    measure_FDF_parms FDF phi fw dFDF l2 lam0 snrBias = PErr.
  Proof.
    intros H. unfold measure_FDF_parms. destruct (nanargmax _) as [i0|] eqn:E; [|reflexivity]. exfalso.
    destruct (peak_index i0 E) as (z & Hi & Hz & _). rewrite H in Hz by lia. discriminate.
  Qed.

  Lemma kept_inv : forall i p a, the_kept i = Some (p, a) -> the_vertex i = Some (p, a) /\ exists q, In q phi /\ Rabs p <= Rabs q.
  Proof.
    intros i p a H. unfold the_kept in H. destruct (the_vertex i) as [[p' a']|]; [|discriminate].
    destruct (rmax_list (map Rabs phi)) as [m|] eqn:Em; [|discriminate]. destruct (Rltb m (Rabs p')) eqn:El; [discriminate|].
    injection H as -> ->. split; auto. apply rmax_list_spec in Em. destruct Em as [Im _].
    apply in_map_iff in Im. destruct Im as (q & <- & Iq). exists q. split; auto. apply Rltb_false in El. lra.
  Qed.

  Lemma vertex_samples : forall i p a, the_vertex i = Some (p, a) -> exists z1 z2 z3,
    nth (i - 1) FDF None = Some z1 /\ nth i FDF None = Some z2 /\ nth (i + 1) FDF None = Some z3 /\
    calc_parabola_vertex (nth (i - 1) phi 0) (Cmod z1) (nth i phi 0) (Cmod z2) (nth (i + 1) phi 0) (Cmod z3) = Some (p, a).
  Proof.
    intros i p a H. unfold the_vertex, amp in H.
    destruct (nth (i - 1) FDF None) as [z1|]; [|discriminate]. destruct (nth i FDF None) as [z2|]; [|discriminate].
    destruct (nth (i + 1) FDF None) as [z3|]; [|discriminate]. simpl in H. eauto 8.
  Qed.

  Lemma vertex_same_finite : forall p, measure_FDF_parms FDF phi fw dFDF l2 lam0 snrBias = POk p ->
    phiPeakPIfit p = None <-> ampPeakPIfit p = None.
  Proof.
    intros p H. destruct (measure_shape p H) as (i & z & P & S). cbv zeta in S.
    destruct S as (_ & -> & -> & _). destruct (the_kept i); simpl; split; congruence.
  Qed.

  (** C31: what is fitted *)
  Theorem measure_peak : increasing phi -> forall p, measure_FDF_parms FDF phi fw dFDF l2 lam0 snrBias = POk p ->
    exists i z, peak_channel i z /\
    (phiPeakPIfit p = None <-> ampPeakPIfit p = None) /\
    forall ph a, phiPeakPIfit p = Some ph -> ampPeakPIfit p = Some a ->
      exists z1 z3 qa qb qc, nth (i - 1) FDF None = Some z1 /\ nth (i + 1) FDF None = Some z3 /\ qa <> 0 /\
        through qa qb qc (nth (i - 1) phi 0) (Cmod z1) (nth i phi 0) (Cmod z) (nth (i + 1) phi 0) (Cmod z3) /\
        ph = - qb / (2 * qa) /\ a = quad qa qb qc ph /\ exists q, In q phi /\ Rabs ph <= Rabs q.
  Proof.
    intros Hi p H. pose proof (vertex_same_finite p H) as F. destruct (measure_shape p H) as (i & z & P & S). cbv zeta in S.
    exists i, z. split; auto. split; auto. destruct S as (_ & -> & -> & _). intros ph a Ep Ea.
    destruct (the_kept i) as [[p' a']|] eqn:K; [|discriminate]. injection Ep as ->. injection Ea as ->.
    destruct (kept_inv _ _ _ K) as [V Q]. destruct (vertex_samples _ _ _ V) as (z1 & z2 & z3 & E1 & E2 & E3 & E).
    destruct P as (Hi' & Ez & _). rewrite E2 in Ez. injection Ez as ->.
    assert (L1 : nth (i - 1) phi 0 < nth i phi 0) by (apply Hi; lia).
    assert (L3 : nth i phi 0 < nth (i + 1) phi 0) by (apply Hi; lia).
    destruct (vertex_inv _ _ _ _ _ _ _ _ (Rlt_not_eq _ _ L1) (Rlt_not_eq _ _ L3) (Rlt_not_eq _ _ (Rlt_trans _ _ _ L1 L3)) E) as (qa & qb & qc & Ha & T & Ex & Ey).
    exists z1, z3, qa, qb, qc. repeat split; auto; apply T.
  Qed.

  (** C31: on a uniform grid, a peak with non-edge neighbours is refined by at
      most half a channel, and upwards *)
  Theorem measure_interior : forall phi0 d, 0 < d -> uniform phi phi0 d ->
    forall p, measure_FDF_parms FDF phi fw dFDF l2 lam0 snrBias = POk p ->
    exists i z, peak_channel i z /\
    forall ph a, (1 < i < length phi - 2)%nat -> phiPeakPIfit p = Some ph -> ampPeakPIfit p = Some a ->
      Rabs (ph - nth i phi 0) <= d / 2 /\ Cmod z <= a.
  Proof.
    intros phi0 d Hd Hu p H. destruct (measure_shape p H) as (i & z & P & S). cbv zeta in S.
    exists i, z. split; auto. destruct S as (_ & -> & -> & _). intros ph a Hin Ep Ea.
    destruct (the_kept i) as [[p' a']|] eqn:K; [|discriminate]. injection Ep as ->. injection Ea as ->.
    destruct (kept_inv _ _ _ K) as [V _]. destruct (vertex_samples _ _ _ V) as (z1 & z2 & z3 & E1 & E2 & E3 & E).
    destruct P as (Hi' & Ez & Hm & _). rewrite E2 in Ez. injection Ez as ->.
    assert (nth (i - 1) phi 0 = nth i phi 0 - d) as X1.
    { rewrite !Hu by lia. rewrite minus_INR by lia. simpl (INR 1). ring. }
    assert (nth (i + 1) phi 0 = nth i phi 0 + d) as X3.
    { rewrite !Hu by lia. rewrite plus_INR. simpl (INR 1). ring. }
    rewrite X1, X3 in E. eapply vertex_of_peak; [exact Hd| | |exact E].
    - apply (Hm (i - 1)%nat); [lia|exact E1].
    - apply (Hm (i + 1)%nat); [lia|exact E3].
  Qed.

  (** C31: angles *)
  Theorem measure_angles : forall p, measure_FDF_parms FDF phi fw dFDF l2 lam0 snrBias = POk p ->
    (forall a, polAngleFit_deg p = Some a -> 0 <= a < 180 /\
       exists re im, peakFDFrealFit p = Some re /\ peakFDFimagFit p = Some im /\ orientation (re, im) a) /\
    (forall a0, polAngle0Fit_deg p = Some a0 -> 0 <= a0 < 180 /\
       exists a ph, polAngleFit_deg p = Some a /\ phiPeakPIfit p = Some ph /\ same_angle a0 (a - ph * lam0 * 180 / PI)).
  Proof.
    intros p H. destruct (measure_shape p H) as (i & z & P & S). cbv zeta in S.
    destruct S as (_ & _ & _ & _ & _ & _ & _ & _ & _ & EA & _ & E0 & _). split.
    - intros a Ha. rewrite EA in Ha. destruct (peakFDFimagFit p) as [y|]; [|discriminate].
      destruct (peakFDFrealFit p) as [x|]; [|discriminate]. injection Ha as <-. destruct (angle_of_orientation y x) as [R1 R2].
      split; auto. exists x, y. auto.
    - intros a0 Ha. rewrite E0 in Ha. destruct (polAngleFit_deg p) as [b|] eqn:Eb; [|discriminate].
      destruct (phiPeakPIfit p) as [q|] eqn:Eq; [|discriminate]. injection Ha as <-.
      split; [apply fmod_range; lra|]. exists b, q. split; auto. split; auto.
      eapply same_angle_trans; [apply fmod_same|]. exists 0%Z. unfold degrees, radians. field. apply PI_neq0.
  Qed.

  (** C31: the complex value at the peak is the linear interpolation of the
      spectrum between the two channels around the fitted depth *)
  Theorem measure_interpolated : increasing phi -> forall p ph k, measure_FDF_parms FDF phi fw dFDF l2 lam0 snrBias = POk p ->
    phiPeakPIfit p = Some ph -> (S k < length phi)%nat -> nth k phi 0 <= ph < nth (S k) phi 0 ->
    let t := (ph - nth k phi 0) / (nth (S k) phi 0 - nth k phi 0) in
    indxPeakPIfit p = Some (INR k + t) /\
    forall za zb, nth k FDF None = Some za -> nth (S k) FDF None = Some zb ->
      exists re im, peakFDFrealFit p = Some re /\ peakFDFimagFit p = Some im /\
        (re, im) = (RtoC (1 - t) * za + RtoC t * zb)%C.
  Proof.
    intros Hi p ph k H Hp Hk Hx t. destruct (measure_shape p H) as (i & z & P & S). cbv zeta in S.
    destruct S as (_ & _ & _ & _ & _ & _ & EI & Eim & Ere & _). rewrite Hp in EI, Eim, Ere. cbn [np_interp_x] in EI, Eim, Ere.
    assert (Hd : nth k phi 0 < nth (Datatypes.S k) phi 0) by lra.
    split.
    - rewrite EI, (interp_segment phi _ k); auto; [|rewrite map_length, seq_length; auto].
      rewrite !(nth_map_lt _ _ _ _ 0%nat) by (rewrite seq_length; lia). rewrite !seq_nth by lia. rewrite !Nat.add_0_l.
      unfold t. f_equal. rewrite S_INR. field. lra.
    - intros za zb Ea Eb. rewrite Ere, Eim.
      rewrite !(interp_segment phi _ k); auto; try (rewrite map_length; auto).
      rewrite !nth_omap, Ea, Eb.
      cbn [option_map]. do 2 eexists. split; [reflexivity|]. split; [reflexivity|].
      unfold t, RtoC, Cmult, Cplus. simpl fst. simpl snd. destruct za as [xa ya], zb as [xb yb]. simpl.
      f_equal; field; lra.
  Qed.

  (** C31: the noise *)
  Lemma measure_noise_range : forall p, measure_FDF_parms FDF phi fw dFDF l2 lam0 snrBias = POk p ->
    exists i z d, peak_channel i z /\ is_min (np_diff phi) d /\ dFDFcorMAD p = corMAD FDF (noise_range fw d i (length phi)).
  Proof.
    intros p H. unfold measure_FDF_parms in H.
    destruct (nanargmax _) as [i0|] eqn:E; [|discriminate]. cbn [pybind] in H.
    destruct (peak_index i0 E) as (z & P). exists (S i0), z.
    destruct (rmin_list (np_diff phi)) as [dPhi|] eqn:Ed; [|discriminate]. exists dPhi. split; [exact P|]. split; [apply rmin_list_spec, Ed|].
    rewrite Hlen in H. destruct (_ && _)%bool; injection H as <-; reflexivity.
  Qed.

  Lemma mask_off : forall (i w : Z) m, (m <= length FDF)%nat -> (0 <= w)%Z -> (0 <= i < Z.of_nat (length FDF))%Z ->
    filter (fun x : option C => match x with Some _ => true | None => false end)
      (map (fun ix => if in_slice (length FDF) (Z.max 0 (i - w * 2)) (Z.min (Z.of_nat (length FDF)) (i + w * 2)) (fst ix) then None else snd ix)
         (combine (seq 0 m) (firstn m FDF)))
    = map Some (flat_map (fun jz => if ((i - 2 * w <=? Z.of_nat (fst jz)) && (Z.of_nat (fst jz) <? i + 2 * w))%Z then []
                      else match snd jz with Some z => [z] | None => [] end) (combine (seq 0 m) (firstn m FDF))).
  Proof.
    intros i w m Hm Hw Hi.
    assert (B : forall l, (forall jz, In jz l -> (fst jz < length FDF)%nat) ->
      filter (fun x : option C => match x with Some _ => true | None => false end)
      (map (fun ix : nat * option C => if in_slice (length FDF) (Z.max 0 (i - w * 2)) (Z.min (Z.of_nat (length FDF)) (i + w * 2)) (fst ix) then None else snd ix) l)
      = map Some (flat_map (fun jz => if ((i - 2 * w <=? Z.of_nat (fst jz)) && (Z.of_nat (fst jz) <? i + 2 * w))%Z then []
                      else match snd jz with Some z => [z] | None => [] end) l)).
    { induction l as [|[j z] l IH]; intros Hl; [reflexivity|].
      assert (J : (j < length FDF)%nat) by (apply (Hl (j, z)); left; auto).
      assert (in_slice (length FDF) (Z.max 0 (i - w * 2)) (Z.min (Z.of_nat (length FDF)) (i + w * 2)) j =
              ((i - 2 * w <=? Z.of_nat j) && (Z.of_nat j <? i + 2 * w))%Z) as EB.
      { unfold in_slice, py_bound.
        replace (Z.max 0 (i - w * 2) <? 0)%Z with false by (symmetry; apply Z.ltb_ge; lia).
        replace (Z.min (Z.of_nat (length FDF)) (i + w * 2) <? 0)%Z with false by (symmetry; apply Z.ltb_ge; lia).
        replace (Z.max 0 (i - w * 2) <? 0)%Z with false by (symmetry; apply Z.ltb_ge; lia).
        replace (Z.min (Z.of_nat (length FDF)) (i + w * 2) <? 0)%Z with false by (symmetry; apply Z.ltb_ge; lia).
        replace (Z.of_nat (length FDF) <? Z.max 0 (i - w * 2))%Z with false by (symmetry; apply Z.ltb_ge; lia).
        replace (Z.of_nat (length FDF) <? Z.min (Z.of_nat (length FDF)) (i + w * 2))%Z with false by (symmetry; apply Z.ltb_ge; lia).
        apply Bool.eq_iff_eq_true. rewrite !andb_true_iff, !Z.leb_le, !Z.ltb_lt. lia. }
      specialize (IH (fun jz Hjz => Hl jz (or_intror Hjz))). cbn [map flat_map fst snd filter]. rewrite EB.
      destruct (_ && _)%bool; [exact IH|]. destruct z; cbn [filter app map]; [f_equal|]; exact IH. }
    apply B. intros [j z] Hj. apply in_combine_l, in_seq in Hj. simpl. lia.
  Qed.

  Theorem measure_noise : forall p, measure_FDF_parms FDF phi fw dFDF l2 lam0 snrBias = POk p ->
    (forall x, dFDF = Some x -> dAmpPeakPIfit p = x) /\ (dFDF = None -> dAmpPeakPIfit p = dFDFcorMAD p) /\
    forall f, fw = Some f -> 0 <= f -> increasing phi ->
      exists i z d w, peak_channel i z /\ is_min (np_diff phi) d /\ IZR w - 1 < f / d <= IZR w /\
        let kept := off_peak FDF (Z.of_nat i) w in
        (3 / 10 <= INR (length kept) / INR (length phi) -> dFDFcorMAD p = MAD (both_parts kept)) /\
        (INR (length kept) / INR (length phi) < 3 / 10 ->
           dFDFcorMAD p = MAD (map (option_map fst) FDF ++ map (option_map snd) FDF)).
  Proof.
    intros p H. destruct (measure_shape p H) as (i0 & z0 & _ & SH). cbv zeta in SH. destruct SH as (EdF & _).
    split; [intros x Hx; rewrite EdF, Hx; reflexivity|]. split; [intros Hx; rewrite EdF, Hx; reflexivity|].
    intros f Hf Hf0 Hinc. destruct (measure_noise_range p H) as (i & z & d & P & Hd & E). exists i, z, d, (Rceil (f / d)).
    assert (Dp : 0 < d).
    { destruct Hd as [Hd _]. unfold np_diff in Hd. apply in_map_iff in Hd. destruct Hd as ([a b] & <- & Hab).
      apply (In_nth _ _ (0, 0)) in Hab. destruct Hab as (k & Hk & Ek). rewrite combine_length in Hk.
      assert (Ht : length (tl phi) = (length phi - 1)%nat) by (destruct phi; simpl; lia). rewrite Ht in Hk.
      assert (a = nth k phi 0 /\ b = nth (Datatypes.S k) phi 0) as [-> ->].
      { clear -Ek Hk Ht. destruct phi as [|x t]; [simpl in Hk; lia|]. cbn [tl] in *. clear Ht. revert x k Ek Hk. clear.
        induction t as [|y t IH]; intros x k Ek Hk; [simpl in Hk; lia|]. destruct k as [|k]; [simpl in Ek; injection Ek as <- <-; auto|].
        apply (IH y k); [exact Ek|cbn [length] in *; lia]. }
      simpl. assert (nth k phi 0 < nth (Datatypes.S k) phi 0) by (apply Hinc; lia). lra. }
    split; [exact P|]. split; [exact Hd|].
    assert (RC : IZR (Rceil (f / d)) - 1 < f / d <= IZR (Rceil (f / d))).
    { unfold Rceil. rewrite opp_IZR. pose proof (Rfloor_spec (- (f / d))). lra. }
    split; [exact RC|]. cbv zeta.
    assert (W0 : (0 <= Rceil (f / d))%Z).
    { apply le_IZR. assert (0 <= f / d) by (apply Rmult_le_pos; [auto|left; apply Rinv_0_lt_compat; auto]). lra. }
    rewrite E, Hf. unfold noise_range, odiv. destruct (Req_EM_T d 0) as [?|_]; [lra|]. unfold corMAD. cbv zeta. cbn [fst snd].
    destruct P as (Hi & _). pose proof (mask_off (Z.of_nat i) (Rceil (f / d)) (length FDF) (le_n _) W0 ltac:(lia)) as MO.
    rewrite firstn_all in MO. rewrite <- !Hlen, MO. fold (off_peak FDF (Z.of_nat i) (Rceil (f / d))).
    rewrite map_length. destruct (Rlt_dec _ _) as [L|L]; split; intros HH; try lra; try reflexivity.
    unfold both_parts. rewrite !map_map. reflexivity.
  Qed.

  (** C31: bias correction *)
  Theorem measure_bias : forall p a dF, measure_FDF_parms FDF phi fw dFDF l2 lam0 snrBias = POk p ->
    ampPeakPIfit p = Some a -> dAmpPeakPIfit p = Some dF -> 0 < dF -> sqrt (23 / 10) <= snrBias ->
    exists e, ampPeakPIfitEff p = Some e /\ e <= a /\
      (snrBias * dF <= a -> 0 <= e /\ e ^ 2 + 23 / 10 * dF ^ 2 = a ^ 2) /\ (a < snrBias * dF -> e = a).
  Proof.
    intros p a dF H Ha Hd H0 Hs. destruct (measure_shape p H) as (i & z & P & S). cbv zeta in S.
    destruct S as (_ & _ & Ea & ES & _ & EE & _). rewrite Hd in *.
    rewrite Ea in Ha. destruct (the_kept i) as [[p' a']|] eqn:K; [|discriminate]. injection Ha as ->.
    destruct (kept_inv _ _ _ K) as [V _]. rewrite V in ES. rewrite EE, Ea, ES. cbn [option_map snd odiv].
    destruct (Req_EM_T dF 0) as [?|_]; [lra|]. cbn [oge].
    assert (S23 : 0 < sqrt (23 / 10)) by (apply sqrt_lt_R0; lra).
    unfold Rleb. destruct (Rle_dec snrBias (a / dF)) as [L|L].
    - assert (snrBias * dF <= a) as L'.
      { apply (Rmult_le_compat_r dF) in L; [|lra]. unfold Rdiv in L. rewrite Rmult_assoc, Rinv_l in L by lra. lra. }
      cbn [oadd osub omul o2]. assert (Hp : 23 / 10 * (dF * dF) <= a * a).
      { assert (E23 : sqrt (23 / 10) * sqrt (23 / 10) = 23 / 10) by (apply sqrt_sqrt; lra).
        assert (0 <= sqrt (23 / 10) * dF <= a) as B by nra.
        rewrite <- E23. replace (sqrt (23 / 10) * sqrt (23 / 10) * (dF * dF)) with ((sqrt (23 / 10) * dF) * (sqrt (23 / 10) * dF)) by ring.
        apply Rmult_le_compat; lra. }
      cbn [osqrt]. destruct (Rle_dec 0 (a * a - 23 / 10 * (dF * dF))) as [_|N]; [|lra].
      eexists. split; [reflexivity|]. split; [|split].
      + apply Rle_trans with (sqrt (a * a)); [apply sqrt_le_1_alt; nra|]. rewrite sqrt_square by nra. lra.
      + intros _. split; [apply sqrt_pos|]. simpl. rewrite Rmult_1_r, sqrt_sqrt by lra. ring.
      + intros. lra.
    - eexists. split; [reflexivity|]. split; [lra|]. split; [|auto]. intros L'. exfalso. apply L.
      apply (Rmult_le_reg_r dF); [lra|]. unfold Rdiv. rewrite Rmult_assoc, Rinv_l by lra. lra.
  Qed.

  (** C31: errors *)
  Theorem measure_errors : forall p a dF f, measure_FDF_parms FDF phi fw dFDF l2 lam0 snrBias = POk p ->
    ampPeakPIfit p = Some a -> dAmpPeakPIfit p = Some dF -> fw = Some f -> 0 < a -> 0 <= dF ->
    snrPIfit p = (if Req_EM_T dF 0 then None else Some (a / dF)) /\
    dPhiPeakPIfit p = Some (f * (dF / (2 * a))) /\ dPolAngleFit_deg p = Some (180 / PI * (dF / (2 * a))) /\
    ((2 < length l2)%nat ->
     0 < sample_variance l2 ->
     let n := INR (length l2) in
     let e := 180 / PI * (dF / (2 * a)) * sqrt (n / (n - 2) * ((n - 1) / n + lam0 ^ 2 / sample_variance l2)) in
     dPolAngle0Fit_deg p = Some e /\ 180 / PI * (dF / (2 * a)) <= e).
  Proof.
    intros p a dF f H Ha Hd Hf Ha0 Hd0. destruct (measure_shape p H) as (i & z & P & S). cbv zeta in S.
    destruct S as (_ & _ & Ea & ES & EP & _ & _ & _ & _ & _ & EA & _ & E0). rewrite Hd, Hf in *. pose proof Ha as Ha'. rewrite Ha in *.
    destruct (the_kept i) as [[p' a']|] eqn:K; [|discriminate]. injection Ea as <-.
    destruct (kept_inv _ _ _ K) as [V _]. rewrite V in ES. pose proof PI_RGT_0 as HPI. split; [|split; [|split]].
    - rewrite ES. reflexivity.
    - rewrite EP. cbn [omul o2 odiv]. destruct (Req_EM_T (2 * a) 0) as [?|_]; [lra|]. f_equal. field. lra.
    - rewrite EA. cbn [omul o2 odiv]. destruct (Req_EM_T (2 * a) 0) as [?|_]; [lra|]. cbn [option_map]. f_equal. unfold degrees. field. lra.
    - intros HN Hvar. cbv zeta. rewrite E0. clear E0 EA EP ES. pose proof (sample_variance_sums l2) as SV. set (N := INR (length l2)) in *.
      assert (3 <= N) as HN3. { unfold N. replace 3 with (INR 3) by (simpl; lra). apply le_INR. lia. }
      specialize (SV ltac:(lra)). set (v := sample_variance l2) in *.
      set (s2 := rsum (map (fun l => l ^ 2) l2)) in *. set (s1 := rsum l2) in *.
      cbn [omul osub oadd o2 odiv]. destruct (Req_EM_T N 0) as [?|_]; [lra|]. destruct (Req_EM_T (N - 1) 0) as [?|_]; [lra|].
      destruct (Req_EM_T (4 * (N - 2) * (a * a)) 0) as [E|_]; [exfalso; nra|].
      cbn [omul osub oadd o2 odiv].
      destruct (Req_EM_T (N - 1) 0) as [?|_]; [lra|].
      replace ((s2 - s1 ^ 2 / N) / (N - 1)) with v by (rewrite SV; field; lra).
      cbn [odiv]. destruct (Req_EM_T v 0) as [?|_]; [lra|]. cbn [o2].
      set (g := N / (N - 2) * ((N - 1) / N + lam0 ^ 2 / v)). assert (Hq : 0 <= lam0 ^ 2 / v) by (apply Rmult_le_pos; [apply pow2_ge_0|left; apply Rinv_0_lt_compat; lra]).
      assert (Hg : 1 <= g).
      { unfold g. apply Rle_trans with (N / (N - 2) * ((N - 1) / N)).
        - replace (N / (N - 2) * ((N - 1) / N)) with ((N - 1) / (N - 2)) by (field; lra). apply (Rmult_le_reg_r (N - 2)); [lra|]. unfold Rdiv. rewrite Rmult_assoc, Rinv_l by lra. lra.
        - apply Rmult_le_compat_l; [|lra]. apply Rmult_le_pos; [lra|]. left. apply Rinv_0_lt_compat. lra. }
      assert (Hd2 : 0 <= dF / (2 * a)) by (apply Rmult_le_pos; [lra|left; apply Rinv_0_lt_compat; lra]).
      replace (dF * dF * N / (4 * (N - 2) * (a * a)) * ((N - 1) / N + lam0 ^ 2 / v)) with ((dF / (2 * a)) ^ 2 * g) by (unfold g; field; lra).
      assert (0 <= (dF / (2 * a)) ^ 2 * g) by (apply Rmult_le_pos; [apply pow2_ge_0|lra]).
      cbn [osqrt]. destruct (Rle_dec 0 ((dF / (2 * a)) ^ 2 * g)) as [_|?]; [|contradiction]. cbn [option_map].
      rewrite sqrt_mult_alt by apply pow2_ge_0. rewrite sqrt_pow2 by exact Hd2. split.
      + f_equal. unfold degrees. field. lra.
      + rewrite <- (Rmult_1_r (180 / PI * (dF / (2 * a)))) at 1. apply Rmult_le_compat_l.
        * apply Rmult_le_pos; [|exact Hd2]. apply Rmult_le_pos; [lra|left; apply Rinv_0_lt_compat; lra].
        * rewrite <- sqrt_1 at 1. apply sqrt_le_1_alt. exact Hg.
  Qed.

  (** a single symmetric peak at a grid depth is measured exactly *)
  Theorem measure_exact : forall phi0 d, 0 < d -> uniform phi phi0 d ->
    forall i z z1 z3, (0 < i < length phi - 1)%nat -> nth i FDF None = Some z -> z <> RtoC 0 ->
    nth (i - 1) FDF None = Some z1 -> nth (i + 1) FDF None = Some z3 -> Cmod z1 = Cmod z3 -> Cmod z1 < Cmod z ->
    (forall j w, (0 < j < length phi - 1)%nat -> j <> i -> nth j FDF None = Some w -> Cmod w < Cmod z) ->
    exists p a, measure_FDF_parms FDF phi fw dFDF l2 lam0 snrBias = POk p /\
      phiPeakPIfit p = Some (nth i phi 0) /\ ampPeakPIfit p = Some (Cmod z) /\ indxPeakPIfit p = Some (INR i) /\
      peakFDFrealFit p = Some (fst z) /\ peakFDFimagFit p = Some (snd z) /\
      polAngleFit_deg p = Some a /\ 0 <= a < 180 /\ orientation z a /\
      exists a0, polAngle0Fit_deg p = Some a0 /\ 0 <= a0 < 180 /\ same_angle a0 (a - nth i phi 0 * lam0 * 180 / PI).
  Proof.
    intros phi0 d Hd Hu i z z1 z3 Hi Ez Hz E1 E3 Es Hlt Ho.
    destruct measure_defined as [p H]; [exists i, z; auto|].
    pose proof (measure_angles p H) as [A1 A2].
    destruct (measure_shape p H) as (i' & z' & P & S). cbv zeta in S.
    assert (i' = i) as ->.
    { destruct P as (Hi' & Ez' & Hm & _). destruct (Nat.eq_dec i' i); auto. exfalso.
      pose proof (Ho i' z' Hi' n0 Ez'). pose proof (Hm i z Hi Ez). lra. }
    assert (INC : increasing phi).
    { intros j k Hjk. rewrite !Hu by lia. assert (INR j < INR k) by (apply lt_INR; lia). nra. }
    assert (V : the_vertex i = Some (nth i phi 0, Cmod z)).
    { unfold the_vertex, amp. rewrite E1, Ez, E3. cbn [option_map].
      replace (nth (i - 1) phi 0) with (nth i phi 0 - d).
      2:{ rewrite !Hu by lia. rewrite minus_INR by lia. simpl (INR 1). ring. }
      replace (nth (i + 1) phi 0) with (nth i phi 0 + d).
      2:{ rewrite !Hu by lia. rewrite plus_INR. simpl (INR 1). ring. }
      rewrite Es. apply vertex_symmetric; auto; [|lra]. apply Rgt_not_eq, Cmod_gt_0, Hz. }
    assert (K : the_kept i = Some (nth i phi 0, Cmod z)).
    { unfold the_kept. rewrite V. destruct (rmax_list (map Rabs phi)) as [m|] eqn:Em.
      - apply rmax_list_spec in Em. destruct Em as [_ Mm].
        assert (Rabs (nth i phi 0) <= m) by (apply Mm, in_map, nth_In; lia).
        destruct (Rltb m (Rabs (nth i phi 0))) eqn:El; auto. apply Rltb_true in El. lra.
      - destruct phi; [simpl in Hi; lia|discriminate]. }
    destruct S as (_ & Eph & Ea & _ & _ & _ & EI & Eim & Ere & EA & _ & E0 & _).
    rewrite K in Eph, Ea. cbn [option_map fst snd] in Eph, Ea. rewrite Eph in EI, Eim, Ere. cbn [np_interp_x] in *.
    assert (Nxt : nth (Datatypes.S i) FDF None = Some z3) by (replace (Datatypes.S i) with (i + 1)%nat by lia; exact E3).
    rewrite interp_node in EI; auto; try lia; [|rewrite map_length, seq_length; auto|].
    2:{ rewrite (nth_map_lt _ _ _ _ 0%nat) by (rewrite seq_length; lia). discriminate. }
    rewrite (nth_map_lt _ _ _ _ 0%nat), seq_nth in EI by (try rewrite seq_length; lia).
    rewrite interp_node in Ere; auto; try lia; [|rewrite map_length; auto|].
    2:{ rewrite nth_omap, Nxt. discriminate. }
    rewrite interp_node in Eim; auto; try lia; [|rewrite map_length; auto|].
    2:{ rewrite nth_omap, Nxt. discriminate. }
    rewrite nth_omap, Ez in Ere. rewrite nth_omap, Ez in Eim. cbn [option_map] in Ere, Eim.
    rewrite Ere, Eim in EA. rewrite EA, Eph in E0.
    exists p, (angle_of (snd z) (fst z)). destruct (angle_of_orientation (snd z) (fst z)) as [R1 R2].
    rewrite <- surjective_pairing in R2.
    do 8 (split; [solve [assumption | apply H]|]). split; [exact R2|].
    destruct (A2 _ E0) as (R3 & a & q & Ea' & Eq' & SA). rewrite EA in Ea'. injection Ea' as <-. rewrite Eph in Eq'. injection Eq' as <-.
    eexists. split; [exact E0|]. split; auto.
  Qed.
End Measure.

(* ---------------------------------------------------------------- thin source *)

Lemma RMSF_even : forall chs l0 f, Cmod (RMSF_spec chs l0 (- f)) = Cmod (RMSF_spec chs l0 f).
Proof. intros. rewrite RMSF_conj. unfold Cmod, Cconj. simpl. f_equal. ring. Qed.

(** C31 with C02: a noise-free Faraday-thin source at a depth of the grid that
    is not an edge, not aliased on the grid, is measured exactly. *)
Theorem thin_measured : forall dataQ dataU l2 phi wA lam0in p amp psi RM phi0 d i c1 c2 fw dF sb,
  valid_synth dataQ dataU l2 wA -> antisym phi -> nonneg_w wA -> 0 < amp ->
  (p < npix dataQ)%nat -> thin_pixel dataQ dataU l2 p amp psi RM ->
  0 < d -> uniform phi phi0 d -> (0 < i < length phi - 1)%nat -> nth i phi 0 = RM ->
  let chs := pixel_chans (length l2) (npix dataQ) (flat dataQ) (flat dataU) l2 (weights_of (length l2) wA) p in
  In c1 chs -> In c2 chs -> 0 < c_w c1 -> 0 < c_w c2 -> c_l2 c1 <> c_l2 c2 ->
  (forall k, (k < length phi)%nat -> Rabs (nth k phi 0 - RM) * Rabs (c_l2 c1 - c_l2 c2) < PI) ->
  exists r s a a0, do_rmsynth_planes dataQ dataU l2 phi wA lam0in = Some r /\
    measure_FDF_parms (map (fun k => at2 (npix dataQ) None (flat (FDFcube r)) k p) (seq 0 (length phi))) phi fw dF l2 (synth_lam0 r) sb = POk s /\
    phiPeakPIfit s = Some RM /\ ampPeakPIfit s = Some amp /\
    polAngleFit_deg s = Some a /\ 0 <= a < 180 /\ same_angle a ((psi + RM * synth_lam0 r) * 180 / PI) /\
    polAngle0Fit_deg s = Some a0 /\ 0 <= a0 < 180 /\ same_angle a0 (psi * 180 / PI).
Proof.
  intros dataQ dataU l2 phi wA lam0in p amp psi RM phi0 d i c1 c2 fw dF sb V AS NW Ha Hp TP Hd Hu Hi HRM chs I1 I2 W1 W2 Hne Hal.
  assert (NN : forall c, In c chs -> 0 <= c_w c).
  { intros c Hc. unfold chs, pixel_chans in Hc. apply in_flat_map in Hc. destruct Hc as (j & _ & Hc).
    destruct (nth _ (flat dataQ) None); [|destruct Hc]. destruct (nth _ (flat dataU) None); [|destruct Hc].
    destruct Hc as [<-|[]]. simpl. change weights_of with prep_weights. now apply prep_nonneg. }
  assert (WP : 0 < wsum chs).
  { destruct (in_take _ chs I1) as [rest [Q1 [_ [_ Q4]]]]. unfold wsum. rewrite Q4.
    assert (0 <= rsum (map c_w rest)); [|lra]. apply rsum_nonneg. intros x Hx. apply in_map_iff in Hx. destruct Hx as [c [<- Hc]]. auto. }
  destruct (synth_thin_source dataQ dataU l2 phi wA lam0in p amp psi RM V AS NW (Rlt_le _ _ Ha) Hp TP WP) as (r & Er & F1 & F2).
  cbv zeta in F1, F2. set (F k := at2 (npix dataQ) None (flat (FDFcube r)) k p) in *.
  fold chs in F1. set (l0 := synth_lam0 r) in *.
  destruct (F2 i ltac:(lia) HRM Ha) as (z & Fi & Ez & Mz).
  assert (ALL : forall k, (k < length phi)%nat -> exists w, F k = Some w).
  { intros k Hk. destruct (synth_refines dataQ dataU l2 phi wA lam0in V AS) as (r' & Er' & _ & G). rewrite Er in Er'. injection Er' as <-.
    cbv zeta in G. destruct (G k p Hk Hp) as [_ G1]. destruct (G i p ltac:(lia) Hp) as [_ G2]. fold chs in G1, G2.
    destruct (G1 ltac:(lra)) as [G1' _]. destruct (G2 ltac:(lra)) as [G2' _].
    change (at2 (npix dataQ) None (flat (FDFcube r)) k p) with (F k) in G1'.
    change (at2 (npix dataQ) None (flat (FDFcube r)) i p) with (F i) in G2'.
    destruct (F k) as [w|] eqn:Ek; [eauto|]. exfalso.
    assert (F i = None) as EN by (apply G2', G1'; reflexivity). change (F i = Some z) in Fi. rewrite EN in Fi. discriminate. }
  assert (LT : forall k w, (k < length phi)%nat -> k <> i -> F k = Some w -> Cmod w < Cmod z).
  { intros k w Hk Hki Ek. destruct (F1 k w Hk Ek) as [-> _]. rewrite !Cmod_mult, Cmod_cis, Cmod_R, Rabs_pos_eq, Mz by lra.
    assert (Hd1 : nth k phi 0 - RM <> 0).
    { rewrite <- HRM, !Hu by lia. intros E. apply Hki. apply INR_eq. nra. }
    assert (Cmod (RMSF_spec chs l0 (nth k phi 0 - RM)) < 1); [|nra].
    apply (RMSF_lt_1 chs l0 _ _ _ NN I1 I2); auto. apply cos_lt_1.
    - apply Rmult_integral_contrapositive_currified; [|lra]. apply Rmult_integral_contrapositive_currified; lra.
    - rewrite !Rabs_mult, (Rabs_pos_eq 2) by lra. specialize (Hal k Hk). lra. }
  set (FDF := map F (seq 0 (length phi))).
  assert (NT : forall k, (k < length phi)%nat -> nth k FDF None = F k) by (intros k Hk; apply nth_map_seq; auto).
  destruct (ALL (i - 1)%nat ltac:(lia)) as (z1 & E1). destruct (ALL (i + 1)%nat ltac:(lia)) as (z3 & E3).
  assert (Es : Cmod z1 = Cmod z3).
  { destruct (F1 (i - 1)%nat z1 ltac:(lia) E1) as [-> _]. destruct (F1 (i + 1)%nat z3 ltac:(lia) E3) as [-> _]. rewrite !Cmod_mult. f_equal.
    rewrite <- HRM, !Hu, minus_INR, plus_INR by lia. simpl (INR 1).
    replace (phi0 + (INR i - 1) * d - (phi0 + INR i * d)) with (- (phi0 + (INR i + 1) * d - (phi0 + INR i * d))) by ring.
    apply RMSF_even. }
  destruct (measure_exact FDF phi fw dF l2 l0 sb ltac:(unfold FDF; now rewrite map_length, seq_length) phi0 d Hd Hu i z z1 z3 Hi)
    as (s & a & M & P1 & P2 & _ & _ & _ & P3 & P4 & P5 & a0 & P6 & P7 & P8).
  - rewrite NT by lia. exact Fi.
  - intros E0. rewrite E0, Cmod_0 in Mz. lra.
  - rewrite NT by lia. exact E1.
  - rewrite NT by lia. exact E3.
  - exact Es.
  - apply (LT (i - 1)%nat); auto; lia.
  - intros j w Hj Hne' Ew. rewrite NT in Ew by lia. apply (LT j); auto; lia.
  - assert (SA : same_angle a ((psi + RM * l0) * 180 / PI)).
    { apply (orientation_unique z); auto.
      - intros E0. rewrite E0, Cmod_0 in Mz. lra.
      - exists amp. split; [lra|]. rewrite Ez. do 2 f_equal. field. apply PI_neq0. }
    exists r, s, a, a0. rewrite HRM in P1, P8. rewrite Mz in P2. do 7 (split; [solve [auto]|]). do 2 (split; [solve [auto]|]).
    eapply same_angle_trans; [exact P8|]. eapply same_angle_trans; [apply (same_angle_plus a _ (- (RM * l0 * 180 / PI)) SA)|].
    exists 0%Z. field. apply PI_neq0.
Qed.
