(** One pixel of RM-CLEAN in an accurate arithmetic: runs and conservation. *)
From Coq Require Import Reals List Arith ZArith Bool Lia Lra Psatz.
Set Warnings "-ambiguous-paths".
From Coquelicot Require Import Coquelicot.
From Verif Require Import PyRes CBase NdArray PyList PyList_Proofs Synth_Model Clean_Model Clean_Spec Clean_Proofs Cf_Arith Cf_Model Cf_Spec Cf_Round.
Import ListNotations.
Local Open Scope R_scope.

Section Pixel.
  Variables (a : arith) (RMSF : list C) (phi : list R) (fwhm gain : R) (imax pad : nat).
  Let n := length phi.
  Let sh := shifted RMSF imax pad.
  Let step := step_fl a RMSF phi fwhm gain imax pad.

  Lemma fl_step_spec : forall i s s', wf_cst phi s -> (i < n)%nat -> step i s = POk s' ->
    wf_cst phi s' /\ iters s' = S (iters s) /\
    let CC := a_scal a gain (nth i (resid s) czero) in
    forall j, (j < n)%nat ->
      nth j (resid s') czero = a_sub a (nth j (resid s) czero) (a_mul a CC (nth j (sh i) czero)) /\
      nth j (cc s') czero = (if Nat.eqb j i then a_add a (nth j (cc s) czero) CC else nth j (cc s) czero) /\
      nth j (cln s') czero = a_add a (nth j (cln s) czero) (a_gauss a CC (nth i phi 0) fwhm (nth j phi 0)).
  Proof.
    intros i s s' [W1 [W2 W3]] Hi. unfold step, step_fl. fold sh.
    destruct (Nat.eqb_spec (length (sh i)) (length (resid s))) as [E|E]; simpl; [|discriminate].
    intros H. injection H as H. subst s'. unfold wf_cst; simpl. unfold n in Hi.
    rewrite !map_length, !combine_length, length_upd.
    split; [repeat split; lia|]. split; [reflexivity|].
    intros j Hj. unfold n in Hj. repeat split.
    - rewrite (nth_map_combine _ _ _ _ _ czero czero) by lia. reflexivity.
    - rewrite nth_upd by lia. destruct (Nat.eqb_spec j i).
      + subst. reflexivity.
      + reflexivity.
    - rewrite (nth_map_combine _ _ _ _ _ czero 0) by lia. reflexivity.
  Qed.

  (** a run: the components subtracted, the latest first *)
  Inductive run (P : nat -> Prop) : cst -> list (nat * C) -> cst -> Prop :=
  | run_nil : forall s, run P s [] s
  | run_step : forall s T s' s'' i, run P s T s' -> (i < n)%nat -> P i -> step i s' = POk s'' ->
      run P s ((i, a_scal a gain (nth i (resid s') czero)) :: T) s''.

  Lemma run_app : forall P s1 T s2 T' s3, run P s1 T s2 -> run P s2 T' s3 -> run P s1 (T' ++ T) s3.
  Proof. intros P s1 T s2 T' s3 H12 H. induction H; cbn [app]; auto. apply run_step; auto. Qed.

  Lemma run_mono : forall (P Q : nat -> Prop) s T s', (forall i, P i -> Q i) -> run P s T s' -> run Q s T s'.
  Proof. intros P Q s T s' H RR. induction RR; [constructor|]. apply run_step; auto. Qed.

  Lemma run_wf : forall P s T s', wf_cst phi s -> run P s T s' -> wf_cst phi s'.
  Proof. intros P s T s' W RR. induction RR; auto. exact (proj1 (fl_step_spec i s' s'' (IHRR W) H H1)). Qed.

  Lemma run_iters : forall P s T s', wf_cst phi s -> run P s T s' -> (iters s' = iters s + length T)%nat.
  Proof.
    intros P s T s' W RR. induction RR; [cbn; lia|]. pose proof (run_wf _ _ _ _ W RR) as W'.
    destruct (fl_step_spec i s' s'' W' H H1) as [_ [E _]]. cbn [length]. specialize (IHRR W). lia.
  Qed.

  Lemma run_chans : forall P s T s' t, run P s T s' -> In t T -> (fst t < n)%nat /\ P (fst t).
  Proof. intros P s T s' t RR. induction RR; intros []; auto. subst t. auto. Qed.

  (* ------------------------------------------------ maximum of the moduli *)
  Lemma maxabs_fl_ge : forall l z, In z l -> a_abs a z <= maxabs_fl a l.
  Proof.
    induction l; simpl; intros z []; [subst; apply Rmax_l|]. eapply Rle_trans; [now apply IHl|apply Rmax_r].
  Qed.
  Lemma argmax_fl_spec : forall l r, argmax_fl a l = Some r ->
    (r < length l)%nat /\ forall j, (j < length l)%nat -> a_abs a (nth j l czero) <= a_abs a (nth r l czero).
  Proof.
    intros l r H. unfold argmax_fl in H.
    apply (argmax_spec _ (fun x y => a_abs a x <= a_abs a y)) with (d := czero) in H; auto; unfold Rltb.
    - intros; lra.
    - intros; lra.
    - intros x y; destruct Rlt_dec; [lra|discriminate].
    - intros x y; destruct Rlt_dec; [discriminate|lra].
  Qed.
  Lemma maxabs_fl_attained : forall l, (forall z, 0 <= a_abs a z) -> l <> [] -> exists z, In z l /\ maxabs_fl a l = a_abs a z.
  Proof.
    intros l HA. induction l as [|x l IH]; intros H; [congruence|]. destruct l as [|y l].
    - exists x. simpl. split; auto. apply Rmax_left, HA.
    - destruct IH as [z [Hz E]]; [discriminate|]. change (maxabs_fl a (x :: y :: l)) with (Rmax (a_abs a x) (maxabs_fl a (y :: l))).
      unfold Rmax. destruct Rle_dec; [exists z; split; [now right|auto]|exists x; split; [now left|auto]].
  Qed.
  Lemma argmax_fl_max : forall l r, (forall z, 0 <= a_abs a z) -> argmax_fl a l = Some r -> a_abs a (nth r l czero) = maxabs_fl a l.
  Proof.
    intros l r HA H. destruct (argmax_fl_spec l r H) as [H1 H2].
    destruct (maxabs_fl_attained l HA) as [z [Hz E]]; [destruct l; simpl in *; [lia|discriminate]|].
    apply Rle_antisym; [apply maxabs_fl_ge; now apply nth_In|].
    rewrite E. destruct (In_nth l z czero Hz) as [j [Hj Ej]]. rewrite <- Ej. now apply H2.
  Qed.

  (* ------------------------------------------------------------ the loops *)
  Lemma loop1_run : forall cutoff rem s s', wf_cst phi s -> loop1_fl a RMSF phi fwhm gain imax pad cutoff rem s = POk s' ->
    exists T, run (fun _ => True) s T s' /\ (length T <= rem)%nat /\ (length T = rem \/ maxabs_fl a (resid s') < cutoff).
  Proof.
    induction rem as [|rem IH]; intros s s' W H; simpl in H.
    - injection H as <-. exists []. repeat split; [constructor|cbn; lia|left; reflexivity].
    - destruct (Rle_dec cutoff (maxabs_fl a (resid s))) as [Hc|Hc].
      + destruct (argmax_fl a (resid s)) as [i|] eqn:Ea; [|discriminate].
        destruct (step_fl a RMSF phi fwhm gain imax pad i s) as [s1|] eqn:Es; [|discriminate].
        apply argmax_fl_spec in Ea. destruct Ea as [Hi _].
        assert (Hi' : (i < n)%nat) by (destruct W as [W _]; unfold n; lia).
        destruct (fl_step_spec i s s1 W Hi' Es) as [W1 _].
        destruct (IH s1 s' W1 H) as (T & RR & L & D). eexists. split.
        * eapply run_app; [|exact RR]. eapply run_step; [apply run_nil|exact Hi'|exact Logic.I|exact Es].
        * rewrite app_length. cbn [length]. split; [lia|]. destruct D; [left; lia|right; auto].
      + injection H as <-. exists []. repeat split; [constructor|cbn; lia|right; lra].
  Qed.

  Lemma loop2_run : forall window mask rem s s', wf_cst phi s -> length mask = n ->
    loop2_fl a RMSF phi fwhm gain imax pad window mask rem s = POk s' ->
    exists T, run (fun j => nth j mask false = true) s T s' /\ (length T <= rem)%nat /\
     (length T = rem \/ match window with None => s' = s
      | Some w => open_chans mask = [] \/ maxabs_fl a (map (fun j => nth j (resid s') czero) (open_chans mask)) < w end).
  Proof.
    induction rem as [|rem IH]; intros s s' W HM H; simpl in H.
    - injection H as <-. exists []. repeat split; [constructor|cbn; lia|left; reflexivity].
    - destruct window as [w|].
      2:{ injection H as <-. exists []. repeat split; [constructor|cbn; lia|right; auto]. }
      destruct (argmax_fl a (map _ (open_chans mask))) as [k|] eqn:Ea.
      + destruct (Rle_dec w _) as [Hc|Hc].
        * destruct (step_fl a RMSF phi fwhm gain imax pad (nth k (open_chans mask) 0%nat) s) as [s1|] eqn:Es; [|discriminate].
          apply argmax_fl_spec in Ea. destruct Ea as [Ha _]. rewrite map_length in Ha.
          assert (Hin : In (nth k (open_chans mask) 0%nat) (open_chans mask)) by (apply nth_In; auto).
          apply in_open in Hin. rewrite HM in Hin.
          destruct (fl_step_spec _ s s1 W (proj1 Hin) Es) as [W1 _].
          destruct (IH s1 s' W1 HM H) as (T & RR & L & D). eexists. split.
          -- eapply run_app; [|exact RR]. eapply run_step; [apply run_nil|apply Hin|apply Hin|exact Es].
          -- rewrite app_length. cbn [length]. split; [lia|]. destruct D; [left; lia|right; auto].
        * injection H as <-. exists []. repeat split; [constructor|cbn; lia|right; right]. unfold czero. lra.
      + injection H as <-. exists []. repeat split; [constructor|cbn; lia|right; left].
        destruct (open_chans mask); [auto|discriminate].
  Qed.

  Lemma length_mask_fl : forall ends ccs, length (mask_fl a ends ccs) = length ccs.
  Proof. intros. unfold mask_fl. now rewrite map_length, seq_length. Qed.
End Pixel.

Lemma cleanloop_fl_run : forall a ends dirty RMSF phi fwhm gain cutoff window maxIter s imax,
  length dirty = length phi -> argmax cltb RMSF = Some imax ->
  cleanloop_fl a ends dirty RMSF phi fwhm gain cutoff window maxIter = POk s ->
  exists T, run a RMSF phi fwhm gain imax (Nat.div2 (length RMSF - length phi)) (fun _ => True) (init_cst dirty) T s /\
    wf_cst phi s /\ iters s = length T /\ (length T <= maxIter)%nat.
Proof.
  intros a ends dirty RMSF phi fwhm gain cutoff window maxIter s imax HL HI H. unfold cleanloop_fl in H. rewrite HI in H.
  fold (init_cst dirty) in H. destruct (loop1_fl _ _ _ _ _ _ _ _ _ _) as [s1|] eqn:E1; [|discriminate].
  destruct (Nat.ltb (length phi) 2); [discriminate|].
  pose proof (init_wf phi dirty HL) as W0.
  destruct (loop1_run _ _ _ _ _ _ _ _ _ _ _ W0 E1) as (T1 & R1 & L1 & _).
  pose proof (run_wf _ _ _ _ _ _ _ _ _ _ _ W0 R1) as W1.
  pose proof (run_iters _ _ _ _ _ _ _ _ _ _ _ W0 R1) as I1. cbn [iters init_cst] in I1.
  assert (HM : length (mask_fl a ends (cc s1)) = length phi) by (rewrite length_mask_fl; apply W1).
  destruct (loop2_run _ _ _ _ _ _ _ _ _ _ _ _ W1 HM H) as (T2 & R2 & L2 & _).
  assert (RR : run a RMSF phi fwhm gain imax (Nat.div2 (length RMSF - length phi)) (fun _ => True) (init_cst dirty) (T2 ++ T1) s).
  { eapply run_app; [exact R1|]. eapply run_mono; [|exact R2]. auto. }
  exists (T2 ++ T1). split; [exact RR|]. split; [eapply run_wf; eauto|]. split.
  - pose proof (run_iters _ _ _ _ _ _ _ _ _ _ _ W0 RR) as I. cbn [iters init_cst] in I. lia.
  - rewrite app_length. lia.
Qed.

(* ------------------------------------------------------- sums over a trace *)
Lemma total_cons : forall t T, total (t :: T) = Cmod (snd t) + total T. Proof. reflexivity. Qed.
Lemma total_ge0 : forall T, 0 <= total T.
Proof. induction T as [|t T IH]; [cbn; lra|]. rewrite total_cons. generalize (Cmod_ge_0 (snd t)). lra. Qed.
Lemma size_cons : forall t T i, size_at (t :: T) i = (if Nat.eqb (fst t) i then Cmod (snd t) else 0) + size_at T i. Proof. reflexivity. Qed.
Lemma size_ge0 : forall T i, 0 <= size_at T i.
Proof. induction T as [|t T IH]; intros i; [cbn; lra|]. rewrite size_cons. specialize (IH i). generalize (Cmod_ge_0 (snd t)). destruct (Nat.eqb (fst t) i); lra. Qed.
Lemma at_cons : forall t T i, at_chan (t :: T) i = ((if Nat.eqb (fst t) i then snd t else czero) + at_chan T i)%C. Proof. reflexivity. Qed.

Lemma rsum_pick : forall (x : R) i k, (i < k)%nat -> rsum (map (fun j => if Nat.eqb i j then x else 0) (seq 0 k)) = x.
Proof.
  intros x i k H. replace (seq 0 k) with (seq 0 i ++ i :: seq (S i) (k - S i)).
  - rewrite map_app, rsum_app. simpl. rewrite rsum_cons, Nat.eqb_refl.
    assert (Z : forall l, ~ In i l -> rsum (map (fun j => if Nat.eqb i j then x else 0) l) = 0).
    { induction l as [|b l IH]; intros N; [reflexivity|]. cbn [map]. rewrite rsum_cons. destruct (Nat.eqb_spec i b) as [->|].
      - exfalso. apply N. now left.
      - rewrite IH; [lra|]. intros HH. apply N. now right. }
    rewrite !Z; [lra| |]; rewrite in_seq; lia.
  - replace k with (i + S (k - S i))%nat at 2 by lia. rewrite seq_app. reflexivity.
Qed.

Lemma rsum_map_plus : forall {A} (f g : A -> R) l, rsum (map (fun x => f x + g x) l) = rsum (map f l) + rsum (map g l).
Proof. induction l as [|x l IH]; cbn [map]; [unfold rsum; cbn; lra|]. rewrite !rsum_cons, IH. lra. Qed.

Lemma size_total : forall T k, (forall t, In t T -> (fst t < k)%nat) -> rsum (map (size_at T) (seq 0 k)) = total T.
Proof.
  induction T as [|t T IH]; intros k H.
  - cbn. induction (seq 0 k) as [|x l IHl]; [reflexivity|]. cbn [map]. rewrite rsum_cons, IHl. unfold size_at. cbn. lra.
  - rewrite (map_ext _ (fun i => (if Nat.eqb (fst t) i then Cmod (snd t) else 0) + size_at T i)) by (intros; apply size_cons).
    rewrite rsum_map_plus, IH, rsum_pick; [reflexivity| |]; [apply H; now left|intros; apply H; now right].
Qed.

Lemma csum_minus : forall {A} (f g : A -> C) l, csum (map (fun x => f x - g x)%C l) = (csum (map f l) - csum (map g l))%C.
Proof. induction l as [|x l IH]; cbn [map]; [unfold csum; cbn; ring|]. rewrite !csum_cons, IH. ring. Qed.

Lemma csum_pick : forall (f : nat -> C) i k, (i < k)%nat -> csum (map (fun j => if Nat.eqb i j then f j else czero) (seq 0 k)) = f i.
Proof.
  intros f i k H. rewrite <- (csum_one nil f i k H). apply csum_map_ext. intros x _. now rewrite Nat.eqb_sym.
Qed.

(** sum over components = sum over channels *)
Lemma trace_sum : forall (f : nat -> C) T k, (forall t, In t T -> (fst t < k)%nat) ->
  csum (map (fun t => snd t * f (fst t))%C T) = csum (map (fun i => at_chan T i * f i)%C (seq 0 k)).
Proof.
  intros f. induction T as [|t T IH]; intros k H.
  - rewrite (csum_zero (fun i => at_chan [] i * f i)%C); [reflexivity|]. intros x _. unfold at_chan. cbn [map]. unfold csum. cbn [fold_right]. ring.
  - cbn [map]. rewrite csum_cons, (IH k) by (intros; apply H; now right).
    rewrite (csum_map_ext (fun i => at_chan (t :: T) i * f i)%C (fun i => (if Nat.eqb (fst t) i then snd t * f i else czero) + at_chan T i * f i)%C).
    + rewrite csum_map_plus, (csum_pick (fun i => snd t * f i)%C); [reflexivity|]. apply H. now left.
    + intros i _. rewrite at_cons. destruct (Nat.eqb (fst t) i); unfold czero; ring.
Qed.

(* -------------------------------------------------------------- roundings *)
Lemma grown_step : forall u k, 0 <= u -> grown u k * (1 + u) + u * (1 + u) ^ k <= grown u (S k) /\ grown u k + u * (1 + u) ^ k <= grown u (S k) /\ 0 <= grown u k.
Proof.
  intros u k Hu. unfold grown. rewrite S_INR. cbn [pred]. pose proof (pos_INR k) as Pk.
  assert (P1 : 1 <= (1 + u) ^ k) by (apply pow_R1_Rle; lra). destruct k as [|k].
  - cbn [pred INR pow]. split; [lra|]. split; lra.
  - cbn [pred] in *. replace ((1 + u) ^ S k) with ((1 + u) * (1 + u) ^ k) by reflexivity. set (q := (1 + u) ^ k).
    assert (Q : 0 < q) by (apply pow_lt; lra). set (K := INR (S k)) in *. split; [lra|]. split.
    + assert (K * u * q <= K * u * ((1 + u) * q)); [|lra]. apply Rmult_le_compat_l; [apply Rmult_le_pos; lra|]. nra.
    + apply Rmult_le_pos; [apply Rmult_le_pos; lra|lra].
Qed.

(** A quantity updated by x' = fl(x + y) for summands with |y - t| <= m |t|:
    its distance from the exact sum of the t. *)
Lemma accumulate : forall (u m x0 : R) (x y t z0 : C) (S0 : R) k x1, 0 <= u -> 0 <= m ->
  Cmod x <= (1 + u) ^ k * (x0 + (1 + m) * S0) -> Cmod (x - z0)%C <= grown u k * (x0 + (1 + m) * S0) + m * S0 -> 0 <= x0 -> 0 <= S0 ->
  Cmod (y - t)%C <= m * Cmod t -> Cmod (x1 - (x + y))%C <= u * Cmod (x + y)%C ->
  Cmod x1 <= (1 + u) ^ S k * (x0 + (1 + m) * (S0 + Cmod t)) /\
  Cmod (x1 - (z0 + t))%C <= grown u (S k) * (x0 + (1 + m) * (S0 + Cmod t)) + m * (S0 + Cmod t).
Proof.
  intros u m x0 x y t z0 S0 k x1 Hu Hm HX HD Hx0 HS HY HR.
  assert (Y : Cmod y <= (1 + m) * Cmod t).
  { replace y with (t + (y - t))%C by ring. eapply Rle_trans; [apply Cmod_triangle|]. lra. }
  pose proof (Cmod_ge_0 t) as T0. pose proof (Cmod_triangle x y) as XY.
  assert (P1 : 1 <= (1 + u) ^ k) by (apply pow_R1_Rle; lra).
  assert (G : Cmod (x + y)%C <= (1 + u) ^ k * (x0 + (1 + m) * (S0 + Cmod t))).
  { assert ((1 + m) * Cmod t <= (1 + u) ^ k * ((1 + m) * Cmod t)) by (rewrite <- (Rmult_1_l ((1 + m) * Cmod t)) at 1; apply Rmult_le_compat_r; [nra|lra]). nra. }
  destruct (grown_step u k Hu) as (_ & GS & G0). split.
  - replace x1 with ((x + y) + (x1 - (x + y)))%C by ring. eapply Rle_trans; [apply Cmod_triangle|]. cbn [pow]. nra.
  - replace (x1 - (z0 + t))%C with ((x1 - (x + y)) + ((x - z0) + (y - t)))%C by ring.
    eapply Rle_trans; [apply Cmod_triangle|]. pose proof (Cmod_triangle (x - z0)%C (y - t)%C) as E.
    set (M := x0 + (1 + m) * (S0 + Cmod t)) in *. assert (M0 : 0 <= M) by (unfold M; nra).
    assert (u * Cmod (x + y)%C <= u * ((1 + u) ^ k * M)) by (apply Rmult_le_compat_l; lra).
    assert (grown u k * (x0 + (1 + m) * S0) <= grown u k * M) by (apply Rmult_le_compat_l; [lra|]; unfold M; nra).
    assert ((grown u k + u * (1 + u) ^ k) * M <= grown u (S k) * M) by (apply Rmult_le_compat_r; lra). lra.
Qed.

Lemma grown_0 : forall u, grown u 0 = 0. Proof. intros. unfold grown. cbn [INR]. lra. Qed.

Lemma zsample_le : forall RMSF B k, samples_le RMSF B -> Cmod (zsample RMSF k) <= B.
Proof.
  intros RMSF B k H. unfold zsample. destruct (k <? 0)%Z; [|apply H]. unfold czero. rewrite Cmod_0.
  eapply Rle_trans; [apply (Cmod_ge_0 (nth 0 RMSF czero))|apply H].
Qed.

Lemma accurate_ge0 : forall a f u v m e h, accurate a f u v m e h -> 0 <= u /\ 0 <= v /\ 0 <= m /\ 0 <= e /\ 0 <= h.
Proof.
  intros a f u v m e h (HA & HS & HM & HAdd & HSub & HG).
  assert (O1 : Cmod (RtoC 1) = 1) by apply Cmod_1.
  repeat split.
  - specialize (HAdd (RtoC 1) (RtoC 0)). replace (RtoC 1 + RtoC 0)%C with (RtoC 1) in HAdd by ring. rewrite O1 in HAdd.
    generalize (Cmod_ge_0 (a_add a (RtoC 1) (RtoC 0) - RtoC 1)%C). lra.
  - specialize (HS 1 (RtoC 1)). rewrite O1, Rabs_R1 in HS. generalize (Cmod_ge_0 (a_scal a 1 (RtoC 1) - RtoC 1 * RtoC 1)%C). lra.
  - specialize (HM (RtoC 1) (RtoC 1)). rewrite O1 in HM. generalize (Cmod_ge_0 (a_mul a (RtoC 1) (RtoC 1) - RtoC 1 * RtoC 1)%C). lra.
  - specialize (HA (RtoC 1)). rewrite O1 in HA. generalize (Rabs_pos (a_abs a (RtoC 1) - 1)). lra.
  - specialize (HG (RtoC 1) 0 0). rewrite O1 in HG. generalize (Cmod_ge_0 (a_gauss a (RtoC 1) 0 f 0 - RtoC 1 * RtoC (beam f (0 - 0)))%C). lra.
Qed.

Lemma fold_total : forall (f : nat * C -> R) T B, 0 <= B -> (forall t, In t T -> f t <= B * Cmod (snd t)) -> fold_right Rplus 0 (map f T) <= B * total T.
Proof.
  intros f T B HB. induction T as [|t T IH]; intros H; cbn [map fold_right]; [unfold total; cbn; lra|].
  rewrite total_cons. specialize (H t (or_introl eq_refl)) as H1. assert (fold_right Rplus 0 (map f T) <= B * total T) by (apply IH; intros; apply H; now right). lra.
Qed.

Section Runs.
  Variables (a : arith) (RMSF : list C) (phi : list R) (fwhm gain u v m e h : R) (imax pad : nat).
  Hypothesis (ACC : accurate a fwhm u v m e h).
  Let n := length phi.
  Let sh := shifted RMSF imax pad.

  Lemma run_resid : forall P s T s', wf_cst phi s -> run a RMSF phi fwhm gain imax pad P s T s' -> forall j, (j < n)%nat ->
    let S0 := fold_right Rplus 0 (map (fun t => Cmod (snd t * nth j (sh (fst t)) czero)%C) T) in
    let d := nth j (resid s) czero in
    Cmod (nth j (resid s') czero) <= (1 + u) ^ length T * (Cmod d + (1 + m) * S0) /\
    Cmod (nth j (resid s') czero - (d - csum (map (fun t => snd t * nth j (sh (fst t)) czero)%C T)))%C <= grown u (length T) * (Cmod d + (1 + m) * S0) + m * S0 /\ 0 <= S0.
  Proof.
    intros P s T s' W RR j Hj. pose proof (accurate_ge0 _ _ _ _ _ _ _ ACC) as (U0 & V0 & M0 & E0 & H0).
    destruct ACC as (HA & HS & HM & HAdd & HSub & HG). cbv zeta.
    induction RR as [s|s T s' s'' i RR IH Hi HP Hs].
    - cbn [map fold_right length pow]. unfold csum. cbn [fold_right]. rewrite grown_0.
      replace (nth j (resid s) czero - (nth j (resid s) czero - RtoC 0))%C with (RtoC 0) by ring. rewrite Cmod_0.
      split; [lra|]. split; [lra|lra].
    - destruct (IH W) as (I1 & I2 & I3). clear IH. pose proof (run_wf _ _ _ _ _ _ _ _ _ _ _ W RR) as W'.
      destruct (fl_step_spec a RMSF phi fwhm gain imax pad i s' s'' W' Hi Hs) as (_ & _ & E). destruct (E j Hj) as (E1 & _ & _). fold sh in E1.
      cbn [map fold_right length]. rewrite csum_cons. cbn [fst snd]. set (CC := a_scal a gain (nth i (resid s') czero)) in *.
      set (w := nth j (sh i) czero) in *. set (Sx := fold_right Rplus 0 (map _ T)) in *. set (Z := csum (map _ T)) in *.
      set (d := nth j (resid s) czero) in *. set (x := nth j (resid s') czero) in *.
      pose proof (accumulate u m (Cmod d) x (- a_mul a CC w)%C (- (CC * w))%C (d - Z)%C Sx (length T) (nth j (resid s'') czero) U0 M0 I1 I2 (Cmod_ge_0 d) I3) as A.
      rewrite E1 in A. destruct A as [A1 A2].
      + replace (- a_mul a CC w - - (CC * w))%C with (- (a_mul a CC w - CC * w))%C by ring. rewrite !Cmod_opp, Cmod_mult. rewrite <- Rmult_assoc. apply HM.
      + replace (x + - a_mul a CC w)%C with (x - a_mul a CC w)%C by ring. apply HSub.
      + rewrite Cmod_opp in A1, A2. rewrite E1. rewrite (Rplus_comm (Cmod (CC * w)%C) Sx).
        split; [exact A1|]. split; [|generalize (Cmod_ge_0 (CC * w)%C); lra].
        replace (d - (CC * w + Z))%C with (d - Z + - (CC * w))%C by ring. exact A2.
  Qed.

  Lemma run_cc : forall P s T s', wf_cst phi s -> run a RMSF phi fwhm gain imax pad P s T s' -> forall j, (j < n)%nat ->
    nth j (cc s) czero = czero ->
    Cmod (nth j (cc s') czero) <= (1 + u) ^ length T * size_at T j /\
    Cmod (nth j (cc s') czero - at_chan T j)%C <= grown u (length T) * size_at T j.
  Proof.
    intros P s T s' W RR j Hj HZ. pose proof (accurate_ge0 _ _ _ _ _ _ _ ACC) as (U0 & V0 & M0 & E0 & H0).
    destruct ACC as (HA & HS & HM & HAdd & HSub & HG).
    induction RR as [s|s T s' s'' i RR IH Hi HP Hs].
    - rewrite HZ. unfold at_chan, size_at. cbn [map fold_right length pow]. unfold csum. cbn [fold_right]. rewrite grown_0.
      replace (czero - RtoC 0)%C with (RtoC 0) by (unfold czero; ring). unfold czero. rewrite Cmod_0. lra.
    - destruct (IH W HZ) as (I1 & I2). clear IH. pose proof (run_wf _ _ _ _ _ _ _ _ _ _ _ W RR) as W'.
      destruct (fl_step_spec a RMSF phi fwhm gain imax pad i s' s'' W' Hi Hs) as (_ & _ & E). destruct (E j Hj) as (_ & E2 & _).
      cbn [length]. rewrite size_cons, at_cons. cbn [fst snd]. set (CC := a_scal a gain (nth i (resid s') czero)) in *.
      rewrite (Nat.eqb_sym i j). pose proof (size_ge0 T j) as S0. destruct (grown_step u (length T) U0) as (_ & GS & G0).
      assert (P1 : 1 <= (1 + u) ^ length T) by (apply pow_R1_Rle; lra).
      destruct (Nat.eqb j i).
      + pose proof (accumulate u 0 0 (nth j (cc s') czero) CC CC (at_chan T j) (size_at T j) (length T) (nth j (cc s'') czero) U0 (Rle_refl 0)) as A.
        rewrite E2 in A. destruct A as [A1 A2]; try lra.
        * replace (CC - CC)%C with (RtoC 0) by ring. rewrite Cmod_0. lra.
        * apply HAdd.
        * rewrite E2. rewrite (Rplus_comm (Cmod CC)). rewrite (Cplus_comm CC). split; lra.
      + rewrite E2. rewrite Rplus_0_l. replace (czero + at_chan T j)%C with (at_chan T j) by (unfold czero; ring). cbn [pow]. split.
        * eapply Rle_trans; [exact I1|]. apply Rmult_le_compat_r; [exact S0|]. nra.
        * eapply Rle_trans; [exact I2|]. apply Rmult_le_compat_r; [exact S0|]. assert (0 <= u * (1 + u) ^ length T) by (apply Rmult_le_pos; lra). lra.
  Qed.

  Lemma run_cln : forall P s T s', wf_cst phi s -> run a RMSF phi fwhm gain imax pad P s T s' -> forall j, (j < n)%nat ->
    nth j (cln s) czero = czero ->
    Cmod (nth j (cln s') czero) <= (1 + u) ^ length T * ((1 + h) * total T) /\
    Cmod (nth j (cln s') czero - csum (map (fun t => snd t * RtoC (beam fwhm (nth j phi 0 - nth (fst t) phi 0)))%C T))%C <= grown u (length T) * ((1 + h) * total T) + h * total T.
  Proof.
    intros P s T s' W RR j Hj HZ. pose proof (accurate_ge0 _ _ _ _ _ _ _ ACC) as (U0 & V0 & M0 & E0 & H0).
    destruct ACC as (HA & HS & HM & HAdd & HSub & HG).
    induction RR as [s|s T s' s'' i RR IH Hi HP Hs].
    - rewrite HZ. unfold total. cbn [map fold_right length pow]. unfold csum. cbn [fold_right]. rewrite grown_0.
      replace (czero - RtoC 0)%C with (RtoC 0) by (unfold czero; ring). unfold czero. rewrite Cmod_0. lra.
    - destruct (IH W HZ) as (I1 & I2). clear IH. pose proof (run_wf _ _ _ _ _ _ _ _ _ _ _ W RR) as W'.
      destruct (fl_step_spec a RMSF phi fwhm gain imax pad i s' s'' W' Hi Hs) as (_ & _ & E). destruct (E j Hj) as (_ & _ & E3).
      cbn [length map]. rewrite total_cons, csum_cons. cbn [fst snd]. set (CC := a_scal a gain (nth i (resid s') czero)) in *.
      set (b := beam fwhm (nth j phi 0 - nth i phi 0)) in *. set (Z := csum (map _ T)) in *. set (x := nth j (cln s') czero) in *.
      pose proof (HG CC (nth i phi 0) (nth j phi 0)) as HG1. fold b in HG1. set (G := a_gauss a CC (nth i phi 0) fwhm (nth j phi 0)) in *.
      pose proof (HAdd x G) as HA1. rewrite <- E3 in HA1. set (x1 := nth j (cln s'') czero) in *.
      pose proof (total_ge0 T) as T0. pose proof (Cmod_ge_0 CC) as C0.
      assert (B : Rabs b <= 1) by (pose proof (beam_le_1 fwhm (nth j phi 0 - nth i phi 0)) as Hb; fold b in Hb; rewrite Rabs_pos_eq; lra).
      assert (Gb : Cmod G <= (1 + h) * Cmod CC).
      { replace G with (CC * RtoC b + (G - CC * RtoC b))%C by ring. eapply Rle_trans; [apply Cmod_triangle|]. rewrite Cmod_mult, Cmod_R. nra. }
      destruct (grown_step u (length T) U0) as (_ & GS & G0). assert (P1 : 1 <= (1 + u) ^ length T) by (apply pow_R1_Rle; lra).
      set (p := (1 + u) ^ length T) in *. set (g := grown u (length T)) in *. set (g1 := grown u (S (length T))) in *.
      assert (XG : Cmod (x + G)%C <= p * ((1 + h) * (Cmod CC + total T))).
      { eapply Rle_trans; [apply Cmod_triangle|]. assert ((1 + h) * Cmod CC <= p * ((1 + h) * Cmod CC)) by (rewrite <- (Rmult_1_l ((1 + h) * Cmod CC)) at 1; apply Rmult_le_compat_r; [nra|lra]). lra. }
      change ((1 + u) ^ S (length T)) with ((1 + u) * p). set (M := (1 + h) * (Cmod CC + total T)) in *. assert (M1 : 0 <= M) by (unfold M; nra).
      assert (UX : u * Cmod (x + G)%C <= u * (p * M)) by (apply Rmult_le_compat_l; lra). split.
      + replace x1 with ((x + G) + (x1 - (x + G)))%C by ring. eapply Rle_trans; [apply Cmod_triangle|]. lra.
      + replace (x1 - (CC * RtoC b + Z))%C with ((x1 - (x + G)) + ((x - Z) + (G - CC * RtoC b)))%C by ring.
        eapply Rle_trans; [apply Cmod_triangle|]. pose proof (Cmod_triangle (x - Z)%C (G - CC * RtoC b)%C).
        assert (g * ((1 + h) * total T) <= g * M) by (apply Rmult_le_compat_l; [lra|]; unfold M; nra).
        assert ((g + u * p) * M <= g1 * M) by (apply Rmult_le_compat_r; lra). lra.
  Qed.
End Runs.

Lemma mul_grown : forall x y z w : R, 0 <= x -> y <= z -> x * y + w <= x * z + w. Proof. intros. assert (x * y <= x * z) by (now apply Rmult_le_compat_l). lra. Qed.

(** residual plus the response to the components gives back the spectrum, and
    the sum of beams the cleaned spectrum, up to roundings *)
Theorem fl_conserves : forall a ends dirty RMSF phi fwhm gain cutoff window maxIter s imax u v m e h B,
  accurate a fwhm u v m e h -> samples_le RMSF B ->
  length dirty = length phi -> peak_at RMSF imax -> roomy (length phi) (length RMSF) imax ->
  cleanloop_fl a ends dirty RMSF phi fwhm gain cutoff window maxIter = POk s ->
  exists T, length T = iters s /\ (iters s <= maxIter)%nat /\
    (forall j, (j < length phi)%nat ->
      Cmod (nth j (cc s) czero - at_chan T j)%C <= grown u (iters s) * size_at T j /\
      Cmod (nth j dirty czero - (nth j (resid s) czero + response RMSF imax (cc s) j))%C <=
        grown u (iters s) * (Cmod (nth j dirty czero) + (2 + m) * B * total T) + m * B * total T /\
      Cmod (nth j (cln s) czero - restored fwhm phi (cc s) j)%C <= (grown u (iters s) * (2 + h) + h) * total T).
Proof.
  intros a ends dirty RMSF phi fwhm gain cutoff window maxIter s imax u v m e h B ACC HB HL HP HR H.
  destruct (cleanloop_fl_run _ _ _ _ _ _ _ _ _ _ _ imax HL (cltb_peak _ _ HP) H) as (T & RR & W & EI & LE).
  exists T. split; [auto|]. split; [lia|]. rewrite EI. pose proof (init_wf _ _ HL) as W0.
  pose proof (accurate_ge0 _ _ _ _ _ _ _ ACC) as (U0 & V0 & M0 & E0 & H0). intros j Hj.
  assert (CH : forall t, In t T -> (fst t < length phi)%nat) by (intros t Ht; exact (proj1 (run_chans _ _ _ _ _ _ _ _ _ _ _ _ RR Ht))).
  assert (CCk : forall i, (i < length phi)%nat -> Cmod (nth i (cc s) czero - at_chan T i)%C <= grown u (length T) * size_at T i).
  { intros i Hi. refine (proj2 (run_cc _ _ _ _ _ _ _ _ _ _ _ _ ACC _ _ _ _ W0 RR i Hi _)). apply nth_zeros. }
  destruct (grown_step u (length T) U0) as (_ & _ & G0). pose proof (total_ge0 T) as T0.
  assert (B0 : 0 <= B) by (eapply Rle_trans; [apply (Cmod_ge_0 (nth 0 RMSF czero))|apply HB]).
  destruct W as (_ & W2 & _).
  (* a sum over channels of the errors of the components *)
  assert (SUM : forall (f : nat -> C) K, 0 <= K -> (forall i, (i < length phi)%nat -> Cmod (f i) <= K) ->
    Cmod (csum (map (fun t => snd t * f (fst t))%C T) - csum (map (fun i => nth i (cc s) czero * f i)%C (seq 0 (length phi))))%C <= K * grown u (length T) * total T).
  { intros f K K0 HK. rewrite (trace_sum f T (length phi) CH), <- csum_minus. eapply Rle_trans; [apply Cmod_csum_le|].
    rewrite <- (size_total T (length phi) CH).
    assert (Q : forall l, (forall i, In i l -> (i < length phi)%nat) -> rsum (map (fun x => Cmod (at_chan T x * f x - nth x (cc s) czero * f x)%C) l) <= K * grown u (length T) * rsum (map (size_at T) l)).
    { induction l as [|i l IH]; intros Hl; cbn [map]; [unfold rsum; cbn; lra|]. rewrite !rsum_cons.
      assert (Hi : (i < length phi)%nat) by (apply Hl; now left). specialize (IH (fun k Hk => Hl k (or_intror Hk))).
      assert (Cmod (at_chan T i * f i - nth i (cc s) czero * f i)%C <= K * grown u (length T) * size_at T i); [|lra].
      replace (at_chan T i * f i - nth i (cc s) czero * f i)%C with (- (nth i (cc s) czero - at_chan T i) * f i)%C by ring.
      rewrite Cmod_mult, Cmod_opp. specialize (CCk i Hi). specialize (HK i Hi). pose proof (size_ge0 T i). pose proof (Cmod_ge_0 (f i)).
      eapply Rle_trans; [apply Rmult_le_compat_r; [assumption|exact CCk]|].
      replace (K * grown u (length T) * size_at T i) with (grown u (length T) * size_at T i * K) by ring. apply Rmult_le_compat_l; [apply Rmult_le_pos; assumption|assumption]. }
    apply Q. intros i Hi. apply in_seq in Hi. lia. }
  split; [now apply CCk|]. split.
  - destruct (run_resid _ _ _ _ _ _ _ _ _ _ _ _ ACC _ _ _ _ W0 RR j Hj) as (_ & R1 & R2). cbn [resid init_cst] in R1. cbv zeta in R1.
    set (pad := Nat.div2 (length RMSF - length phi)) in *. set (d := nth j dirty czero) in *.
    set (S0 := fold_right Rplus 0 _) in *.
    assert (SH : forall i, (i < length phi)%nat -> nth j (shifted RMSF imax pad i) czero = zsample RMSF (Z.of_nat imax + Z.of_nat j - Z.of_nat i)).
    { intros i Hi. exact (proj2 (shifted_spec RMSF (length phi) imax i pad HR eq_refl Hi) j Hj). }
    assert (SB : S0 <= B * total T).
    { unfold S0. apply fold_total; [exact B0|]. intros t Ht. rewrite Cmod_mult, (SH _ (CH t Ht)). pose proof (Cmod_ge_0 (snd t)).
      pose proof (zsample_le RMSF B (Z.of_nat imax + Z.of_nat j - Z.of_nat (fst t)) HB). rewrite (Rmult_comm B). now apply Rmult_le_compat_l. }
    pose proof (SUM (fun i => nth j (shifted RMSF imax pad i) czero) B B0 ltac:(intros i Hi; cbv beta; rewrite (SH i Hi); now apply zsample_le)) as Q. cbv beta in Q.
    set (Z := csum (map _ T)) in *. unfold response. rewrite W2.
    rewrite (csum_map_ext _ (fun i => nth i (cc s) czero * nth j (shifted RMSF imax pad i) czero)%C) by (intros i Hi; apply in_seq in Hi; cbv beta; rewrite SH by lia; reflexivity).
    set (Y := csum (map _ (seq 0 (length phi)))) in *. set (r := nth j (resid s) czero) in *.
    replace (d - (r + Y))%C with (- (r - (d - Z)) + (Z - Y))%C by ring. eapply Rle_trans; [apply Cmod_triangle|]. rewrite Cmod_opp.
    set (g := grown u (length T)) in *.
    assert (g * (Cmod d + (1 + m) * S0) <= g * (Cmod d + (1 + m) * (B * total T))) by (apply Rmult_le_compat_l; [lra|]; nra).
    assert (m * S0 <= m * (B * total T)) by (now apply Rmult_le_compat_l). lra.
  - destruct (run_cln _ _ _ _ _ _ _ _ _ _ _ _ ACC _ _ _ _ W0 RR j Hj) as (_ & R1); [apply nth_zeros|].
    pose proof (SUM (fun i => RtoC (beam fwhm (nth j phi 0 - nth i phi 0))) 1 Rle_0_1) as Q. cbv beta in Q.
    specialize (Q ltac:(intros i Hi; rewrite Cmod_R; pose proof (beam_le_1 fwhm (nth j phi 0 - nth i phi 0)) as Hb; rewrite Rabs_pos_eq; lra)).
    unfold restored. rewrite W2. set (Z := csum (map _ T)) in *. set (Y := csum (map _ (seq 0 (length phi)))) in *. set (x := nth j (cln s) czero) in *.
    replace (x - Y)%C with ((x - Z) + (Z - Y))%C by ring. eapply Rle_trans; [apply Cmod_triangle|]. lra.
Qed.
