(** Second moment, percentiles and the additional scatter. *)
From Coq Require Import Reals List Arith ZArith Bool Lia Lra Psatz.
Set Warnings "-ambiguous-paths".
From Coquelicot Require Import Coquelicot.
From Verif Require Import CBase NdArray PyRes PyList PyList_Proofs Clean_Grid Synth_Model Setup_Model Setup_Spec Setup_Proofs
  Peak_Proofs Measure_Model Measure_Spec Measure_Laws.
Import ListNotations.
Local Open Scope R_scope.

(* ---------------------------------------------------------------- mom2 *)

Lemma wsum_zero : forall (l : list R), (forall x, In x l -> 0 <= x) -> rsum l = 0 -> forall x, In x l -> x = 0.
Proof.
  induction l as [|a l IH]; intros Hp Hs x Hx; [destruct Hx|]. rewrite rsum_cons in Hs.
  assert (0 <= a) by (apply Hp; left; auto).
  assert (0 <= rsum l) by (apply rsum_nonneg; intros y Hy; apply Hp; right; auto).
  destruct Hx as [<- | Hx]; [lra|]. apply IH; auto; [intros y Hy; apply Hp; right; auto|lra].
Qed.

(** mean and second moment of positive masses at given depths *)
Definition mass (l : list (C * R)) : R := rsum (map (fun fp => Cmod (fst fp)) l).
Definition moment (l : list (C * R)) (f : R -> R) : R := rsum (map (fun fp => f (snd fp) * Cmod (fst fp)) l).

Lemma mass_nonneg : forall l, 0 <= mass l.
Proof. intros l. apply rsum_nonneg. intros x Hx. apply in_map_iff in Hx. destruct Hx as (y & <- & _). apply Cmod_ge_0. Qed.

Lemma mom2_eq : forall FDF phi, length FDF = length phi ->
  let l := combine FDF phi in
  calc_mom2_FDF FDF phi =
  if Req_EM_T (mass l) 0 then None else Some (sqrt (moment l (fun x => (x - moment l (fun x => x) / mass l) ^ 2) / mass l)).
Proof.
  intros FDF phi H l. unfold calc_mom2_FDF, odiv.
  assert (rsum (map Cmod FDF) = mass l) as ->.
  { unfold mass, l. rewrite <- (map_map (@fst C R) Cmod). f_equal. f_equal. clear -H. revert phi H. induction FDF as [|a t IH]; intros [|b phi] H; simpl; try discriminate; auto. f_equal. apply IH. simpl in H. lia. }
  destruct (Req_EM_T (mass l) 0) as [E|E]; [reflexivity|].
  fold (moment l (fun x => x)). set (m := moment l (fun x => x) / mass l).
  change (rsum (map (fun fp => (snd fp - m) ^ 2 * Cmod (fst fp)) (combine FDF phi))) with (moment l (fun x => (x - m) ^ 2)).
  simpl. destruct (Rle_dec 0 _) as [_|N]; [reflexivity|]. exfalso. apply N.
  apply Rmult_le_pos; [|left; apply Rinv_0_lt_compat; pose proof (mass_nonneg l); lra].
  apply rsum_nonneg. intros x Hx. apply in_map_iff in Hx. destruct Hx as (y & <- & _).
  apply Rmult_le_pos; [apply pow2_ge_0|apply Cmod_ge_0].
Qed.

Lemma moment_affine : forall l a b, moment l (fun x => a * x + b) = a * moment l (fun x => x) + b * mass l.
Proof.
  intros l a b. unfold moment, mass. induction l as [|x l IH]; simpl map; rewrite ?rsum_nil, ?rsum_cons; [ring|]. rewrite IH. ring.
Qed.
Lemma moment_ext : forall l f g, (forall x, f x = g x) -> moment l f = moment l g.
Proof. intros l f g H. unfold moment. f_equal. apply map_ext. intros x. rewrite H. reflexivity. Qed.
Lemma moment_scal : forall l a f, moment l (fun x => a * f x) = a * moment l f.
Proof. intros l a f. unfold moment. induction l as [|x l IH]; simpl map; rewrite ?rsum_nil, ?rsum_cons; [ring|]. rewrite IH. ring. Qed.

Lemma combine_map_r : forall {A B D} (f : B -> D) (l : list A) (m : list B), combine l (map f m) = map (fun ab => (fst ab, f (snd ab))) (combine l m).
Proof. induction l as [|a l IH]; intros [|b m]; simpl; auto. f_equal. auto. Qed.
Lemma combine_map_l : forall {A B D} (f : A -> D) (l : list A) (m : list B), combine (map f l) m = map (fun ab => (f (fst ab), snd ab)) (combine l m).
Proof. induction l as [|a l IH]; intros [|b m]; simpl; auto. f_equal. auto. Qed.

Lemma mass_map_r : forall f l, mass (map (fun ab : C * R => (fst ab, f (snd ab))) l) = mass l.
Proof. intros. unfold mass. rewrite map_map. reflexivity. Qed.
Lemma moment_map_r : forall f g l, moment (map (fun ab : C * R => (fst ab, f (snd ab))) l) g = moment l (fun x => g (f x)).
Proof. intros. unfold moment. rewrite map_map. reflexivity. Qed.

(** shifting the depths changes nothing, scaling them scales the width *)
Theorem mom2_affine : forall FDF phi a b, length FDF = length phi ->
  calc_mom2_FDF FDF (map (fun x => a * x + b) phi) = option_map (Rmult (Rabs a)) (calc_mom2_FDF FDF phi).
Proof.
  intros FDF phi a b H. set (f := fun x => a * x + b). rewrite !mom2_eq by (rewrite ?map_length; auto). cbv zeta.
  rewrite combine_map_r, (mass_map_r f), !(moment_map_r f).
  set (l := combine FDF phi). destruct (Req_EM_T (mass l) 0) as [E|E]; [reflexivity|]. cbn [option_map]. f_equal.
  unfold f. rewrite moment_affine. set (M := moment l (fun x => x)).
  rewrite (moment_ext l _ (fun x => a ^ 2 * (x - M / mass l) ^ 2)) by (intros x; field; auto).
  rewrite moment_scal. replace (Rabs a) with (sqrt (a ^ 2)) by (rewrite <- sqrt_Rsqr_abs; f_equal; unfold Rsqr; ring).
  rewrite <- sqrt_mult_alt by apply pow2_ge_0. f_equal. field. auto.
Qed.

(** the overall scale and rotation of the spectrum do not matter *)
Theorem mom2_scale : forall FDF phi z, length FDF = length phi -> z <> RtoC 0 ->
  calc_mom2_FDF (map (Cmult z) FDF) phi = calc_mom2_FDF FDF phi.
Proof.
  intros FDF phi z H Hz. rewrite !mom2_eq by (rewrite ?map_length; auto). cbv zeta. rewrite combine_map_l. set (l := combine FDF phi).
  assert (0 < Cmod z) as Hm by (apply Cmod_gt_0, Hz).
  assert (E1 : mass (map (fun ab => ((z * fst ab)%C, snd ab)) l) = Cmod z * mass l).
  { unfold mass. rewrite map_map. simpl. clearbody l. induction l as [|x l IH]; simpl map; rewrite ?rsum_nil, ?rsum_cons; [ring|]. rewrite IH, Cmod_mult. ring. }
  assert (E2 : forall f, moment (map (fun ab => ((z * fst ab)%C, snd ab)) l) f = Cmod z * moment l f).
  { intros f. unfold moment. rewrite map_map. simpl. clearbody l. clear E1. induction l as [|x l IH]; simpl map; rewrite ?rsum_nil, ?rsum_cons; [ring|]. rewrite IH, Cmod_mult. ring. }
  rewrite E1, !E2. destruct (Req_EM_T (mass l) 0) as [E|E].
  - destruct (Req_EM_T (Cmod z * mass l) 0) as [_|N]; [reflexivity|]. exfalso. apply N. rewrite E. ring.
  - destruct (Req_EM_T (Cmod z * mass l) 0) as [N|_]; [exfalso; apply Rmult_integral in N; lra|]. f_equal. f_equal.
    replace (Cmod z * moment l (fun x => x) / (Cmod z * mass l)) with (moment l (fun x => x) / mass l) by (field; lra). field. lra.
Qed.

(** never negative, undefined only for an empty spectrum, and zero exactly when
    all the emission is at one depth *)
Theorem mom2_zero : forall FDF phi, length FDF = length phi ->
  (calc_mom2_FDF FDF phi = None <-> forall z, In z FDF -> z = RtoC 0) /\
  forall m, calc_mom2_FDF FDF phi = Some m ->
    0 <= m /\ (m = 0 <-> exists f, forall k, (k < length FDF)%nat -> nth k FDF (RtoC 0) <> RtoC 0 -> nth k phi 0 = f).
Proof.
  intros FDF phi H. rewrite mom2_eq by auto. cbv zeta. set (l := combine FDF phi).
  assert (IN : forall k, (k < length FDF)%nat -> In (nth k FDF (RtoC 0), nth k phi 0) l).
  { intros k Hk. unfold l. rewrite <- combine_nth by auto. apply nth_In. rewrite combine_length. lia. }
  assert (IN' : forall z x, In (z, x) l -> exists k, (k < length FDF)%nat /\ z = nth k FDF (RtoC 0) /\ x = nth k phi 0).
  { intros z x Hz. apply (In_nth _ _ (RtoC 0, 0)) in Hz. destruct Hz as (k & Hk & E). unfold l in *. rewrite combine_length in Hk. rewrite combine_nth in E by auto.
    exists k. split; [lia|]. injection E as <- <-. auto. }
  assert (MZ : mass l = 0 -> forall z, In z FDF -> z = RtoC 0).
  { intros E z Hz. apply (In_nth _ _ (RtoC 0)) in Hz. destruct Hz as (k & Hk & <-). apply Cmod_eq_0.
    apply (wsum_zero _ ltac:(intros x Hx; apply in_map_iff in Hx; destruct Hx as (y & <- & _); apply Cmod_ge_0) E).
    apply in_map_iff. exists (nth k FDF (RtoC 0), nth k phi 0). split; auto. }
  split.
  - destruct (Req_EM_T (mass l) 0) as [E|E]; split; auto; try discriminate. intros Hz. exfalso. apply E.
    unfold mass. rewrite (map_ext_in _ (fun _ => 0)).
    + clear. induction l; simpl map; rewrite ?rsum_nil, ?rsum_cons; lra.
    + intros [z x] Hzx. apply IN' in Hzx. destruct Hzx as (k & Hk & -> & _). simpl. rewrite (Hz (nth k FDF (RtoC 0))) by (apply nth_In; auto). apply Cmod_0.
  - intros m Hm. destruct (Req_EM_T (mass l) 0) as [E|E]; [discriminate|]. injection Hm as <-. split; [apply sqrt_pos|].
    assert (MP : 0 < mass l) by (pose proof (mass_nonneg l); lra).
    set (M := moment l (fun x => x) / mass l).
    assert (NN : forall x, In x (map (fun fp : C * R => (snd fp - M) ^ 2 * Cmod (fst fp)) l) -> 0 <= x).
    { intros x Hx. apply in_map_iff in Hx. destruct Hx as (y & <- & _). apply Rmult_le_pos; [apply pow2_ge_0|apply Cmod_ge_0]. }
    split.
    + intros Z. apply sqrt_eq_0 in Z; [|apply Rmult_le_pos; [apply rsum_nonneg, NN|left; apply Rinv_0_lt_compat; lra]].
      exists M. intros k Hk Hne.
      assert (Z' : rsum (map (fun fp : C * R => (snd fp - M) ^ 2 * Cmod (fst fp)) l) = 0).
      { apply (Rmult_eq_reg_r (/ mass l)); [|apply Rinv_neq_0_compat; lra]. rewrite Rmult_0_l. exact Z. }
      assert (((nth k phi 0) - M) ^ 2 * Cmod (nth k FDF (RtoC 0)) = 0) as Ek.
      { apply (wsum_zero _ NN Z'). apply in_map_iff. exists (nth k FDF (RtoC 0), nth k phi 0). split; auto. }
      apply Rmult_integral in Ek. destruct Ek as [Ek | Ek].
      * apply Rmult_integral in Ek. rewrite Rmult_1_r in Ek. destruct Ek; lra.
      * exfalso. apply Hne, Cmod_eq_0, Ek.
    + intros (f & Hf).
      assert (EM : forall x, In x l -> snd x * Cmod (fst x) = f * Cmod (fst x)).
      { intros [z x] Hzx. apply IN' in Hzx. destruct Hzx as (k & Hk & -> & ->). simpl.
        destruct (Req_EM_T (Cmod (nth k FDF (RtoC 0))) 0) as [Z|Z]; [rewrite Z; ring|]. rewrite (Hf k Hk); auto.
        intros Z'. apply Z. rewrite Z'. apply Cmod_0. }
      assert (M = f) as EMf.
      { unfold M, moment. rewrite (map_ext_in _ (fun fp => f * Cmod (fst fp)) l EM).
        assert (rsum (map (fun fp : C * R => f * Cmod (fst fp)) l) = f * mass l) as ->; [|field; lra].
        unfold mass. clear. induction l as [|x l IH]; simpl map; rewrite ?rsum_nil, ?rsum_cons; [ring|]. rewrite IH. ring. }
      change (sqrt (moment l (fun x => (x - M) ^ 2) / mass l) = 0).
      assert (moment l (fun x => (x - M) ^ 2) = 0) as ->; [|unfold Rdiv; rewrite Rmult_0_l; apply sqrt_0].
      unfold moment. rewrite (map_ext_in _ (fun _ => 0)).
      * clear. induction l; simpl map; rewrite ?rsum_nil, ?rsum_cons; lra.
      * intros [z x] Hzx. specialize (EM _ Hzx). simpl in *. rewrite EMf.
        replace ((x - f) * ((x - f) * 1) * Cmod z) with ((x - f) * (x * Cmod z - f * Cmod z)) by ring. rewrite EM. ring.
Qed.

(* ---------------------------------------------------------------- percentiles *)

Lemma first_above_spec : forall q p i k, first_above q i p = Some k ->
  (i <= k < i + length p)%nat /\ q < nth (k - i) p 0 /\ forall j, (j < k - i)%nat -> nth j p 0 <= q.
Proof.
  intros q. induction p as [|a p IH]; intros i k H; simpl in H; [discriminate|]. destruct (Rltb q a) eqn:E.
  - injection H as <-. rewrite Nat.sub_diag. apply Rltb_true in E. simpl. split; [lia|]. split; [exact E|]. intros j Hj. lia.
  - apply IH in H. destruct H as (B & Hq & Hj). simpl. split; [lia|]. apply Rltb_false in E.
    destruct (k - i)%nat as [|m] eqn:Em; [lia|]. replace (k - S i)%nat with m in * by lia. split; [exact Hq|].
    intros [|j] Hlt; simpl; [lra|]. apply Hj. lia.
Qed.

Lemma first_above_some : forall q p i j, (j < length p)%nat -> q < nth j p 0 -> exists k, first_above q i p = Some k.
Proof.
  intros q. induction p as [|a p IH]; intros i j Hj Hq; simpl in *; [lia|]. destruct (Rltb q a) eqn:E; [eauto|].
  destruct j as [|j]; [apply Rltb_false in E; lra|]. apply (IH (S i) j); auto. lia.
Qed.

(** where the piecewise linear CDF reaches q *)
Lemma percentile_spec : forall x p q, length x = length p -> increasing x -> increasing p ->
  (exists j, (j < length p)%nat /\ q < nth j p 0) ->
  exists k v, cdf_percentile x p q = Some v /\ (k < length p)%nat /\ q < nth k p 0 /\ (forall j, (j < k)%nat -> nth j p 0 <= q) /\
    match k with
    | O => v = nth 0 x 0
    | S i => nth i x 0 <= v < nth k x 0 /\
             (v - nth i x 0) * (nth k p 0 - nth i p 0) = (q - nth i p 0) * (nth k x 0 - nth i x 0)
    end.
Proof.
  intros x p q Hl Hx Hp (j & Hj & Hq). destruct (first_above_some q p 0 j Hj Hq) as [k E].
  pose proof (first_above_spec _ _ _ _ E) as (B & Q1 & Q2). rewrite Nat.sub_0_r in *. unfold cdf_percentile. rewrite E.
  destruct k as [|i].
  - exists 0%nat, (nth 0 x 0). repeat split; auto; lia.
  - assert (Dp : nth i p 0 < nth (S i) p 0) by (apply Hp; lia). assert (Dx : nth i x 0 < nth (S i) x 0) by (apply Hx; lia).
    pose proof (Q2 i ltac:(lia)) as Q3.
    set (x0 := nth i x 0) in *. set (x1 := nth (S i) x 0) in *. set (p0 := nth i p 0) in *. set (p1 := nth (S i) p 0) in *.
    unfold odiv, osub, omul, o2. destruct (Req_EM_T (x1 - x0) 0) as [?|_]; [lra|].
    assert (0 < (p1 - p0) / (x1 - x0)) by (apply Rdiv_lt_0_compat; lra).
    destruct (Req_EM_T ((p1 - p0) / (x1 - x0)) 0) as [?|_]; [lra|].
    eexists (S i), _. split; [reflexivity|].
    assert (EV : (q - (p1 - (p1 - p0) / (x1 - x0) * x1)) / ((p1 - p0) / (x1 - x0)) = x0 + (q - p0) * ((x1 - x0) / (p1 - p0))) by (field; lra).
    rewrite EV. split; [lia|]. split; [exact Q1|]. split; [intros j' Hj'; apply Q2; lia|]. cbv iota.
    assert (0 < (x1 - x0) / (p1 - p0)) by (apply Rdiv_lt_0_compat; lra).
    change (nth (S i) x 0) with x1. change (nth (S i) p 0) with p1. change (nth i x 0) with x0. change (nth i p 0) with p0. split; [split|].
    + assert (0 <= (q - p0) * ((x1 - x0) / (p1 - p0))) by (apply Rmult_le_pos; lra). lra.
    + assert ((q - p0) * ((x1 - x0) / (p1 - p0)) < (p1 - p0) * ((x1 - x0) / (p1 - p0))) as L by (apply Rmult_lt_compat_r; lra).
      replace ((p1 - p0) * ((x1 - x0) / (p1 - p0))) with (x1 - x0) in L by (field; lra). lra.
    + field. lra.
Qed.

Lemma increasing_le : forall l i j, increasing l -> (i <= j < length l)%nat -> nth i l 0 <= nth j l 0.
Proof. intros l i j H Hij. destruct (Nat.eq_dec i j) as [->|]; [lra|]. left. apply H. lia. Qed.

Theorem percentile_monotone : forall x p q1 q2 v1 v2, length x = length p -> increasing x -> increasing p ->
  (exists j, (j < length p)%nat /\ q2 < nth j p 0) -> q1 <= q2 ->
  cdf_percentile x p q1 = Some v1 -> cdf_percentile x p q2 = Some v2 -> nth 0 x 0 <= v1 <= v2 /\ v2 <= nth (length x - 1) x 0.
Proof.
  intros x p q1 q2 v1 v2 Hl Hx Hp (j & Hj & Hq) Hle E1 E2.
  destruct (percentile_spec x p q1 Hl Hx Hp) as (k1 & w1 & E1' & B1 & Q1 & J1 & M1); [exists j; split; auto; lra|].
  rewrite E1 in E1'. injection E1' as <-.
  destruct (percentile_spec x p q2 Hl Hx Hp) as (k2 & w2 & E2' & B2 & Q2 & J2 & M2); [exists j; split; auto|].
  rewrite E2 in E2'. injection E2' as <-.
  assert (k1 <= k2)%nat as K.
  { destruct (le_lt_dec k1 k2) as [|L]; auto. pose proof (J1 k2 L). lra. }
  split; [split|].
  - destruct k1 as [|i1]; [lra|]. destruct M1 as [[M1 _] _]. pose proof (increasing_le x 0 i1 Hx ltac:(lia)). lra.
  - destruct k2 as [|i2].
    + replace k1 with 0%nat in M1 by lia. lra.
    + destruct M2 as [[A2 A2'] L2]. destruct k1 as [|i1].
      * pose proof (increasing_le x 0 i2 Hx ltac:(lia)). lra.
      * destruct M1 as [[A1 A1'] L1]. destruct (Nat.eq_dec i1 i2) as [->|N].
        -- assert (nth i2 p 0 < nth (S i2) p 0) as Dp by (apply Hp; lia). assert (nth i2 x 0 < nth (S i2) x 0) as Dx by (apply Hx; lia).
           assert ((v2 - v1) * (nth (S i2) p 0 - nth i2 p 0) = (q2 - q1) * (nth (S i2) x 0 - nth i2 x 0)) by lra.
           assert (0 <= (q2 - q1) * (nth (S i2) x 0 - nth i2 x 0)) by (apply Rmult_le_pos; lra).
           apply Rnot_lt_le. intros L. assert ((v1 - v2) * (nth (S i2) p 0 - nth i2 p 0) > 0) by (apply Rmult_lt_0_compat; lra). lra.
        -- pose proof (increasing_le x (S i1) i2 Hx ltac:(lia)). lra.
  - destruct k2 as [|i2]; [pose proof (increasing_le x 0 (length x - 1) Hx ltac:(lia)); lra|].
    destruct M2 as [[_ M2] _]. pose proof (increasing_le x (S i2) (length x - 1) Hx ltac:(lia)). lra.
Qed.

(* ---------------------------------------------------------------- cumulative sums *)

Lemma cumsum_length : forall l acc, length (cumsum acc l) = length l.
Proof. induction l as [|a l IH]; intros acc; simpl; auto. Qed.
Lemma cumsum_nth : forall l acc k, (k < length l)%nat -> nth k (cumsum acc l) 0 = acc + rsum (firstn (S k) l).
Proof.
  induction l as [|a l IH]; intros acc k Hk; simpl in Hk; [lia|]. destruct k as [|k].
  - simpl. rewrite rsum_cons, rsum_nil. ring.
  - simpl nth. rewrite IH by lia. change (firstn (S (S k)) (a :: l)) with (a :: firstn (S k) l). rewrite rsum_cons. ring.
Qed.
Lemma cumsum_increasing : forall l acc, (forall x, In x l -> 0 < x) -> increasing (cumsum acc l).
Proof.
  intros l acc H i j Hij. rewrite cumsum_length in Hij. rewrite !cumsum_nth by lia.
  assert (forall m, (m < length l)%nat -> rsum (firstn (S m) l) = rsum (firstn m l) + nth m l 0) as ST.
  { clear. induction l as [|a l IH]; intros m Hm; simpl in Hm; [lia|]. destruct m as [|m]; [simpl; rewrite rsum_cons, !rsum_nil; ring|].
    change (firstn (S (S m)) (a :: l)) with (a :: firstn (S m) l). change (firstn (S m) (a :: l)) with (a :: firstn m l).
    rewrite !rsum_cons, IH by lia. simpl. ring. }
  destruct Hij as [Hij Hj]. induction j as [|j IH]; [lia|].
  rewrite (ST (S j)) by lia. assert (0 < nth (S j) l 0) by (apply H, nth_In; lia).
  destruct (Nat.eq_dec i j) as [->|N]; [lra|]. assert (acc + rsum (firstn (S i) l) < acc + rsum (firstn (S j) l)) by (apply IH; lia). lra.
Qed.

Lemma map_div_increasing : forall l s, 0 < s -> increasing l -> increasing (map (fun c => c / s) l).
Proof.
  intros l s0 Hs H i j Hij. rewrite map_length in Hij. rewrite !(nth_map_lt _ _ _ _ 0) by lia.
  apply Rmult_lt_compat_r; [apply Rinv_0_lt_compat; auto|]. apply H. lia.
Qed.

(* ---------------------------------------------------------------- sigma_add *)

Lemma POk_inj : forall {A} (a b : A), POk a = POk b -> a = b.
Proof. intros A a b H. now injection H. Qed.

Lemma sigma_grid : forall rng n, (2 <= n)%nat -> 0 < rng -> exists sg,
  linspace (rng / INR n) rng (Z.of_nat n) = POk sg /\ length sg = n /\
  (forall k, (k < n)%nat -> nth k sg 0 = INR (S k) * (rng / INR n)) /\ increasing sg.
Proof.
  intros rng n Hn Hr. assert (Hn1 : 2 <= INR n) by (replace 2 with (INR 2) by (simpl; lra); apply le_INR; auto).
  destruct (linspace (rng / INR n) rng (Z.of_nat n)) as [sg|] eqn:E.
  - exists sg. split; auto.
    assert (length sg = n) as L.
    { unfold linspace in E. destruct (Z.of_nat n <? 0)%Z; [discriminate|]. apply POk_inj in E. subst sg. rewrite Nat2Z.id.
      destruct n as [|[|m]]; try lia. cbv iota. now rewrite map_length, seq_length. }
    assert (V : forall k, (k < n)%nat -> nth k sg 0 = INR (S k) * (rng / INR n)).
    { intros k Hk. unfold linspace in E. destruct (Z.of_nat n <? 0)%Z; [discriminate|]. apply POk_inj in E. subst sg. rewrite Nat2Z.id.
      destruct n as [|[|m]]; try lia. cbv iota. rewrite nth_map_seq by auto. rewrite Nat.add_0_l, (S_INR k).
      assert (INR (S (S m)) = INR (S m) + 1) as -> by apply S_INR. assert (0 < INR (S m)) by (apply lt_0_INR; lia). field. lra. }
    split; auto. split; auto. intros i j Hij. rewrite !V by lia. apply Rmult_lt_compat_r; [apply Rdiv_lt_0_compat; lra|]. apply lt_INR. lia.
  - exfalso. unfold linspace in E. destruct (Z.of_nat n <? 0)%Z eqn:B; [apply Z.ltb_lt in B; lia|discriminate].
Qed.

Lemma rsum_map_mult : forall (l : list R) c, rsum (map (fun p => p * c) l) = rsum l * c.
Proof. intros l c. induction l as [|x l IH]; simpl map; rewrite ?rsum_nil, ?rsum_cons; [ring|]. rewrite IH. ring. Qed.
Lemma rsum_map_div : forall (l : list R) c, rsum (map (fun p => p / c) l) = rsum l / c.
Proof. intros l c. unfold Rdiv. apply rsum_map_mult. Qed.

Lemma rsum_pos_list : forall l, l <> [] -> (forall x, In x l -> 0 < x) -> 0 < rsum l.
Proof.
  intros [|a l] H P; [contradiction|]. rewrite rsum_cons. assert (0 < a) by (apply P; left; auto).
  assert (0 <= rsum l); [|lra]. apply rsum_nonneg. intros x Hx. left. apply P. right; auto.
Qed.

Lemma yd_pairs : forall y dy, somes (map (fun ab => match ab with (Some a, Some b) => Some (a, b) | _ => None end) (combine y dy)) = pairs y dy.
Proof. intros y dy. unfold pairs. induction (combine y dy) as [|[[a|] [b|]] l IH]; simpl; auto. f_equal. exact IH. Qed.

Section SigmaAdd.
  Variables (nData : nat) (y dy : list (option R)) (yMed : R) (nSamp : nat).
  Definition tots (s : R) : list R := somes (map (fun d => match d with Some d => Some (d ^ 2 + s ^ 2) | None => None end) dy).
  Definition lnP (s : R) : R :=
    - ln s - INR nData * ln (2 * PI) / 2 - rsum (map (fun t => ln (sqrt t)) (tots s))
    - rsum (map (fun ab => (fst ab - yMed) ^ 2 / (snd ab ^ 2 + s ^ 2)) (pairs y dy)) / 2.

  (** the whole computation when the range of the data is positive *)
  Lemma sigma_add_eq : forall rng, (2 <= nSamp)%nat -> is_range (pairs y dy) rng -> 0 < rng ->
    exists r c, calc_sigma_add nData y dy yMed nSamp = POk r /\ 0 < c /\
      length (sigmaAddArr r) = nSamp /\ increasing (sigmaAddArr r) /\
      (forall k, (k < nSamp)%nat -> nth k (sigmaAddArr r) 0 = INR (S k) * (rng / INR nSamp)) /\
      probArr r = map (fun s => c * exp (lnP s)) (sigmaAddArr r) /\
      rsum (map (fun p => p * (rng / INR nSamp)) (probArr r)) = 1 /\
      CPDF r = map (fun c => c / rsum (probArr r)) (cumsum 0 (probArr r)) /\
      sigmaAdd r = cdf_percentile (sigmaAddArr r) (CPDF r) (50 / 100) /\
      dSigmaAddMinus r = osub (sigmaAdd r) (cdf_percentile (sigmaAddArr r) (CPDF r) (15.72 / 100)) /\
      dSigmaAddPlus r = osub (cdf_percentile (sigmaAddArr r) (CPDF r) (84.27 / 100)) (sigmaAdd r).
  Proof.
    intros rng Hn (hi & lo & Er & Hhi & Hlo) Hr. unfold calc_sigma_add. rewrite yd_pairs.
    rewrite (rmax_list_unique _ _ Hhi), (rmin_list_unique _ _ Hlo), <- Er.
    destruct (nSamp <? 2)%nat eqn:B; [apply Nat.ltb_lt in B; lia|]. destruct (Rle_dec rng 0) as [?|_]; [lra|].
    destruct (sigma_grid rng nSamp Hn Hr) as (sg & -> & Lg & Vg & Ig). cbn [pybind].
    match goal with |- context [rmax_list (map ?f sg)] => change f with lnP end. cbv zeta.
    assert (SN : sg <> []) by (intros ->; simpl in Lg; lia).
    destruct (rmax_list (map lnP sg)) as [m|] eqn:Em; [|destruct sg; [contradiction|discriminate]].
    assert (D0 : nth 1 sg 0 - nth 0 sg 0 = rng / INR nSamp).
    { rewrite !Vg by lia. simpl (INR 2). simpl (INR 1). ring. }
    assert (HN : 0 < INR nSamp) by (apply lt_0_INR; lia).
    assert (D0p : 0 < rng / INR nSamp) by (apply Rdiv_lt_0_compat; lra).
    set (prob := map (fun l => exp (l - m)) (map lnP sg)).
    assert (PP : 0 < rsum prob).
    { apply rsum_pos_list; [unfold prob; destruct sg; [contradiction|discriminate]|].
      intros x Hx. unfold prob in Hx. apply in_map_iff in Hx. destruct Hx as (l & <- & _). apply exp_pos. }
    rewrite D0, rsum_map_mult. set (A := rsum prob * (rng / INR nSamp)). assert (AP : 0 < A) by (apply Rmult_lt_0_compat; auto).
    eexists. exists (exp (- m) / A). split; [reflexivity|]. cbn [sigmaAddArr probArr CPDF sigmaAdd dSigmaAddMinus dSigmaAddPlus].
    split; [apply Rdiv_lt_0_compat; [apply exp_pos|lra]|]. split; [exact Lg|]. split; [exact Ig|]. split; [exact Vg|].
    split; [|split; [|repeat split; reflexivity]].
    - unfold prob. rewrite !map_map. apply map_ext. intros s0. unfold Rminus. rewrite exp_plus. field. lra.
    - rewrite rsum_map_mult, rsum_map_div. fold A. unfold A. field. lra.
  Qed.

  (** C32 *)
  Theorem sigma_add_laws : forall rng, (2 <= nSamp)%nat -> is_range (pairs y dy) rng -> 0 < rng ->
    exists r s m p, calc_sigma_add nData y dy yMed nSamp = POk r /\
      length (CPDF r) = nSamp /\ increasing (CPDF r) /\ nth (nSamp - 1) (CPDF r) 0 = 1 /\ 0 < nth 0 (CPDF r) 0 /\
      (forall k, (k < nSamp)%nat -> 0 < nth k (probArr r) 0) /\ rsum (map (fun q => q * (rng / INR nSamp)) (probArr r)) = 1 /\
      sigmaAdd r = Some s /\ dSigmaAddMinus r = Some m /\ dSigmaAddPlus r = Some p /\
      0 <= m /\ 0 <= p /\ rng / INR nSamp <= s - m /\ s + p <= rng.
  Proof.
    intros rng Hn Hrng Hr. destruct (sigma_add_eq rng Hn Hrng Hr) as (r & c & E & Hc & Lg & Ig & Vg & EP & EN & EC & E50 & EM & EPl).
    assert (LP : length (probArr r) = nSamp) by (rewrite EP, map_length; auto).
    assert (PP : forall x, In x (probArr r) -> 0 < x).
    { intros x Hx. rewrite EP in Hx. apply in_map_iff in Hx. destruct Hx as (s0 & <- & _). apply Rmult_lt_0_compat; [auto|apply exp_pos]. }
    assert (PN : probArr r <> []) by (intros Z; rewrite Z in LP; simpl in LP; lia).
    pose proof (rsum_pos_list _ PN PP) as SP.
    assert (LC : length (CPDF r) = nSamp) by (rewrite EC, map_length, cumsum_length; auto).
    assert (IC : increasing (CPDF r)) by (rewrite EC; apply map_div_increasing; auto; apply cumsum_increasing, PP).
    assert (VC : forall k, (k < nSamp)%nat -> nth k (CPDF r) 0 = rsum (firstn (S k) (probArr r)) / rsum (probArr r)).
    { intros k Hk. rewrite EC, (nth_map_lt _ _ _ _ 0) by (rewrite cumsum_length; lia). rewrite cumsum_nth by lia. f_equal. ring. }
    assert (C1 : nth (nSamp - 1) (CPDF r) 0 = 1).
    { rewrite VC by lia. rewrite firstn_all2 by lia. field. lra. }
    assert (C0 : 0 < nth 0 (CPDF r) 0).
    { rewrite VC by lia. apply Rdiv_lt_0_compat; auto. destruct (probArr r) as [|a t]; [contradiction|]. simpl firstn. rewrite rsum_cons, rsum_nil.
      specialize (PP a (or_introl eq_refl)). lra. }
    assert (EX : forall q, q < 1 -> exists j, (j < length (CPDF r))%nat /\ q < nth j (CPDF r) 0).
    { intros q Hq. exists (nSamp - 1)%nat. rewrite C1. split; [lia|auto]. }
    assert (LL : length (sigmaAddArr r) = length (CPDF r)) by lia.
    destruct (percentile_spec _ _ (15.72 / 100) LL Ig IC (EX (15.72 / 100) ltac:(lra))) as (_ & v16 & E16 & _).
    destruct (percentile_spec _ _ (50 / 100) LL Ig IC (EX (50 / 100) ltac:(lra))) as (_ & v50 & E50' & _).
    destruct (percentile_spec _ _ (84.27 / 100) LL Ig IC (EX (84.27 / 100) ltac:(lra))) as (_ & v84 & E84 & _).
    rewrite E50' in E50. rewrite E50, E16 in EM. rewrite E50, E84 in EPl. cbn [osub o2] in EM, EPl.
    destruct (percentile_monotone _ _ (15.72 / 100) (50 / 100) v16 v50 LL Ig IC (EX (50 / 100) ltac:(lra)) ltac:(lra) E16 E50') as [[B1 B2] _].
    destruct (percentile_monotone _ _ (50 / 100) (84.27 / 100) v50 v84 LL Ig IC (EX (84.27 / 100) ltac:(lra)) ltac:(lra) E50' E84) as [[_ B3] B4].
    rewrite Vg in B1 by lia. rewrite Lg, Vg in B4 by lia. replace (S (nSamp - 1)) with nSamp in B4 by lia. simpl (INR 1) in B1.
    assert (HN : 0 < INR nSamp) by (apply lt_0_INR; lia).
    replace (INR nSamp * (rng / INR nSamp)) with rng in B4 by (field; lra).
    exists r, v50, (v50 - v16), (v84 - v50). split; [exact E|]. do 4 (split; [assumption|]). split; [|].
    - intros k Hk. apply PP, nth_In. lia.
    - repeat (split; [solve [assumption | lra]|]). lra.
  Qed.
End SigmaAdd.

Lemma ln_sqrt_exp : forall t, 0 < t -> exp (- ln (sqrt t)) = / sqrt t.
Proof. intros t Ht. rewrite exp_Ropp, exp_ln; auto. apply sqrt_lt_R0, Ht. Qed.

Lemma tots_cons : forall b dy s0, tots (Some b :: dy) s0 = (b ^ 2 + s0 ^ 2) :: tots dy s0.
Proof. reflexivity. Qed.

Lemma regroup : forall u S1 v S2, - (u + S1) - (v + S2) / 2 = - u + - (v / 2) + (- S1 - S2 / 2).
Proof. intros. field. Qed.

Lemma pairs_some : forall ys ds, pairs (map Some ys) (map Some ds) = combine ys ds.
Proof. induction ys as [|a ys IH]; intros [|b ds]; simpl; auto. unfold pairs in *. simpl. f_equal. apply IH. Qed.

(** C32: the probability curve is the Gaussian likelihood of the data with the
    additional scatter, times 1/s, up to one constant factor. *)
Theorem sigma_add_likelihood : forall nData ys ds yMed nSamp rng, length ys = length ds ->
  (2 <= nSamp)%nat -> is_range (combine ys ds) rng -> 0 < rng ->
  exists r c, calc_sigma_add nData (map Some ys) (map Some ds) yMed nSamp = POk r /\ 0 < c /\
    length (probArr r) = nSamp /\
    forall k, (k < nSamp)%nat ->
      nth k (sigmaAddArr r) 0 = INR (S k) * (rng / INR nSamp) /\
      nth k (probArr r) 0 = c * likelihood (combine ys ds) yMed (nth k (sigmaAddArr r) 0).
Proof.
  intros nData ys ds yMed nSamp rng Hl Hn Hrng Hr.
  destruct (sigma_add_eq nData (map Some ys) (map Some ds) yMed nSamp rng Hn ltac:(rewrite pairs_some; exact Hrng) Hr)
    as (r & c & E & Hc & Lg & Ig & Vg & EP & _).
  assert (HN : 0 < INR nSamp) by (apply lt_0_INR; lia).
  set (K := exp (- (INR nData * ln (2 * PI) / 2)) * sqrt (2 * PI) ^ length ys).
  assert (P2 : 0 < sqrt (2 * PI)) by (apply sqrt_lt_R0; pose proof PI_RGT_0; lra).
  assert (KP : 0 < K) by (apply Rmult_lt_0_compat; [apply exp_pos|apply pow_lt, P2]).
  exists r, (c * K). split; [exact E|]. split; [apply Rmult_lt_0_compat; auto|]. split; [rewrite EP, map_length; auto|].
  intros k Hk. split; [apply Vg, Hk|]. rewrite EP, (nth_map_lt _ _ _ _ 0) by lia. rewrite Rmult_assoc. f_equal.
  set (s0 := nth k (sigmaAddArr r) 0).
  assert (S0 : 0 < s0). { unfold s0. rewrite Vg by auto. apply Rmult_lt_0_compat; [apply lt_0_INR; lia|apply Rdiv_lt_0_compat; lra]. }
  unfold lnP, likelihood, K. rewrite pairs_some. clearbody s0. clear -S0 P2 Hl.
  assert (exp (- ln s0 - INR nData * ln (2 * PI) / 2 - rsum (map (fun t => ln (sqrt t)) (tots (map Some ds) s0)) -
    rsum (map (fun ab => (fst ab - yMed) ^ 2 / (snd ab ^ 2 + s0 ^ 2)) (combine ys ds)) / 2)
    = / s0 * exp (- (INR nData * ln (2 * PI) / 2)) *
      exp (- rsum (map (fun t => ln (sqrt t)) (tots (map Some ds) s0)) - rsum (map (fun ab => (fst ab - yMed) ^ 2 / (snd ab ^ 2 + s0 ^ 2)) (combine ys ds)) / 2)) as ->.
  { assert (IS : / s0 = exp (- ln s0)) by (rewrite exp_Ropp, exp_ln; auto). rewrite IS, <- !exp_plus. f_equal. lra. }
  assert (exp (- rsum (map (fun t => ln (sqrt t)) (tots (map Some ds) s0)) - rsum (map (fun ab => (fst ab - yMed) ^ 2 / (snd ab ^ 2 + s0 ^ 2)) (combine ys ds)) / 2)
    = sqrt (2 * PI) ^ length ys * fold_right Rmult 1 (map (fun yd => gauss (fst yd - yMed) (snd yd ^ 2 + s0 ^ 2)) (combine ys ds))) as ->; [|ring].
  revert ds Hl. induction ys as [|a ys IH]; intros [|b ds] Hl; try discriminate.
  - simpl. rewrite !rsum_nil. replace (- 0 - 0 / 2) with 0 by field. rewrite exp_0. ring.
  - change (map Some (b :: ds)) with (Some b :: map Some ds). rewrite tots_cons.
    change (combine (a :: ys) (b :: ds)) with ((a, b) :: combine ys ds). rewrite !map_cons, !rsum_cons.
    cbn [fold_right fst snd length]. change (sqrt (2 * PI) ^ S (length ys)) with (sqrt (2 * PI) * sqrt (2 * PI) ^ length ys).
    specialize (IH ds ltac:(simpl in Hl; lia)).
    rewrite regroup.
    rewrite !exp_plus, IH. set (t := b ^ 2 + s0 ^ 2). assert (T : 0 < t) by (unfold t; nra).
    rewrite ln_sqrt_exp by auto. unfold gauss.
    assert (sqrt (2 * PI * t) = sqrt (2 * PI) * sqrt t) as -> by (apply sqrt_mult_alt; pose proof PI_RGT_0; lra).
    assert (0 < sqrt t) by (apply sqrt_lt_R0, T).
    replace (- (a - yMed) ^ 2 / (2 * t)) with (- ((a - yMed) ^ 2 / t / 2)) by (field; lra).
    field. lra.
Qed.
