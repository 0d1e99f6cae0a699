(** The Levenberg-Marquardt step (Mp_Model.qrsolv): the rotations turn R^T R + D^2
    into S^T S, unless the inner loop is left early. *)
From Coq Require Import Reals List Arith ZArith Bool Lra Lia Psatz Permutation.
From Verif Require Import PyRes CBase PyList Mp_Model Mp_Spec Mp_Sums Mp_QR Mp_Solve.
Import ListNotations.
Local Open Scope R_scope.

Lemma half_over_sqrt : forall t, 5 / 10 / sqrt (25 / 100 + 25 / 100 * t * t) * (5 / 10 / sqrt (25 / 100 + 25 / 100 * t * t)) * (1 + t * t) = 1.
Proof.
  intros t. assert (0 < 25 / 100 + 25 / 100 * t * t) by nra.
  set (q := sqrt (25 / 100 + 25 / 100 * t * t)).
  assert (q * q = 25 / 100 + 25 / 100 * t * t) as Q by (unfold q; apply sqrt_sqrt; lra).
  assert (0 < q) by (unfold q; apply sqrt_lt_R0; lra).
  replace (5 / 10 / q * (5 / 10 / q) * (1 + t * t)) with ((25 / 100 + 25 / 100 * t * t) / (q * q)) by (field; lra).
  rewrite Q. field. lra.
Qed.

Lemma rotation_spec : forall a b, b <> 0 -> let '(c, s) := rotation a b in
  c * c + s * s = 1 /\ - s * a + c * b = 0 /\ (c * a + s * b) * (c * a + s * b) = a * a + b * b.
Proof.
  intros a b Hb. unfold rotation.
  assert (forall c s, c * c + s * s = 1 -> - s * a + c * b = 0 ->
    c * c + s * s = 1 /\ - s * a + c * b = 0 /\ (c * a + s * b) * (c * a + s * b) = a * a + b * b) as Fin.
  { intros c s H1 H2. repeat split; auto.
    replace ((c * a + s * b) * (c * a + s * b)) with ((c * c + s * s) * (a * a + b * b) - (- s * a + c * b) * (- s * a + c * b)) by ring.
    rewrite H1, H2. ring. }
  destruct (Rlt_dec (Rabs a) (Rabs b)) as [L|L].
  - set (t := a / b). pose proof (half_over_sqrt t) as Hs.
    set (s := 5 / 10 / sqrt (25 / 100 + 25 / 100 * t * t)) in *. apply Fin.
    + rewrite <- Hs. ring.
    + unfold t. field. auto.
  - assert (a <> 0) as Ha.
    { intros ->. apply L. rewrite Rabs_R0. apply Rabs_pos_lt. auto. }
    set (t := b / a). pose proof (half_over_sqrt t) as Hs.
    set (s := 5 / 10 / sqrt (25 / 100 + 25 / 100 * t * t)) in *. apply Fin.
    + rewrite <- Hs. ring.
    + unfold t. field. auto.
Qed.

(** row i of the triangle S: stored below the diagonal of r, its diagonal in dg *)
Definition srow (r : mat) (dg : vec) (i c : nat) : R :=
  if Nat.ltb c i then 0 else if Nat.eqb c i then dg i else r c i.
(** the row being eliminated *)
Definition erow (sd : vec) (k c : nat) : R := if Nat.ltb c k then 0 else sd c.
(** the diagonal of S while row j of D is eliminated *)
Definition sdg (j : nat) (r : mat) (sd : vec) (i : nat) : R := if Nat.ltb i j then sd i else r i i.

(** the loop over k is not left while something is still to be eliminated *)
Fixpoint clean (n : nat) (ks : list nat) (r : mat) (sd : vec) : Prop :=
  match ks with
  | [] => True
  | k :: ks' =>
      if Req_EM_T (sd k) 0 then forall c, (k <= c < n)%nat -> sd c = 0
      else
        let '(c, s) := rotation (r k k) (sd k) in
        let r' := fun i cc => if Nat.eqb cc k then
                                if Nat.eqb i k then c * r k k + s * sd k
                                else if Nat.ltb k i && Nat.ltb i n then c * r i k + s * sd i else r i cc
                              else r i cc in
        let sd' := fun i => if Nat.ltb k i && Nat.ltb i n then - s * r i k + c * sd i else sd i in
        clean n ks' r' sd'
  end.

Lemma ssum_change : forall n k F F', (k < n)%nat -> (forall i, (i < n)%nat -> i <> k -> F' i = F i) ->
  ssum 0 n F' = ssum 0 n F - F k + F' k.
Proof.
  intros n k F F' Hk H.
  rewrite (ssum_split 0 k n), (ssum_split k (S k) n), ssum_one by lia.
  rewrite (ssum_split 0 k n) with (f := F), (ssum_split k (S k) n) with (f := F), ssum_one by lia.
  rewrite (ssum_ext 0 k F' F) by (intros; apply H; lia).
  rewrite (ssum_ext (S k) n F' F) by (intros; apply H; lia). ring.
Qed.

Record givens_ok (n j k : nat) (r : mat) (sd wa : vec) (q : R) (r' : mat) (sd' wa' : vec) : Prop := mk_gok {
  g_gram : forall c d, (c < n)%nat -> (d < n)%nat ->
    ssum 0 n (fun i => srow r' (sdg j r' sd') i c * srow r' (sdg j r' sd') i d) =
    ssum 0 n (fun i => srow r (sdg j r sd) i c * srow r (sdg j r sd) i d) + erow sd k c * erow sd k d;
  g_rhs : forall c, (c < n)%nat ->
    ssum 0 n (fun i => srow r' (sdg j r' sd') i c * wa' i) =
    ssum 0 n (fun i => srow r (sdg j r sd) i c * wa i) + erow sd k c * q }.

(** what holds whether or not the loop is left early *)
Definition givens_frame (n k : nat) (r : mat) (sd : vec) (r' : mat) (sd' : vec) : Prop :=
  (forall i c, (i < c)%nat -> r' i c = r i c) /\
  (forall i c, (c < k)%nat -> r' i c = r i c) /\
  (forall i, (i < k)%nat -> sd' i = sd i).

Lemma givens_spec : forall t n j k r sd wa q, (k + t = n)%nat -> (j <= k)%nat ->
  let '(r', sd', wa') := givens n (seq k t) r sd wa q in
  givens_frame n k r sd r' sd' /\ (clean n (seq k t) r sd -> givens_ok n j k r sd wa q r' sd' wa').
Proof.
  induction t as [|t IH]; intros n j k r sd wa q Hk Hj.
  - cbn [seq givens]. split; [repeat split|]. intros _. split.
    + intros c d Hc Hd. unfold erow. destruct (Nat.ltb_spec c k); [ring|lia].
    + intros c Hc. unfold erow. destruct (Nat.ltb_spec c k); [ring|lia].
  - cbn [seq givens clean]. destruct (Req_EM_T (sd k) 0) as [E|E].
    { split; [repeat split|]. intros Cl.
      assert (forall c, (c < n)%nat -> erow sd k c = 0) as Z.
      { intros c Hc. unfold erow. destruct (Nat.ltb_spec c k); auto. }
      split.
      - intros c d Hc Hd. rewrite !Z by auto. ring.
      - intros c Hc. rewrite Z by auto. ring. }
    pose proof (rotation_spec (r k k) (sd k) E) as Rot.
    destruct (rotation (r k k) (sd k)) as [co s]. destruct Rot as (R1 & R2 & R3).
    set (r1 := fun i cc => if Nat.eqb cc k then _ else r i cc).
    set (sd1 := fun i => if Nat.ltb k i && Nat.ltb i n then _ else sd i).
    set (wa1 := upd wa k _). set (q1 := - s * wa k + co * q).
    specialize (IH n j (S k) r1 sd1 wa1 q1 ltac:(lia) ltac:(lia)).
    destruct (givens n (seq (S k) t) r1 sd1 wa1 q1) as [[r' sd'] wa'].
    destruct IH as [(F1 & F2 & F3) IH].
    assert (forall i c, (i < c)%nat -> r1 i c = r i c) as U1.
    { intros i c Hic. unfold r1. destruct (Nat.eqb_spec c k) as [->|]; auto.
      destruct (Nat.eqb_spec i k), (Nat.ltb_spec k i); try lia; reflexivity. }
    assert (forall i c, c <> k -> r1 i c = r i c) as U2.
    { intros i c Hc. unfold r1. destruct (Nat.eqb_spec c k); [contradiction|auto]. }
    assert (forall i, (i <= k)%nat -> sd1 i = sd i) as U3.
    { intros i Hi. unfold sd1. destruct (Nat.ltb_spec k i); [lia|reflexivity]. }
    split.
    { split; [|split].
      - intros i c Hic. rewrite F1 by auto. auto.
      - intros i c Hc. rewrite F2 by lia. apply U2. lia.
      - intros i Hi. rewrite F3 by lia. apply U3. lia. }
    intros Cl. destruct (IH Cl) as [G V]. clear IH.
    (* one rotation *)
    assert (forall i c, (i < n)%nat -> (c < n)%nat -> i <> k -> srow r1 (sdg j r1 sd1) i c = srow r (sdg j r sd) i c) as Ri.
    { intros i c Hi Hc Hik. unfold srow. destruct (Nat.ltb_spec c i); auto. destruct (Nat.eqb_spec c i) as [->|].
      - unfold sdg. destruct (Nat.ltb_spec i j); [apply U3; lia|apply U2; auto].
      - apply U2; auto. }
    assert (forall c, (c < n)%nat -> srow r1 (sdg j r1 sd1) k c = co * srow r (sdg j r sd) k c + s * erow sd k c) as Rk.
    { intros c Hc. unfold srow, erow. destruct (Nat.ltb_spec c k); [ring|]. destruct (Nat.eqb_spec c k) as [->|].
      - unfold sdg. destruct (Nat.ltb_spec k j); [lia|]. unfold r1. rewrite !Nat.eqb_refl. reflexivity.
      - unfold r1. rewrite Nat.eqb_refl. destruct (Nat.eqb_spec c k); [lia|].
        destruct (Nat.ltb_spec k c), (Nat.ltb_spec c n); try lia. reflexivity. }
    assert (forall c, (c < n)%nat -> erow sd1 (S k) c = - s * srow r (sdg j r sd) k c + co * erow sd k c) as Re.
    { intros c Hc. unfold srow, erow. destruct (Nat.ltb_spec c (S k)) as [Lc|Lc].
      - destruct (Nat.ltb_spec c k); [ring|]. assert (c = k) as -> by lia. rewrite Nat.eqb_refl.
        unfold sdg. destruct (Nat.ltb_spec k j); [lia|]. lra.
      - destruct (Nat.ltb_spec c k); [lia|]. destruct (Nat.eqb_spec c k); [lia|].
        unfold sd1. destruct (Nat.ltb_spec k c), (Nat.ltb_spec c n); try lia. reflexivity. }
    split.
    + intros c d Hc Hd. rewrite G by auto.
      rewrite (ssum_change n k (fun i => srow r (sdg j r sd) i c * srow r (sdg j r sd) i d)
                 (fun i => srow r1 (sdg j r1 sd1) i c * srow r1 (sdg j r1 sd1) i d)) by
        (try lia; intros i Hi Hik; rewrite !Ri by auto; reflexivity).
      rewrite !Rk, !Re by auto.
      set (a := srow r (sdg j r sd) k c). set (b := srow r (sdg j r sd) k d).
      set (e := erow sd k c). set (f := erow sd k d).
      replace ((co * a + s * e) * (co * b + s * f)) with
        ((co * co) * (a * b) + (s * s) * (e * f) + co * s * (a * f + e * b)) by ring.
      replace ((- s * a + co * e) * (- s * b + co * f)) with
        ((s * s) * (a * b) + (co * co) * (e * f) - co * s * (a * f + e * b)) by ring.
      replace (co * co) with (1 - s * s) by lra. ring.
    + intros c Hc. rewrite V by auto.
      rewrite (ssum_change n k (fun i => srow r (sdg j r sd) i c * wa i)
                 (fun i => srow r1 (sdg j r1 sd1) i c * wa1 i)).
      2: lia.
      2:{ intros i Hi Hik. rewrite Ri by auto. unfold wa1, upd. destruct (Nat.eqb_spec i k); [contradiction|reflexivity]. }
      rewrite Rk, Re by auto. unfold wa1, upd, q1. rewrite Nat.eqb_refl.
      set (a := srow r (sdg j r sd) k c). set (e := erow sd k c).
      replace ((co * a + s * e) * (co * wa k + s * q)) with
        ((co * co) * (a * wa k) + (s * s) * (e * q) + co * s * (a * q + e * wa k)) by ring.
      replace ((- s * a + co * e) * (- s * wa k + co * q)) with
        ((s * s) * (a * wa k) + (co * co) * (e * q) - co * s * (a * q + e * wa k)) by ring.
      replace (co * co) with (1 - s * s) by lra. ring.
Qed.

(** the first rotation leaves a non-zero diagonal element *)
Lemma givens_diag : forall n j r sd wa, (j < n)%nat -> sd j <> 0 ->
  let '(r', sd', wa') := givens n (seq j (n - j)) r sd wa 0 in r' j j <> 0.
Proof.
  intros n j r sd wa Hj Hs. replace (n - j)%nat with (S (n - S j)) by lia. cbn [seq givens].
  destruct (Req_EM_T (sd j) 0) as [E|_]; [contradiction|].
  pose proof (rotation_spec (r j j) (sd j) Hs) as Rot.
  destruct (rotation (r j j) (sd j)) as [co s]. destruct Rot as (R1 & R2 & R3).
  match goal with |- context [givens n _ ?r1 ?s1 ?w1 ?q1] =>
    pose proof (givens_spec (n - S j) n (S j) (S j) r1 s1 w1 q1 ltac:(lia) ltac:(lia)) as K;
    destruct (givens n (seq (S j) (n - S j)) r1 s1 w1 q1) as [[r' sd'] wa'] end.
  destruct K as [(_ & F2 & _) _]. rewrite F2 by lia. rewrite !Nat.eqb_refl. nra.
Qed.

(** every row of D is eliminated completely *)
Fixpoint clean_rows (n : nat) (ipvt : nat -> nat) (diag x : vec) (js : list nat) (r : mat) (sd wa : vec) : Prop :=
  match js with
  | [] => True
  | j :: js' =>
      let sd0 := fun i => if Nat.eqb i j then diag (ipvt j) else if Nat.ltb j i then 0 else sd i in
      clean n (seq j (n - j)) r sd0 /\
      let '(r1, sd1, wa1) := givens n (seq j (n - j)) r sd0 wa 0 in
      clean_rows n ipvt diag x js' (upd2 r1 j j (x j)) (upd sd1 j (r1 j j)) wa1
  end.

Lemma qrsolv_loop_spec : forall t n j ipvt diag x r sd wa, (j + t = n)%nat ->
  (forall c, (c < n)%nat -> diag (ipvt c) <> 0) ->
  (forall i, (i < j)%nat -> r i i = x i /\ sd i <> 0) ->
  let '(r', sd', wa') := qrsolv_loop n ipvt diag x (seq j t) r sd wa in
  (forall i c, (i < c)%nat -> r' i c = r i c) /\
  (forall i, (i < n)%nat -> r' i i = x i /\ sd' i <> 0) /\
  (clean_rows n ipvt diag x (seq j t) r sd wa ->
   (forall c d, (c < n)%nat -> (d < n)%nat ->
      ssum 0 n (fun i => srow r' (sdg n r' sd') i c * srow r' (sdg n r' sd') i d) =
      ssum 0 n (fun i => srow r (sdg j r sd) i c * srow r (sdg j r sd) i d) +
      (if Nat.eqb c d && Nat.leb j c then diag (ipvt c) * diag (ipvt c) else 0)) /\
   (forall c, (c < n)%nat ->
      ssum 0 n (fun i => srow r' (sdg n r' sd') i c * wa' i) =
      ssum 0 n (fun i => srow r (sdg j r sd) i c * wa i))).
Proof.
  induction t as [|t IH]; intros n j ipvt diag x r sd wa Hjt Hd Hf.
  - cbn [seq qrsolv_loop]. assert (j = n) as -> by lia. split; [auto|]. split; [auto|]. intros _. split.
    + intros c d Hc Hdd. destruct (Nat.eqb c d), (Nat.leb_spec n c); cbn [andb]; try lia; ring.
    + auto.
  - cbn [seq qrsolv_loop clean_rows]. destruct (Req_EM_T (diag (ipvt j)) 0) as [E|Dj].
    { exfalso. apply (Hd j); auto. lia. }
    set (sd0 := fun i => if Nat.eqb i j then diag (ipvt j) else if Nat.ltb j i then 0 else sd i).
    assert (sd0 j = diag (ipvt j)) as S0 by (unfold sd0; now rewrite Nat.eqb_refl).
    pose proof (givens_spec (n - j) n j j r sd0 wa 0 ltac:(lia) ltac:(lia)) as G.
    pose proof (givens_diag n j r sd0 wa ltac:(lia) ltac:(rewrite S0; auto)) as Gd.
    destruct (givens n (seq j (n - j)) r sd0 wa 0) as [[r1 sd1] wa1].
    destruct G as [(F1 & F2 & F3) G].
    set (r2 := upd2 r1 j j (x j)). set (sd2 := upd sd1 j (r1 j j)).
    assert (forall i c, (i < c)%nat -> r2 i c = r i c) as A1.
    { intros i c Hic. unfold r2, upd2. destruct (Nat.eqb_spec i j), (Nat.eqb_spec c j); cbn [andb]; try lia; auto. }
    assert (forall i, (i < S j)%nat -> r2 i i = x i /\ sd2 i <> 0) as A2.
    { intros i Hi. unfold r2, sd2, upd2, upd. destruct (Nat.eqb_spec i j) as [->|]; cbn [andb]; [auto|].
      rewrite F2, F3 by lia. destruct (Hf i) as [X1 X2]; [lia|]. split; auto.
      unfold sd0. destruct (Nat.eqb_spec i j), (Nat.ltb_spec j i); try lia. auto. }
    specialize (IH n (S j) ipvt diag x r2 sd2 wa1 ltac:(lia) Hd A2).
    destruct (qrsolv_loop n ipvt diag x (seq (S j) t) r2 sd2 wa1) as [[r' sd'] wa'].
    destruct IH as (I1 & I2 & I3). split; [|split; [exact I2|]].
    { intros i c Hic. rewrite I1 by auto. auto. }
    intros [Cl Cr]. destruct (I3 Cr) as [M V]. destruct (G Cl) as [Gg Gv]. clear I3 G.
    assert (forall i c, (i < n)%nat -> (c < n)%nat -> srow r2 (sdg (S j) r2 sd2) i c = srow r1 (sdg j r1 sd1) i c) as Sr.
    { intros i c Hi Hc. unfold srow. destruct (Nat.ltb_spec c i); auto. destruct (Nat.eqb_spec c i) as [->|].
      - unfold sdg, sd2, r2, upd, upd2.
        destruct (Nat.ltb_spec i (S j)), (Nat.ltb_spec i j), (Nat.eqb_spec i j); cbn [andb]; subst; try lia; auto.
      - unfold r2, upd2. destruct (Nat.eqb_spec c j), (Nat.eqb_spec i j); cbn [andb]; try lia; auto. }
    assert (forall i c, (i < n)%nat -> (c < n)%nat -> srow r (sdg j r sd0) i c = srow r (sdg j r sd) i c) as Sr0.
    { intros i c Hi Hc. unfold srow. destruct (Nat.ltb_spec c i); auto. destruct (Nat.eqb_spec c i) as [->|]; auto.
      unfold sdg, sd0. destruct (Nat.ltb_spec i j); auto. destruct (Nat.eqb_spec i j), (Nat.ltb_spec j i); try lia; auto. }
    assert (forall c, (c < n)%nat -> erow sd0 j c = if Nat.eqb c j then diag (ipvt j) else 0) as Er.
    { intros c Hc. unfold erow, sd0. destruct (Nat.ltb_spec c j), (Nat.eqb_spec c j), (Nat.ltb_spec j c); try lia; auto. }
    split.
    + intros c d Hc Hdd. rewrite M by auto.
      rewrite (ssum_ext 0 n _ (fun i => srow r1 (sdg j r1 sd1) i c * srow r1 (sdg j r1 sd1) i d))
        by (intros i Hi; rewrite !Sr by lia; reflexivity).
      rewrite Gg by auto. rewrite !Er by auto.
      rewrite (ssum_ext 0 n (fun i => srow r (sdg j r sd0) i c * srow r (sdg j r sd0) i d)
                            (fun i => srow r (sdg j r sd) i c * srow r (sdg j r sd) i d))
        by (intros i Hi; rewrite !Sr0 by lia; reflexivity).
      destruct (Nat.eqb_spec c d) as [<-|].
      * destruct (Nat.leb_spec (S j) c), (Nat.leb_spec j c), (Nat.eqb_spec c j) as [E2|]; cbn [andb]; try lia; try ring.
        rewrite E2. ring.
      * cbn [andb]. destruct (Nat.eqb_spec c j), (Nat.eqb_spec d j); try lia; ring.
    + intros c Hc. rewrite V by auto.
      rewrite (ssum_ext 0 n _ (fun i => srow r1 (sdg j r1 sd1) i c * wa1 i))
        by (intros i Hi; rewrite !Sr by lia; reflexivity).
      rewrite Gv by auto.
      rewrite (ssum_ext 0 n (fun i => srow r (sdg j r sd0) i c * wa i) (fun i => srow r (sdg j r sd) i c * wa i))
        by (intros i Hi; rewrite !Sr0 by lia; reflexivity).
      ring.
Qed.

Lemma back_subst_spec : forall n r sd b, (forall i, (i < n)%nat -> sd i <> 0) ->
  forall j, (j < n)%nat -> sd j * back_subst n r sd b j + ssum (S j) n (fun i => r i j * back_subst n r sd b i) = b j.
Proof.
  intros n r sd b Hs. unfold back_subst. set (step := fun w j => _).
  assert (let w := fold_left step (rev (seq 0 n)) b in
     (forall j, (0 <= j < n)%nat -> sd j * w j + ssum (S j) n (fun i => r i j * w i) = b j) /\
     (forall j, (j < 0)%nat -> w j = b j)) as K.
  { apply (fold_rev_inv (fun k w =>
     (forall j, (k <= j < n)%nat -> sd j * w j + ssum (S j) n (fun i => r i j * w i) = b j) /\
     (forall j, (j < k)%nat -> w j = b j))).
    - split; [intros; lia|auto].
    - intros k w Hk [H1 H2]. set (w' := step w k).
      assert (forall i, w' i = if Nat.eqb i k then (w k - ssum (k + 1) n (fun i => r i k * w i)) / sd k else w i) as Ew by reflexivity.
      clearbody w'.
      assert (forall j, (k <= j < n)%nat -> ssum (S j) n (fun i => r i j * w' i) = ssum (S j) n (fun i => r i j * w i)) as Es.
      { intros j Hj. apply ssum_ext. intros i Hi. rewrite Ew. destruct (Nat.eqb_spec i k); [lia|reflexivity]. }
      split.
      + intros j Hj. rewrite Es by auto. rewrite Ew. destruct (Nat.eqb_spec j k) as [->|].
        * rewrite Nat.add_1_r. rewrite (H2 k) by lia. field. auto.
        * apply H1. lia.
      + intros j Hj. rewrite Ew. destruct (Nat.eqb_spec j k); [lia|]. apply H2. lia. }
  intros j Hj. apply K. lia.
Qed.

Lemma first_from_none : forall p k i, (forall l, (i <= l < i + k)%nat -> p l = false) -> first_from p i k = (i + k)%nat.
Proof.
  intros p k. induction k as [|k IH]; intros i H; cbn; [lia|].
  rewrite H by lia. rewrite IH; [lia|]. intros l Hl. apply H. lia.
Qed.

Definition qrsolv_clean (n : nat) (r : mat) (ipvt : nat -> nat) (diag qtb sdiag : vec) : Prop :=
  let r0 := fun i c => if Nat.leb c i && Nat.ltb i n then r c i else r i c in
  clean_rows n ipvt diag (fun i => r0 i i) (seq 0 n) r0 sdiag qtb.

(** qrsolv leaves the triangle of r alone, and solves the damped system *)
Lemma qrsolv_spec : forall n r ipvt diag qtb sdiag, is_perm n ipvt ->
  (forall c, (c < n)%nat -> diag (ipvt c) <> 0) ->
  let '(r', x, sd') := qrsolv n r ipvt diag qtb sdiag in
  (forall i c, (i <= c < n)%nat -> r' i c = r i c) /\
  (qrsolv_clean n r ipvt diag qtb sdiag ->
   forall a, (a < n)%nat ->
     ssum 0 n (fun b => ssum 0 n (fun i => up r i a * up r i b) * x (ipvt b)) +
       diag (ipvt a) * diag (ipvt a) * x (ipvt a) =
     ssum 0 n (fun i => up r i a * qtb i)).
Proof.
  intros n r ipvt diag qtb sdiag Hp Hd. unfold qrsolv, qrsolv_clean.
  set (r0 := fun i c => if Nat.leb c i && Nat.ltb i n then r c i else r i c).
  set (x := fun i => if Nat.leb i i && Nat.ltb i n then r i i else r i i).
  pose proof (qrsolv_loop_spec n n 0 ipvt diag x r0 sdiag qtb ltac:(lia) Hd ltac:(intros; lia)) as K.
  destruct (qrsolv_loop n ipvt diag x (seq 0 n) r0 sdiag qtb) as [[r' sd'] wa'].
  destruct K as (K1 & K2 & K3).
  assert (forall i c, (i <= c < n)%nat -> r0 i c = r i c) as R0.
  { intros i c Hic. unfold r0. destruct (Nat.leb_spec c i), (Nat.ltb_spec i n); cbn [andb]; auto.
    assert (i = c) as -> by lia. reflexivity. }
  cbv beta iota zeta. split.
  { intros i c Hic. destruct (Nat.eq_dec i c) as [->|].
    - destruct (K2 c) as [-> _]; [lia|]. change (r0 c c = r c c). apply R0. lia.
    - rewrite K1 by lia. apply R0. lia. }
  intros Cl. destruct (K3 Cl) as [M V]. clear K3.
  assert (first_from (fun i => is_zero (sd' i)) 0 n = n) as ->.
  { apply (first_from_none _ n 0). intros l Hl. unfold is_zero. destruct (Req_EM_T (sd' l) 0) as [E|]; auto.
    exfalso. destruct (K2 l) as [_ N]; [lia|]. auto. }
  set (wb := fun i => if Nat.leb n i then 0 else wa' i).
  set (z := back_subst n r' sd' wb).
  assert (forall j, (j < n)%nat -> sd' j * z j + ssum (S j) n (fun i => r' i j * z i) = wa' j) as Z.
  { intros j Hj. unfold z. rewrite back_subst_spec; auto.
    - unfold wb. destruct (Nat.leb_spec n j); [lia|reflexivity].
    - intros i Hi. apply K2; auto. }
  assert (forall b, (b < n)%nat -> scatter n ipvt z x (ipvt b) = z b) as Sc by (intros; apply scatter_spec; auto).
  assert (forall i c, (i < n)%nat -> (c < n)%nat -> srow r0 (sdg 0 r0 sdiag) i c = up r i c) as S0.
  { intros i c Hi Hc. unfold srow, up, sdg. destruct (Nat.ltb_spec c i), (Nat.leb_spec i c); try lia; auto.
    destruct (Nat.ltb_spec i 0); [lia|]. destruct (Nat.eqb_spec c i) as [->|].
    - apply R0; lia.
    - unfold r0. destruct (Nat.leb_spec i c), (Nat.ltb_spec c n); cbn [andb]; try lia. reflexivity. }
  (* S z = wa' *)
  set (Sf := srow r' (sdg n r' sd')) in *.
  assert (forall i, (i < n)%nat -> ssum 0 n (fun b => Sf i b * z b) = wa' i) as Sz.
  { intros i Hi. rewrite (ssum_split 0 i n) by lia. rewrite (ssum_0 0 i).
    2:{ intros b Hb. unfold Sf, srow. destruct (Nat.ltb_spec b i); [ring|lia]. }
    rewrite (ssum_first i n) by lia. rewrite <- (Z i Hi).
    rewrite (ssum_ext (S i) n (fun b => Sf i b * z b) (fun b => r' b i * z b)).
    2:{ intros b Hb. unfold Sf, srow. destruct (Nat.ltb_spec b i), (Nat.eqb_spec b i); try lia. reflexivity. }
    unfold Sf at 1, srow. rewrite Nat.ltb_irrefl, Nat.eqb_refl. unfold sdg. destruct (Nat.ltb_spec i n); [ring|lia]. }
  intros a Ha.
  assert (forall b, (b < n)%nat -> ssum 0 n (fun i => Sf i a * Sf i b) =
            ssum 0 n (fun i => up r i a * up r i b) + (if Nat.eqb a b then diag (ipvt a) * diag (ipvt a) else 0)) as M'.
  { intros b Hb. rewrite M by auto. cbn [Nat.leb]. rewrite andb_true_r. f_equal.
    apply ssum_ext. intros i Hi. rewrite !S0 by lia. reflexivity. }
  assert (ssum 0 n (fun i => up r i a * qtb i) = ssum 0 n (fun i => Sf i a * wa' i)) as ->.
  { rewrite V by auto. apply ssum_ext. intros i Hi. rewrite S0 by lia. reflexivity. }
  rewrite (ssum_ext 0 n (fun i => Sf i a * wa' i) (fun i => ssum 0 n (fun b => Sf i a * Sf i b * z b))).
  2:{ intros i Hi. rewrite <- Sz by lia. rewrite <- ssum_scal. apply ssum_ext. intros; ring. }
  rewrite ssum_swap.
  rewrite (ssum_ext 0 n (fun b => ssum 0 n (fun i => Sf i a * Sf i b * z b))
             (fun b => ssum 0 n (fun i => up r i a * up r i b) * z b + (if Nat.eqb a b then diag (ipvt a) * diag (ipvt a) * z a else 0))).
  2:{ intros b Hb. rewrite ssum_scal_r, M' by lia. destruct (Nat.eqb_spec a b) as [->|]; ring. }
  rewrite ssum_plus. rewrite (ssum_single 0 n a (fun b => if Nat.eqb a b then _ else 0)).
  2: lia.
  2:{ intros b Hb Hab. destruct (Nat.eqb_spec a b); [congruence|reflexivity]. }
  rewrite Nat.eqb_refl, Sc by auto. f_equal. apply ssum_ext. intros b Hb. rewrite Sc by lia. reflexivity.
Qed.

(** with at most two free parameters no elimination is cut short *)
Lemma clean_small : forall n ipvt diag x js r sd wa, (n <= 2)%nat ->
  (forall j, In j js -> (j < n)%nat /\ diag (ipvt j) <> 0) -> clean_rows n ipvt diag x js r sd wa.
Proof.
  intros n ipvt diag x js. induction js as [|j js IH]; intros r sd wa Hn H; cbn [clean_rows]; auto.
  destruct (H j) as [Hj Hd]; [now left|]. split.
  - replace (n - j)%nat with (S (n - S j)) by lia. cbn [seq clean].
    rewrite Nat.eqb_refl. destruct (Req_EM_T (diag (ipvt j)) 0) as [E|_]; [contradiction|].
    destruct (rotation _ _) as [c s].
    assert (n - S j = 0 \/ (n - S j = 1 /\ S (S j) = n))%nat as [E|[E E']] by lia; rewrite E; cbn [seq clean]; auto.
    match goal with |- context [Req_EM_T ?v 0] => destruct (Req_EM_T v 0) as [Z|Z] end.
    + intros k Hk. assert (k = S j) as -> by lia. exact Z.
    + destruct (rotation _ _). exact Logic.I.
  - destruct (givens _ _ _ _ _ _) as [[r1 sd1] wa1]. apply IH; auto. intros k Hk. apply H. now right.
Qed.
