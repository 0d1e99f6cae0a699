(** Proofs about the spectra figures: angles, their errors, and bands. *)
From Coq Require Import Reals List Arith ZArith Bool Ascii String Lra Lia Psatz Permutation Sorted.
Set Warnings "-ambiguous-paths".
From Coquelicot Require Import Coquelicot.
From Verif Require Import CBase PyRes PyStr PyList PyList_Proofs Measure_Model Median_Proofs Measure_Proofs Pl_Model Fg_Model Fg_Spec Fg_Proofs.
Import ListNotations.
Local Notation length := List.length.
Local Open Scope R_scope.

(* ------------------------------------------------------------------ angles *)

Lemma mod_pos : forall q u, (q, u) <> (0, 0) -> 0 < Cmod (q, u).
Proof.
  intros q u Z. assert (q ^ 2 + u ^ 2 <> 0). { intros E1. apply Z. pose proof (pow2_ge_0 q). pose proof (pow2_ge_0 u). f_equal; apply Rsqr_0_uniq; rewrite Rsqr_pow2; lra. }
  rewrite cmod_hyp. apply sqrt_lt_R0. pose proof (pow2_ge_0 q). pose proof (pow2_ge_0 u). lra.
Qed.
Lemma angle_unique : forall q u a b, (q, u) <> (0, 0) -> angle_at q u a -> angle_at q u b -> a = b.
Proof.
  intros q u a b Z [A1 [A2 A3]] [B1 [B2 B3]]. pose proof (mod_pos q u Z) as P. set (r := Cmod (q, u)) in *. clearbody r.
  assert (E : cis (2 * (a * PI / 180)) = cis (2 * (b * PI / 180))).
  { unfold cis. f_equal; apply (Rmult_eq_reg_l r); lra. }
  apply cis_inj in E. destruct E as [k E]. pose proof PI_RGT_0 as P0.
  assert (E2 : a = b + 180 * IZR k). { apply (Rmult_eq_reg_r (PI / 90)); [|lra]. lra. }
  assert (-1 < IZR k < 1) as [K1 K2] by lra. apply lt_IZR in K1. apply lt_IZR in K2. assert (k = 0%Z) as -> by lia. lra.
Qed.
Lemma arctan2_range : forall y x, - PI < arctan2 y x <= PI.
Proof.
  intros y x. unfold arctan2. pose proof PI_RGT_0 as P. pose proof (atan_bound (y / x)) as B.
  destruct (Rlt_dec 0 x); [lra|]. destruct (Rlt_dec x 0).
  - destruct (Rle_dec 0 y).
    + assert (y / x <= 0). { unfold Rdiv. assert (/ x < 0) by (apply Rinv_lt_0_compat; lra). nra. }
      assert (atan (y / x) <= 0). { destruct (Rle_lt_or_eq_dec _ _ H) as [h|h]; [left; rewrite <- atan_0; apply atan_increasing, h|rewrite h, atan_0; lra]. } lra.
    + assert (0 < y / x). { unfold Rdiv. assert (/ x < 0) by (apply Rinv_lt_0_compat; lra). nra. }
      assert (0 < atan (y / x)). { rewrite <- atan_0. apply atan_increasing, H. } lra.
  - destruct (Rlt_dec 0 y); [lra|]. destruct (Rlt_dec y 0); lra.
Qed.
(** an angle in radians to one in degrees *)
Lemma angle_from : forall q u a, - PI < a <= PI -> q = Cmod (q, u) * cos a -> u = Cmod (q, u) * sin a -> angle_at q u (a * 90 / PI).
Proof.
  intros q u a H E1 E2. pose proof PI_RGT_0 as P. unfold angle_at.
  replace (2 * (a * 90 / PI * PI / 180)) with a by (field; lra). split; [|split; auto].
  split; apply (Rmult_lt_reg_r PI) || apply (Rmult_le_reg_r PI); try lra; replace (a * 90 / PI * PI) with (a * 90) by (field; lra); lra.
Qed.
Lemma psi_angle : forall q u, angle_at q u (psi_deg u q).
Proof.
  intros q u. unfold psi_deg, degrees. replace (arctan2 u q / 2 * 180 / PI) with (arctan2 u q * 90 / PI) by (field; apply PI_neq0).
  destruct (arctan2_spec q u) as [E1 E2]. cbv zeta in E1, E2. apply angle_from; [apply arctan2_range| |]; rewrite cmod_hyp; auto.
Qed.
Lemma psi_zero : psi_deg 0 0 = 0.
Proof. unfold psi_deg, degrees, arctan2. repeat (destruct Rlt_dec; [lra|]). field. apply PI_neq0. Qed.

(** the three pieces away from the negative q axis *)
Lemma ang_right : forall q u a, 0 < q -> angle_at q u a -> a = atan (u / q) * 90 / PI.
Proof.
  intros q u a H A. pose proof PI_RGT_0. apply (angle_unique q u); auto; [intros E; injection E; lra|].
  destruct (arctan2_spec q u) as [E1 E2]. cbv zeta in E1, E2. unfold arctan2 in E1, E2. destruct (Rlt_dec 0 q); [|contradiction].
  pose proof (atan_bound (u / q)). apply angle_from; [lra| |]; rewrite cmod_hyp; auto.
Qed.
Lemma ang_up : forall q u a, 0 < u -> angle_at q u a -> a = (PI / 2 - atan (q / u)) * 90 / PI.
Proof.
  intros q u a H A. pose proof PI_RGT_0. apply (angle_unique q u); auto; [intros E; injection E; lra|].
  destruct (arctan2_spec u q) as [E1 E2]. cbv zeta in E1, E2. unfold arctan2 in E1, E2. destruct (Rlt_dec 0 u); [|contradiction].
  pose proof (atan_bound (q / u)). rewrite Rplus_comm in E1, E2. apply angle_from; [lra| |]; rewrite cmod_hyp.
  - rewrite cos_shift. auto.
  - rewrite sin_shift. auto.
Qed.
Lemma ang_down : forall q u a, u < 0 -> angle_at q u a -> a = (- (PI / 2) - atan (q / u)) * 90 / PI.
Proof.
  intros q u a H A. pose proof PI_RGT_0. apply (angle_unique q u); auto; [intros E; injection E; lra|].
  destruct (arctan2_spec (- u) q) as [E1 E2]. cbv zeta in E1, E2. unfold arctan2 in E1, E2. destruct (Rlt_dec 0 (- u)); [|lra].
  replace (q / - u) with (- (q / u)) in E1, E2 by (field; lra). rewrite atan_opp in E1, E2.
  pose proof (atan_bound (q / u)). replace ((- u) ^ 2 + q ^ 2) with (q ^ 2 + u ^ 2) in E1, E2 by ring. apply angle_from; [lra| |]; rewrite cmod_hyp.
  - replace (- (PI / 2) - atan (q / u)) with (- (PI / 2 - - atan (q / u))) by ring. rewrite cos_neg, cos_shift. auto.
  - replace (- (PI / 2) - atan (q / u)) with (- (PI / 2 - - atan (q / u))) by ring. rewrite sin_neg, sin_shift. lra.
Qed.
Lemma near_pos : forall x (P : R -> Prop), 0 < x -> (forall t, 0 < t -> P t) -> locally x P.
Proof.
  intros x P H K. exists (mkposreal x H). intros t Ht. apply K. unfold ball in Ht. simpl in Ht. unfold AbsRing_ball, abs, minus, plus, opp in Ht. simpl in Ht.
  apply Rabs_def2 in Ht. lra.
Qed.
Lemma near_neg : forall x (P : R -> Prop), x < 0 -> (forall t, t < 0 -> P t) -> locally x P.
Proof.
  intros x P H K. assert (H' : 0 < - x) by lra. exists (mkposreal (- x) H'). intros t Ht. apply K. unfold ball in Ht. simpl in Ht. unfold AbsRing_ball, abs, minus, plus, opp in Ht. simpl in Ht.
  apply Rabs_def2 in Ht. lra.
Qed.
Lemma near_all : forall x (P : R -> Prop), (forall t, P t) -> locally x P.
Proof. intros x P K. exists (mkposreal 1 Rlt_0_1). intros t _. apply K. Qed.

Lemma angle_partials : forall ang q u, (forall q u, (q, u) <> (0, 0) -> angle_at q u (ang q u)) -> 0 < q \/ u <> 0 ->
  is_derive (fun t => ang t u) q (- u / (q ^ 2 + u ^ 2) * 90 / PI) /\ is_derive (fun t => ang q t) u (q / (q ^ 2 + u ^ 2) * 90 / PI).
Proof.
  intros ang q u A H. pose proof PI_RGT_0 as P0.
  assert (Z : forall q u, q <> 0 \/ u <> 0 -> (q, u) <> (0, 0)) by (intros q0 u0 [h|h] E; injection E; intros; contradiction).
  destruct (Rlt_dec 0 u) as [U|U]; [|destruct (Rlt_dec u 0) as [V|V]].
  - assert (S0 : q ^ 2 + u ^ 2 <> 0) by (pose proof (pow2_ge_0 q); assert (0 < u ^ 2) by (apply pow_lt, U); lra). assert (S1 : 1 + (q / u) ^ 2 <> 0) by (pose proof (pow2_ge_0 (q / u)); lra).
    split; eapply is_derive_ext_loc.
    + apply near_all. intros t. symmetry. apply ang_up; [exact U|]. apply A, Z. right; lra.
    + auto_derive; [lra|]. unfold Rsqr. field. repeat split; try lra; intros E; apply S0; nra.
    + apply (near_pos u (fun t => (PI / 2 - atan (q / t)) * 90 / PI = ang q t)); auto. intros t Ht. symmetry. apply ang_up; [exact Ht|]. apply A, Z. right; lra.
    + auto_derive; [lra|]. unfold Rsqr. field. repeat split; try lra; intros E; apply S0; nra.
  - assert (S0 : q ^ 2 + u ^ 2 <> 0) by (pose proof (pow2_ge_0 q); assert (0 < u ^ 2) by nra; lra). assert (S1 : 1 + (q / u) ^ 2 <> 0) by (pose proof (pow2_ge_0 (q / u)); lra).
    split; eapply is_derive_ext_loc.
    + apply near_all. intros t. symmetry. apply ang_down; [exact V|]. apply A, Z. right; lra.
    + auto_derive; [lra|]. unfold Rsqr. field. repeat split; try lra; intros E; apply S0; nra.
    + apply (near_neg u (fun t => (- (PI / 2) - atan (q / t)) * 90 / PI = ang q t)); auto. intros t Ht. symmetry. apply ang_down; [exact Ht|]. apply A, Z. right; lra.
    + auto_derive; [lra|]. unfold Rsqr. field. repeat split; try lra; intros E; apply S0; nra.
  - assert (u = 0) as -> by lra. assert (Q : 0 < q) by (destruct H; [auto|contradiction]).
    assert (S0 : q ^ 2 + 0 ^ 2 <> 0) by (assert (0 < q ^ 2) by (apply pow_lt, Q); lra).
    split; eapply is_derive_ext_loc.
    + apply (near_pos q (fun t => atan (0 / t) * 90 / PI = ang t 0)); auto. intros t Ht. symmetry. apply ang_right; [exact Ht|]. apply A, Z. left; lra.
    + auto_derive; [lra|]. unfold Rsqr. field. repeat split; try lra; intros E; apply S0; nra.
    + apply near_all. intros t. symmetry. apply ang_right; [exact Q|]. apply A, Z. left; lra.
    + auto_derive; [lra|]. unfold Rsqr. field. repeat split; try lra; intros E; apply S0; nra.
Qed.

Lemma zip4_ok : forall q u dq du r, zip4 q u dq du = POk r ->
  length q = length r /\ length u = length r /\ length dq = length r /\ length du = length r /\
  forall i, (i < length r)%nat -> nth i r None = match nth i q None, nth i u None, nth i dq None, nth i du None with Some a, Some b, Some c, Some d => dpsi_deg a b c d | _, _, _, _ => None end.
Proof.
  induction q as [|a q IH]; intros [|b u] [|c dq] [|e du] r H; simpl in H; try discriminate H.
  - injection H as <-. simpl. repeat split; auto. intros i Hi. lia.
  - apply bind_ok in H. destruct H as [t [Ht [= <-]]]. apply IH in Ht. destruct Ht as [H1 [H2 [H3 [H4 H5]]]]. simpl. repeat split; try lia. intros [|i] Hi; auto. apply H5. lia.
Qed.
Lemma psi_rel : forall u q r, zip2 (o2 psi_deg) u q = POk r -> pointwise angle_rel q u r.
Proof.
  intros u q r H. apply zip2_ok in H. destruct H as [H1 [H2 H3]]. split; auto. split; auto. intros i Hi. rewrite (H3 i Hi).
  destruct (nth i q None) as [a|], (nth i u None) as [b|]; simpl; auto. exists (psi_deg b a). split; auto. apply psi_angle.
Qed.

Theorem psi_content : forall l2 q u dq du a, plot_psi_vs_lamsq l2 q u (Some dq) (Some du) None None None None = POk a ->
  exists psi d, pointwise angle_rel q u psi /\ drawn a = [Bars [] l2 psi None (Some d); HLine 0] /\
    margin (5 / 100) l2 (xlim a) /\ ylim a = Some (- (999 / 10), 999 / 10) /\ length d = length l2 /\
    forall ang, (forall q u, (q, u) <> (0, 0) -> angle_at q u (ang q u)) ->
    forall i q0 u0 dq0 du0, (i < length l2)%nat -> nth i q None = Some q0 -> nth i u None = Some u0 -> nth i dq None = Some dq0 -> nth i du None = Some du0 ->
      (0 < q0 \/ u0 <> 0 -> exists e, nth i d None = Some e /\ propagated ang q0 u0 dq0 du0 e) /\
      ((q0, u0) = (0, 0) -> nth i d None = None).
Proof.
  intros l2 q u dq du a H. unfold plot_psi_vs_lamsq in H. apply bind_ok in H. destruct H as [psi [Hp H]].
  apply bind_ok in H. destruct H as [d0 [Hd H]]. apply bind_ok in Hd. destruct Hd as [d [Hd [= <-]]].
  apply bind_ok in H. destruct H as [ar [Ha H]]. apply bind_ok in H. destruct H as [xl [Hx [= <-]]].
  repeat (apply draws_cons in Ha; let a1 := fresh "a" in let b1 := fresh "b" in let h := fresh "H" in destruct Ha as [a1 [b1 [h [Ha ->]]]]).
  apply draws_nil in Ha. subst. injection H0 as <-. injection H1 as <-. injection H2 as <-. apply errorbar_ok in H. destruct H as [-> [_ [_ [L _]]]]. simpl in L.
  apply psi_rel in Hp. apply zip4_ok in Hd. destruct Hd as [_ [_ [_ [_ Hd]]]].
  exists psi, d. split; [exact Hp|]. split; [reflexivity|]. split; [apply limits_ok, Hx|]. split; [reflexivity|]. split; [auto|].
  intros ang A i q0 u0 dq0 du0 Hi E1 E2 E3 E4. rewrite (Hd i ltac:(lia)), E1, E2, E3, E4. unfold dpsi_deg. cbv zeta. split.
  - intros K. assert (Z : (q0, u0) <> (0, 0)) by (intros E; injection E as -> ->; destruct K; lra).
    pose proof (mod_pos _ _ Z) as P. rewrite cmod_hyp in P. set (p := sqrt (q0 ^ 2 + u0 ^ 2)) in *.
    assert (P2 : p ^ 2 = q0 ^ 2 + u0 ^ 2) by (unfold p; rewrite <- Rsqr_pow2; apply Rsqr_sqrt; pose proof (pow2_ge_0 q0); pose proof (pow2_ge_0 u0); lra).
    assert (P3 : 0 < p ^ 2) by (apply pow_lt, P). destruct (Req_EM_T (2 * p ^ 2) 0) as [E|_]; [lra|]. eexists. split; [reflexivity|].
    destruct (angle_partials ang q0 u0 A K) as [D1 D2]. eexists. eexists. split; [exact D1|]. split; [exact D2|]. rewrite <- P2. unfold degrees. pose proof PI_RGT_0 as P0.
    replace ((- u0 / p ^ 2 * 90 / PI * dq0) ^ 2 + (q0 / p ^ 2 * 90 / PI * du0) ^ 2) with (((q0 * du0) ^ 2 + (u0 * dq0) ^ 2) * (90 / PI / p ^ 2) ^ 2) by (field; lra).
    rewrite sqrt_mult by (try apply pow2_ge_0; pose proof (pow2_ge_0 (q0 * du0)); pose proof (pow2_ge_0 (u0 * dq0)); lra).
    rewrite (sqrt_pow2 (90 / PI / p ^ 2)) by (left; repeat apply Rdiv_lt_0_compat; lra). field. lra.
  - intros E. injection E as -> ->. replace (0 ^ 2 + 0 ^ 2) with 0 by ring. rewrite sqrt_0. destruct (Req_EM_T (2 * 0 ^ 2) 0) as [_|n]; auto. contradiction n. ring.
Qed.

(* ------------------------------------------------------------------- bands *)

Lemma perc_at : forall l q k g, (length l = 1000)%nat -> (k < 999)%nat -> q / 100 * 999 = INR k + g -> 0 <= g < 1 ->
  let v := rsort l in percentile q l = nth k v 0 + g * (nth (S k) v 0 - nth k v 0).
Proof.
  intros l q k g L K E G v. unfold percentile. cbv zeta. rewrite L. replace (INR (1000 - 1)) with 999 by (simpl INR; lra).
  assert (F : Rfloor (q / 100 * 999) = Z.of_nat k).
  { apply Rfloor_unique. rewrite <- INR_IZR_INZ. lra. }
  rewrite F, Nat2Z.id, <- INR_IZR_INZ. rewrite E. fold v.
  assert (Lv : length v = 1000%nat) by (unfold v; rewrite <- (Permutation_length (rsort_perm l)); exact L).
  rewrite (nth_indep v (nth k v 0) 0) by lia. ring.
Qed.

Lemma count_rows : forall (P : R -> bool) (f : C -> R) rows j, length (List.filter (fun r => P (f (nth j r (RtoC 0)))) rows) = count P (map f (column (RtoC 0) rows j)).
Proof.
  intros P f rows j. unfold count, column. induction rows as [|r rows IH]; simpl; auto. destruct (P (f (nth j r (RtoC 0)))); simpl; auto.
Qed.
Lemma count_skip : forall P (k : nat) l, (count P (skipn k l) <= count P l)%nat.
Proof.
  intros P. induction k as [|k IH]; intros [|x l]; simpl; auto. specialize (IH l). unfold count in *. simpl. destruct (P x); simpl; lia.
Qed.
Lemma count_from : forall P l a n, (a + n <= length l)%nat -> (forall i, (a <= i < a + n)%nat -> P (nth i l 0) = true) -> (n <= count P l)%nat.
Proof.
  intros P l a n L H. apply Nat.le_trans with (count P (skipn a l)); [|apply count_skip]. apply count_ge.
  - rewrite skipn_length. lia.
  - intros i Hi. assert (E : nth i (skipn a l) 0 = nth (a + i) l 0).
    { clear. revert l. induction a as [|a IH]; intros [|x l]; simpl; auto. destruct i; reflexivity. }
    rewrite E. apply H. lia.
Qed.

Lemma bands_spec : forall f n rows, (length rows = 1000)%nat -> band_of f n rows (bands f n rows 16) (bands f n rows 50) (bands f n rows 84).
Proof.
  intros f n rows L. unfold band_of, bands. rewrite !map_length, !seq_length. repeat (split; [reflexivity|]).
  intros j Hj. set (l := map f (column (RtoC 0) rows j)).
  assert (Ll : (length l = 1000)%nat) by (unfold l, column; rewrite !map_length; exact L).
  assert (N : forall q, nth j (map (fun j => Some (percentile q (map f (column (RtoC 0) rows j)))) (seq 0 n)) None = Some (percentile q l)).
  { intros q. set (g := fun j => Some (percentile q (map f (column (RtoC 0) rows j)))). rewrite (nth_indep _ None (g 0%nat)) by (rewrite map_length, seq_length; exact Hj).
    rewrite map_nth, seq_nth by exact Hj. reflexivity. }
  exists (percentile 16 l), (percentile 50 l), (percentile 84 l). rewrite !N. repeat (split; [reflexivity|]).
  assert (I1 : INR 159 = 159) by (simpl INR; lra). assert (I2 : INR 499 = 499) by (simpl INR; lra). assert (I3 : INR 839 = 839) by (simpl INR; lra).
  pose proof (perc_at l 16 159 (84 / 100) Ll ltac:(lia) ltac:(rewrite I1; lra) ltac:(lra)) as E1.
  pose proof (perc_at l 50 499 (1 / 2) Ll ltac:(lia) ltac:(rewrite I2; lra) ltac:(lra)) as E2.
  pose proof (perc_at l 84 839 (16 / 100) Ll ltac:(lia) ltac:(rewrite I3; lra) ltac:(lra)) as E3. cbv zeta in E1, E2, E3.
  pose proof (rsort_perm l) as Pm. pose proof (rsort_sorted l) as Sv. set (v := rsort l) in *. clearbody v.
  assert (Lv : length v = 1000%nat) by (rewrite <- (Permutation_length Pm); exact Ll).
  assert (O : forall i k, (i <= k < 1000)%nat -> nth i v 0 <= nth k v 0) by (intros i k Hik; apply sorted_nth; auto; lia).
  pose proof (O 159%nat 160%nat ltac:(lia)) as O1. pose proof (O 160%nat 499%nat ltac:(lia)) as O2. pose proof (O 499%nat 500%nat ltac:(lia)) as O3. pose proof (O 500%nat 839%nat ltac:(lia)) as O4. pose proof (O 839%nat 840%nat ltac:(lia)) as O5.
  set (lo := percentile 16 l) in *. set (md := percentile 50 l) in *. set (hi := percentile 84 l) in *.
  assert (B1 : lo <= nth 160 v 0) by lra. assert (B2 : nth 499 v 0 <= md <= nth 500 v 0) by lra. assert (B3 : nth 839 v 0 <= hi) by lra.
  split; [lra|]. split; [|split].
  - unfold tally. rewrite (count_rows (fun x => if Rle_dec lo x then if Rle_dec x hi then true else false else false)). fold l. rewrite (count_perm _ _ _ Pm).
    apply (count_from _ v 160 680); [lia|]. intros i Hi. pose proof (O 160%nat i ltac:(lia)). pose proof (O i 839%nat ltac:(lia)).
    destruct (Rle_dec lo (nth i v 0)) as [_|n0]; [|exfalso; apply n0; lra]. destruct (Rle_dec (nth i v 0) hi) as [_|n0]; auto. exfalso; apply n0; lra.
  - rewrite (count_rows (fun x => if Rle_dec x md then true else false)). fold l. rewrite (count_perm _ _ _ Pm). apply (count_from _ v 0 500); [lia|].
    intros i Hi. pose proof (O i 499%nat ltac:(lia)). destruct (Rle_dec (nth i v 0) md) as [_|n0]; auto. exfalso; apply n0; lra.
  - rewrite (count_rows (fun x => if Rle_dec md x then true else false)). fold l. rewrite (count_perm _ _ _ Pm). apply (count_from _ v 500 500); [lia|].
    intros i Hi. pose proof (O 500%nat i ltac:(lia)). destruct (Rle_dec md (nth i v 0)) as [_|n0]; auto. exfalso; apply n0; lra.
Qed.

Lemma in_draws : forall l r x a, draws l = POk r -> In x l -> x = POk a -> forall y, In y a -> In y r.
Proof.
  induction l as [|z l IH]; intros r x a H Hx E y Hy; [destruct Hx|]. apply draws_cons in H. destruct H as [a1 [b1 [H1 [H2 ->]]]]. apply in_or_app.
  destruct Hx as [<-|Hx]; [left; congruence|right; eapply IH; eauto].
Qed.
Lemma draws_member : forall l r x, draws l = POk r -> In x l -> exists a, x = POk a.
Proof. induction l as [|z l IH]; intros r x H Hx; [destruct Hx|]. apply draws_cons in H. destruct H as [a1 [b1 [H1 [H2 ->]]]]. destruct Hx as [<-|Hx]; eauto. Qed.

(** lines and bands of the three quantities *)
Theorem pqu_bands : forall l2 q u p0 dq du dp0 l2h qm um rows a, length rows = 1000%nat ->
  plot_pqu_vs_lamsq l2 q u p0 dq du dp0 l2h qm um (Some rows) = POk a ->
  let hir := match l2h with Some h => h | None => l2 end in
  (exists lo med hi, In (Line [] hir med) (drawn a) /\ In (Band hir lo hi) (drawn a) /\ band_of Re (length hir) rows lo med hi) /\
  (exists lo med hi, In (Line [] hir med) (drawn a) /\ In (Band hir lo hi) (drawn a) /\ band_of Im (length hir) rows lo med hi) /\
  (qm <> None -> um <> None -> exists lo med hi, In (Line [] hir med) (drawn a) /\ In (Band hir lo hi) (drawn a) /\ band_of Cmod (length hir) rows lo med hi).
Proof.
  intros l2 q u p0 dq du dp0 l2h qm um rows a L H hir. unfold plot_pqu_vs_lamsq in H. fold hir in H. cbv zeta in H.
  apply bind_ok in H. destruct H as [p [_ H]]. apply bind_ok in H. destruct H as [dp [_ H]]. apply bind_ok in H. destruct H as [ar [Ha H]].
  apply bind_ok in H. destruct H as [xl [_ H]]. apply bind_ok in H. destruct H as [sp [_ H]]. apply bind_ok in H. destruct H as [sq [_ H]]. apply bind_ok in H. destruct H as [su [_ H]].
  apply bind_ok in H. destruct H as [e1 [_ H]]. apply bind_ok in H. destruct H as [e2 [_ H]]. apply bind_ok in H. destruct H as [e3 [_ H]].
  destruct e1 as [e1|]; [|discriminate H]. destruct e2 as [e2|]; [|discriminate H]. destruct e3 as [e3|]; [|discriminate H]. injection H as <-. cbn [drawn].
  apply draws_cons in Ha. destruct Ha as [a1 [b1 [_ [Ha ->]]]]. apply draws_cons in Ha. destruct Ha as [a2 [b2 [_ [Ha ->]]]]. apply draws_cons in Ha. destruct Ha as [a3 [b3 [_ [Ha ->]]]].
  apply draws_cons in Ha. destruct Ha as [a4 [b4 [_ [Ha ->]]]]. apply draws_cons in Ha. destruct Ha as [a5 [b5 [_ [Ha ->]]]]. apply draws_cons in Ha. destruct Ha as [a6 [b6 [_ [Ha ->]]]].
  apply draws_cons in Ha. destruct Ha as [ab [b7 [Hb [_ ->]]]].
  assert (W : forall x, In x ab -> In x ((a1 ++ a2 ++ a3 ++ a4 ++ a5 ++ a6 ++ ab ++ b7) ++ [HLine 0])%list) by (intros x Hx; rewrite !in_app_iff; tauto).
  apply draws_cons in Hb. destruct Hb as [c1 [d1 [C1 [Hb ->]]]]. apply draws_cons in Hb. destruct Hb as [c2 [d2 [C2 [Hb ->]]]]. apply draws_cons in Hb. destruct Hb as [c3 [d3 [C3 [Hb ->]]]].
  apply draws_cons in Hb. destruct Hb as [c4 [d4 [C4 [Hb ->]]]]. apply draws_cons in Hb. destruct Hb as [c5 [d5 [C5 [_ ->]]]].
  apply plot_ok in C1. destruct C1 as [-> _]. apply band_ok in C2. destruct C2 as [-> _]. apply plot_ok in C3. destruct C3 as [-> _]. apply band_ok in C4. destruct C4 as [-> _].
  split; [|split].
  - exists (bands Re (length hir) rows 16), (bands Re (length hir) rows 50), (bands Re (length hir) rows 84). split; [apply W; simpl; auto|]. split; [apply W; simpl; auto|]. apply bands_spec, L.
  - exists (bands Im (length hir) rows 16), (bands Im (length hir) rows 50), (bands Im (length hir) rows 84). split; [apply W; simpl; auto|]. split; [apply W; simpl; auto 6|]. apply bands_spec, L.
  - intros Q U. destruct qm as [qm|]; [|contradiction]. destruct um as [um|]; [|contradiction].
    apply draws_cons in C5. destruct C5 as [f1 [g1 [F1 [C5 ->]]]]. apply draws_cons in C5. destruct C5 as [f2 [g2 [F2 [_ ->]]]].
    apply plot_ok in F1. destruct F1 as [-> _]. apply band_ok in F2. destruct F2 as [-> _].
    exists (bands Cmod (length hir) rows 16), (bands Cmod (length hir) rows 50), (bands Cmod (length hir) rows 84).
    split; [apply W; simpl; auto 8|]. split; [apply W; simpl; auto 9|]. apply bands_spec, L.
Qed.

Lemma angle_fun_psi : forall f, angle_fun f -> forall z, f z = psi_deg (snd z) (fst z).
Proof.
  intros f [F0 F] [x y]. destruct (Req_dec x 0) as [->|X]; [destruct (Req_dec y 0) as [->|Y]|].
  - change (0, 0) with (RtoC 0). rewrite F0. simpl. rewrite psi_zero. reflexivity.
  - apply (angle_unique 0 y); [intros E; injection E; auto|apply (F (0, y)); intros E; injection E; auto|apply psi_angle].
  - apply (angle_unique x y); [intros E; injection E; intros; contradiction|apply (F (x, y)); intros E; injection E; intros; contradiction|apply psi_angle].
Qed.
Theorem psi_bands : forall f l2 q u dq du l2h qm um rows a, length rows = 1000%nat -> angle_fun f ->
  plot_psi_vs_lamsq l2 q u dq du l2h qm um (Some rows) = POk a ->
  let hir := match l2h with Some h => h | None => l2 end in
  exists lo med hi, In (Line [] hir med) (drawn a) /\ In (Band hir lo hi) (drawn a) /\ band_of f (length hir) rows lo med hi.
Proof.
  intros f l2 q u dq du l2h qm um rows a L F H hir. unfold plot_psi_vs_lamsq in H. fold hir in H. cbv zeta in H.
  apply bind_ok in H. destruct H as [p [_ H]]. apply bind_ok in H. destruct H as [dp [_ H]]. apply bind_ok in H. destruct H as [ar [Ha H]].
  apply bind_ok in H. destruct H as [xl [_ [= <-]]]. cbn [drawn].
  apply draws_cons in Ha. destruct Ha as [a1 [b1 [_ [Ha ->]]]]. apply draws_cons in Ha. destruct Ha as [a2 [b2 [_ [Ha ->]]]]. apply draws_cons in Ha. destruct Ha as [a3 [b3 [Hb [_ ->]]]].
  apply draws_cons in Hb. destruct Hb as [c1 [d1 [C1 [Hb ->]]]]. apply draws_cons in Hb. destruct Hb as [c2 [d2 [C2 [_ ->]]]].
  apply plot_ok in C1. destruct C1 as [-> _]. apply band_ok in C2. destruct C2 as [-> _].
  set (g := fun z : C => psi_deg (Im z) (Re z)).
  exists (bands g (length hir) rows 16), (bands g (length hir) rows 50), (bands g (length hir) rows 84).
  split; [rewrite !in_app_iff; right; right; left; simpl; auto|]. split; [rewrite !in_app_iff; right; right; left; simpl; auto|].
  assert (E : forall z, f z = g z) by (intros z; apply (angle_fun_psi f F)).
  pose proof (bands_spec g (length hir) rows L) as [B1 [B2 [B3 B4]]]. split; auto. split; auto. split; auto. intros j Hj. destruct (B4 j Hj) as [l [m [h [E1 [E2 [E3 [E4 [E5 [E6 E7]]]]]]]]].
  exists l, m, h. repeat (split; [assumption|]). unfold tally in *.
  assert (X : forall P : R -> bool, List.filter (fun r => P (f (nth j r (RtoC 0)))) rows = List.filter (fun r => P (g (nth j r (RtoC 0)))) rows).
  { intros P. apply filter_ext. intros r. rewrite E. reflexivity. }
  split; [|split].
  - rewrite (X (fun x => if Rle_dec l x then if Rle_dec x h then true else false else false)). exact E5.
  - rewrite (X (fun x => if Rle_dec x m then true else false)). exact E6.
  - rewrite (X (fun x => if Rle_dec m x then true else false)). exact E7.
Qed.

(** samples on both sides of 90 degrees have a middle near 0 *)
Definition split_rows : list (list C) := (repeat [(-1, -1)] 500 ++ repeat [(-1, 1)] 500)%list.
Lemma psi_up : psi_deg 1 (-1) = 135 / 2.
Proof.
  unfold psi_deg, degrees, arctan2. destruct (Rlt_dec 0 (-1)); [lra|]. destruct (Rlt_dec (-1) 0); [|lra]. destruct (Rle_dec 0 1); [|lra].
  replace (1 / -1) with (Ropp 1) by field. rewrite atan_opp, atan_1. field. apply PI_neq0.
Qed.
Lemma psi_down : psi_deg (-1) (-1) = - (135 / 2).
Proof.
  unfold psi_deg, degrees, arctan2. destruct (Rlt_dec 0 (-1)); [lra|]. destruct (Rlt_dec (-1) 0); [|lra]. destruct (Rle_dec 0 (-1)); [lra|].
  replace (-1 / -1) with 1 by field. rewrite atan_1. field. apply PI_neq0.
Qed.
Lemma sorted_repeat : forall x n, StronglySorted Rle (repeat x n).
Proof. intros x n. induction n; simpl; constructor; auto. apply Forall_forall. intros y Hy. apply repeat_spec in Hy. subst. lra. Qed.
Lemma map_repeat_ : forall A B (f : A -> B) x n, map f (repeat x n) = repeat (f x) n.
Proof. intros. induction n; simpl; congruence. Qed.
Lemma split_median : percentile 50 (map (fun z : C => psi_deg (Im z) (Re z)) (column (RtoC 0) split_rows 0)) = 0.
Proof.
  set (g := fun z : C => psi_deg (Im z) (Re z)).
  assert (E : map g (column (RtoC 0) split_rows 0) = (repeat (- (135 / 2))%R 500 ++ repeat (135 / 2)%R 500)%list).
  { unfold split_rows, column. rewrite !map_app, !map_repeat_. unfold g. simpl nth. simpl Im. simpl Re. rewrite psi_up, psi_down. reflexivity. }
  rewrite E. set (w := (repeat (- (135 / 2))%R 500 ++ repeat (135 / 2)%R 500)%list).
  assert (Lw : length w = 1000%nat) by (unfold w; rewrite app_length, !repeat_length; reflexivity).
  assert (Sw : rsort w = w).
  { symmetry. apply (sorted_unique w (rsort w)); [apply rsort_perm| |apply rsort_sorted]. apply sorted_app; try apply sorted_repeat.
    intros x y Hx Hy. apply repeat_spec in Hx. apply repeat_spec in Hy. subst. lra. }
  assert (I2 : INR 499 = 499) by (simpl INR; lra).
  rewrite (perc_at w 50 499 (1 / 2) Lw ltac:(lia) ltac:(rewrite I2; lra) ltac:(lra)). rewrite Sw. unfold w.
  rewrite (app_nth1 _ _ 0) by (rewrite repeat_length; lia). rewrite (app_nth2 _ _ 0) by (rewrite repeat_length; lia). rewrite repeat_length.
  assert (N : forall x n k, (k < n)%nat -> nth k (repeat x n) 0 = x) by (intros x n k Hk; apply (repeat_spec n), nth_In; rewrite repeat_length; exact Hk).
  rewrite !N by lia. lra.
Qed.
Theorem psi_median_refuted : ~ (forall f l2 q u rows a med b w, angle_fun f -> length rows = 1000%nat -> 0 <= w < 45 ->
  plot_psi_vs_lamsq l2 q u None None None None None (Some rows) = POk a -> In (Line [] l2 med) (drawn a) ->
  (forall r, In r rows -> near b w (f (nth 0 r (RtoC 0)))) -> forall m, nth 0 med None = Some m -> near b w m).
Proof.
  intros H. set (f := fun z : C => psi_deg (snd z) (fst z)).
  assert (F : angle_fun f). { split; [apply psi_zero|]. intros z _. apply psi_angle. }
  assert (Lr : length split_rows = 1000%nat) by (unfold split_rows; rewrite app_length, !repeat_length; reflexivity).
  destruct (plot_psi_vs_lamsq [Some 1] [Some 1] [Some 1] None None None None None (Some split_rows)) as [a|] eqn:E.
  - assert (K : In (Line [] [Some 1] (bands (fun z => psi_deg (Im z) (Re z)) 1 split_rows 50)) (drawn a)).
    { unfold plot_psi_vs_lamsq in E. cbv zeta in E. apply bind_ok in E. destruct E as [p [_ E]]. apply bind_ok in E. destruct E as [dp [_ E]]. apply bind_ok in E. destruct E as [ar [Ha E]].
      apply bind_ok in E. destruct E as [xl [_ [= <-]]]. cbn [drawn].
      apply draws_cons in Ha. destruct Ha as [a1 [b1 [_ [Ha ->]]]]. apply draws_cons in Ha. destruct Ha as [a2 [b2 [_ [Ha ->]]]]. apply draws_cons in Ha. destruct Ha as [a3 [b3 [Hb [_ ->]]]].
      apply draws_cons in Hb. destruct Hb as [c1 [d1 [C1 [Hb ->]]]]. apply plot_ok in C1. destruct C1 as [-> _]. rewrite !in_app_iff. right. right. left. left. simpl. left. reflexivity. }
    assert (N : near 90 (45 / 2) 0).
    { apply (H f [Some 1] [Some 1] [Some 1] split_rows a _ 90 (45 / 2) F Lr ltac:(lra) E K); [|exact (f_equal Some split_median)].
      intros r Hr. unfold split_rows in Hr. apply in_app_iff in Hr. destruct Hr as [Hr|Hr]; apply repeat_spec in Hr; subst r; simpl nth; unfold f; simpl fst; simpl snd.
      - rewrite psi_down. exists (-1)%Z. rewrite Rabs_pos_eq; lra.
      - rewrite psi_up. exists 0%Z. rewrite Rabs_left; lra. }
    destruct N as [k N]. apply Rabs_le_between in N. assert (-1 < IZR k < 0) as [K1 K2] by lra. apply lt_IZR in K1. apply lt_IZR in K2. lia.
  - exfalso. unfold plot_psi_vs_lamsq in E. cbn [zip2 pybind] in E.
    rewrite (proj2 (errorbar_ok [] [Some 1] [o2 psi_deg (Some 1) (Some 1)] None None _) ltac:(simpl; repeat split; auto)) in E.
    rewrite (proj2 (plot_ok [] [Some 1] (bands (fun z => psi_deg (Im z) (Re z)) (length [Some 1]) split_rows 50) _) ltac:(split; [reflexivity|unfold bands; rewrite map_length, seq_length; reflexivity])) in E.
    rewrite (proj2 (band_ok [Some 1] (bands (fun z => psi_deg (Im z) (Re z)) (length [Some 1]) split_rows 16) (bands (fun z => psi_deg (Im z) (Re z)) (length [Some 1]) split_rows 84) _)
      ltac:(split; [reflexivity|unfold bands; rewrite !map_length, !seq_length; auto])) in E.
    cbn [draws pybind] in E. destruct (proj2 (limits_runs (5 / 100) [Some 1])) as [xl Hx]; [exists 1; simpl; auto|]. rewrite Hx in E. discriminate E.
Qed.
