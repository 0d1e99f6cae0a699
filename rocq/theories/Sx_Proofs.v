(** Proofs about written angles. *)
From Coq Require Import Reals Lra Lia List Arith ZArith Bool Ascii String.
From Coquelicot Require Import Rcomplements.
From Verif Require Import PyRes PyStr PyStr_Proofs PyList PyList_Proofs Setup_Model Setup_Proofs Sx_Model Sx_Spec.
Import ListNotations.
Local Open Scope nat_scope.

(* ------------------------------------------------------------- numerals *)

Lemma value_app : forall a b, value (a ++ b) = value a * 10 ^ List.length b + value b.
Proof.
  intros a b. revert a. induction b as [|c b IH] using rev_ind; intros a.
  - rewrite app_nil_r. unfold value at 3. cbn. lia.
  - assert (V : forall x, value (x ++ [c]) = 10 * value x + (nat_of_ascii c - 48)) by (intros; unfold value; now rewrite fold_left_app).
    rewrite app_assoc, !V, IH, app_length. cbn [List.length]. rewrite Nat.add_1_r, Nat.pow_succ_r'. lia.
Qed.
Lemma value_fixed : forall d n, value (fixed d n) = n mod 10 ^ d.
Proof.
  induction d as [|d IH]; intros n; cbn [fixed]; [cbn; reflexivity|].
  rewrite value_app, IH. cbn [List.length]. unfold value. cbn [fold_left]. rewrite digit_code by (apply Nat.mod_upper_bound; lia).
  rewrite Nat.pow_1_r, (Nat.pow_succ_r' 10 d), Nat.mod_mul_r by (try lia; apply Nat.pow_nonzero; lia). lia.
Qed.
Lemma digits_b : forall x, forallb is_digit x = true -> digits x.
Proof.
  intros x H. apply Forall_forall. intros c Hc. rewrite forallb_forall in H. apply H in Hc. unfold is_digit in Hc. apply andb_true_iff in Hc. destruct Hc as [A B].
  apply Nat.leb_le in A, B. lia.
Qed.
Lemma digits_fixed : forall d n, digits (fixed d n).
Proof. intros. apply digits_b, fixed_digits. Qed.

Lemma numeral_pad : forall w n, numeral w (repeat "0"%char (w - List.length (str_of_nat n)) ++ str_of_nat n) n.
Proof.
  intros w n. unfold str_of_nat. destruct (dec_fuel (S n) n) as (k & L & E & K1 & B & C); [lia|]. rewrite <- L, E, <- fixed_pad by auto.
  assert (BB : n < 10 ^ (w - k + k)) by (eapply Nat.lt_le_trans; [exact B|apply Nat.pow_le_mono_r; lia]).
  split; [apply digits_fixed|]. split; [rewrite value_fixed; apply Nat.mod_small; auto|]. rewrite fixed_length. split; [lia|]. split.
  - intro Q. apply (f_equal (@List.length _)) in Q. rewrite fixed_length in Q. cbn in Q. lia.
  - intros H. assert (w - k = 0) by lia. rewrite H0 in *. cbn [Nat.add]. clear BB. destruct C as [C|C]; [subst n; vm_compute in L; lia|].
    intro Q. destruct k as [|k]; [lia|]. replace (S k - 1) with k in C by lia.
    assert (F : fixed (S k) n = digit (n / 10 ^ k) :: fixed k (n mod 10 ^ k)).
    { clear - B. revert n B. induction k as [|k IH]; intros n B.
      - cbn [fixed]. cbn in B. rewrite Nat.mod_small by lia. now rewrite Nat.div_1_r.
      - change (fixed (S (S k)) n) with (fixed (S k) (n / 10) ++ [digit (n mod 10)])%list. rewrite IH.
        + cbn [fixed]. change (match k with 0 => 1 | S m => 10 * 10 ^ k end) with (10 ^ S k). rewrite Nat.div_div, <- Nat.pow_succ_r' by (try lia; apply Nat.pow_nonzero; lia).
          cbn [app]. f_equal. rewrite (Nat.pow_succ_r' 10 k). f_equal.
          * rewrite Nat.mod_mul_r by (try lia; apply Nat.pow_nonzero; lia). f_equal.
            replace (n mod 10 + 10 * ((n / 10) mod 10 ^ k)) with (n mod 10 + (n / 10) mod 10 ^ k * 10) by lia.
            rewrite Nat.div_add by lia. rewrite (Nat.div_small (n mod 10) 10) by (apply Nat.mod_upper_bound; lia). reflexivity.
          * f_equal. f_equal. rewrite Nat.mod_mul_r by (try lia; apply Nat.pow_nonzero; lia).
            replace (n mod 10 + 10 * ((n / 10) mod 10 ^ k)) with (n mod 10 + (n / 10) mod 10 ^ k * 10) by lia.
            rewrite Nat.mod_add by lia. symmetry. apply Nat.mod_mod. lia.
        + rewrite Nat.pow_succ_r' in B. apply Nat.div_lt_upper_bound; lia. }
    rewrite F in Q. cbn [hd_error] in Q. injection Q as Q. apply (f_equal nat_of_ascii) in Q.
    assert (n / 10 ^ k < 10) by (apply Nat.div_lt_upper_bound; [apply Nat.pow_nonzero; lia|]; rewrite Nat.pow_succ_r' in B; lia).
    assert (1 <= n / 10 ^ k) by (apply Nat.div_le_lower_bound; [apply Nat.pow_nonzero; lia|lia]).
    rewrite digit_code in Q by auto. change (nat_of_ascii "0"%char) with 48 in Q. lia.
Qed.
Lemma numeral_format0 : forall w n, numeral w (format0 w n) n.
Proof. intros. apply numeral_pad. Qed.
Lemma numeral_value : forall w x n, numeral w x n -> value x = n.
Proof. intros w x n H. apply H. Qed.
Lemma numeral_small : forall w x n, numeral w x n -> 1 <= w -> n < 10 ^ w -> List.length x = w.
Proof.
  intros w x n (D & V & L & NE & H) Hw Hn. destruct (Nat.eq_dec (List.length x) w) as [|Q]; auto. exfalso.
  destruct x as [|c x]; [congruence|]. cbn [List.length] in *. specialize (H ltac:(lia)). cbn [hd_error] in H.
  change (c :: x) with ([c] ++ x)%list in V. rewrite value_app in V. unfold value at 1 in V. cbn [fold_left] in V.
  apply Forall_inv in D. assert (nat_of_ascii c <> 48). { intro E. apply H. f_equal. apply nat_of_ascii_inj. rewrite E. reflexivity. }
  assert (10 ^ w <= 10 ^ List.length x) by (apply Nat.pow_le_mono_r; lia).
  assert (10 ^ List.length x <= (10 * 0 + (nat_of_ascii c - 48)) * 10 ^ List.length x) by nia. lia.
Qed.

Lemma fmt_d_pos : forall w z, (0 <= z)%Z -> numeral w (fmt_d w z) (Z.to_nat z).
Proof. intros w z H. unfold fmt_d. destruct (Z.ltb_spec z 0); [lia|]. apply numeral_format0. Qed.
Lemma fmt_d_neg : forall w z, (z < 0)%Z -> exists x, fmt_d w z = ("-"%char :: x)%list /\ numeral (w - 1) x (Z.to_nat (- z)).
Proof. intros w z H. unfold fmt_d. destruct (Z.ltb_spec z 0); [|lia]. eexists. split; [reflexivity|]. apply numeral_format0. Qed.

Definition point (p : nat) : nat := if p =? 0 then 0 else p + 1.
Lemma fmt_f_spec : forall w p x, exists y, fmt_f w p x = ((if Rlt_dec x 0 then ["-"%char] else []) ++ y)%list /\
  decimal (w - (if Rlt_dec x 0 then 1 else 0) - point p) p y (Z.to_nat (py_round (Rabs x * 10 ^ p))).
Proof.
  intros w p x. unfold fmt_f. set (n := Z.to_nat _). set (neg := if Rlt_dec x 0 then _ else []).
  eexists. split; [reflexivity|]. assert (LN : List.length neg = if Rlt_dec x 0 then 1 else 0) by (unfold neg; destruct Rlt_dec; reflexivity). rewrite LN.
  set (k := w - (if Rlt_dec x 0 then 1 else 0)). clearbody k. clear LN. clear neg.
  assert (T : 10 ^ p <> 0) by (apply Nat.pow_nonzero; lia).
  exists (repeat "0"%char (k - point p - List.length (str_of_nat (n / 10 ^ p))) ++ str_of_nat (n / 10 ^ p))%list, (match p with 0 => [] | _ => format0 p (n mod 10 ^ p) end).
  assert (F : p <> 0 -> format0 p (n mod 10 ^ p) = fixed p (n mod 10 ^ p)) by (intros; apply format0_fixed; [apply Nat.mod_upper_bound; auto|lia]).
  assert (LL : List.length (match p with 0 => [] | _ => "."%char :: format0 p (n mod 10 ^ p) end) = point p).
  { unfold point. destruct p; [reflexivity|]. rewrite F by lia. cbn [List.length Nat.eqb]. rewrite fixed_length. lia. }
  pose proof (numeral_pad (k - point p) (n / 10 ^ p)) as N. split; [|split; [|split; [|split]]].
  - rewrite <- app_assoc. f_equal.
    + f_equal. rewrite app_length, LL. lia.
    + f_equal. destruct p; reflexivity.
  - rewrite (numeral_value _ _ _ N). exact N.
  - destruct p; [constructor|]. rewrite F by lia. apply digits_fixed.
  - destruct p; [reflexivity|]. rewrite F by lia. apply fixed_length.
  - rewrite (numeral_value _ _ _ N). destruct p.
    + change (10 ^ 0) with 1. change (value []) with 0. rewrite Nat.div_1_r. lia.
    + rewrite F, value_fixed by lia. rewrite Nat.mod_mod by auto. rewrite (Nat.div_mod n (10 ^ S p)) at 1 by auto. lia.
Qed.

(* --------------------------------------------------------------- fields *)
Local Open Scope R_scope.

Lemma IZR_le_floor : forall z x, (z <= Rfloor x)%Z <-> IZR z <= x.
Proof.
  intros z x. pose proof (Rfloor_spec x). split; intros Q.
  - apply IZR_le in Q. lra.
  - assert (IZR z < IZR (Rfloor x + 1)) by (rewrite plus_IZR; lra). apply lt_IZR in H0. lia.
Qed.
Lemma py_round_ge : forall x z, Z.even z = true -> ((z <= py_round x)%Z <-> IZR z - 1 / 2 <= x).
Proof.
  intros x z E. unfold py_round. fold (Rfloor x). pose proof (Rfloor_spec x) as F.
  assert (P : IZR (z - 1) = IZR z - 1) by (rewrite minus_IZR; reflexivity).
  assert (G : forall a b : Z, (a < b)%Z -> IZR a + 1 <= IZR b) by (intros a b Q; rewrite <- plus_IZR; apply IZR_le; lia).
  destruct Rlt_dec as [r|r]; [|destruct Rlt_dec as [r'|r']].
  - split; intros Q; [apply IZR_le in Q; lra|]. destruct (Z_le_gt_dec z (Rfloor x)); auto. pose proof (G (Rfloor x) z ltac:(lia)). lra.
  - split; intros Q; [apply IZR_le in Q; rewrite plus_IZR in Q; lra|]. destruct (Z_le_gt_dec z (Rfloor x + 1)); auto. pose proof (G (Rfloor x + 1)%Z z ltac:(lia)). rewrite plus_IZR in H. lra.
  - destruct (Z.even (Rfloor x)) eqn:V.
    + split; intros Q; [apply IZR_le in Q; lra|]. destruct (Z_le_gt_dec z (Rfloor x)); auto. pose proof (G (Rfloor x) z ltac:(lia)).
      assert (IZR z <= IZR (Rfloor x + 1)) by (rewrite plus_IZR; lra). apply le_IZR in H0. assert (z = (Rfloor x + 1)%Z) by lia. subst z.
      rewrite Z.even_add, V in E. discriminate E.
    + split; intros Q; [apply IZR_le in Q; rewrite plus_IZR in Q; lra|]. destruct (Z_le_gt_dec z (Rfloor x + 1)); auto. pose proof (G (Rfloor x + 1)%Z z ltac:(lia)). rewrite plus_IZR in H. lra.
Qed.

Lemma rounds_spec : forall t, rounds_to_60 t = true <-> 59995 / 1000 <= t.
Proof.
  intros t. unfold rounds_to_60. destruct Rle_dec as [r|r]; split; try discriminate; try reflexivity; intros Q.
  - assert (IZR 6000 <= IZR (py_round (t * 100))) by lra. apply le_IZR in H. apply py_round_ge in H; [lra|reflexivity].
  - exfalso. apply r. assert (IZR 6000 <= IZR (py_round (t * 100))) by (apply IZR_le, py_round_ge; [reflexivity|lra]). lra.
Qed.

Lemma sexagesimal_spec : forall x, let '(d, m, t) := sexagesimal x in
  (0 <= d)%Z /\ (0 <= m < 60)%Z /\ 0 <= t < 60 /\ Rabs x = IZR d + IZR m / 60 + t / 3600.
Proof.
  intros x. unfold sexagesimal. pose proof (Rabs_pos x) as P. pose proof (py_int_pos _ P) as A. set (d := py_int (Rabs x)) in *.
  assert (Q : 0 <= 60 * (Rabs x - IZR d)) by lra. pose proof (py_int_pos _ Q) as B. set (m := py_int (60 * _)) in *.
  assert (Hd : (0 <= d)%Z). { assert (IZR (-1) < IZR d) by lra. apply lt_IZR in H. lia. }
  assert (Hm : (-1 < m < 60)%Z). { split; apply lt_IZR; lra. }
  repeat split; try lia; try lra.
Qed.

(** the fields that are printed; [t] differs from the seconds by the carry only *)
Lemma carry_spec : forall over x, let '(d, m, t) := carry over (sexagesimal x) in
  (0 <= d)%Z /\ (0 <= m < 60)%Z /\
  ((0 <= t < 59995 / 1000 /\ Rabs x = IZR d + IZR m / 60 + t / 3600) \/
   exists u, 59995 / 1000 <= u < 60 /\ t = over u /\ Rabs x = IZR d + IZR m / 60 + (u - 60) / 3600).
Proof.
  intros over x. pose proof (sexagesimal_spec x) as H. destruct (sexagesimal x) as [[d m] t]. destruct H as (A & B & C & D). unfold carry.
  pose proof (rounds_spec t) as Rt. destruct (rounds_to_60 t).
  - assert (59995 / 1000 <= t) by (apply Rt; reflexivity). destruct (Z.leb_spec 60 (m + 1)).
    + assert (m = 59%Z) by lia. subst m. split; [lia|]. split; [lia|]. right. exists t. rewrite plus_IZR. change (59 + 1 - 60)%Z with 0%Z. repeat split; lra.
    + split; [lia|]. split; [lia|]. right. exists t. rewrite plus_IZR. repeat split; lra.
  - assert (~ 59995 / 1000 <= t) by (intro Q; apply Rt in Q; discriminate Q). destruct (Z.leb_spec 60 m); [lia|]. split; auto. split; auto. left. split; [lra|exact D].
Qed.

Lemma sign_pos : forall x, 0 <= x -> sign_of x = 1.
Proof. intros x H. unfold sign_of. rewrite Rabs_pos_eq by auto. destruct Req_EM_T; auto. field. auto. Qed.
Lemma sign_neg : forall x, x < 0 -> sign_of x = -1.
Proof. intros x H. unfold sign_of. rewrite Rabs_left by auto. destruct Req_EM_T; [lra|]. field. lra. Qed.
Lemma INR_Z : forall z, (0 <= z)%Z -> INR (Z.to_nat z) = IZR z.
Proof. intros. rewrite INR_IZR_INZ, Z2Nat.id; auto. Qed.

(* --------------------------------------------------------------- labels *)

Lemma head_pos : forall x (d : Z), 0 <= x -> (0 <= d)%Z -> numeral 2 (fmt_d (if Rlt_dec 0 (sign_of x) then 2 else 3) (py_int (sign_of x * IZR d))) (Z.to_nat d).
Proof. intros x d H Hd. rewrite sign_pos by auto. destruct Rlt_dec; [|lra]. rewrite Rmult_1_l, py_int_IZR. now apply fmt_d_pos. Qed.
Lemma head_neg : forall x (d : Z), x < 0 -> (0 <= d)%Z ->
  (d = 0%Z /\ fmt_d (if Rlt_dec 0 (sign_of x) then 2 else 3) (py_int (sign_of x * IZR d)) = s "000") \/
  ((0 < d)%Z /\ exists y, fmt_d (if Rlt_dec 0 (sign_of x) then 2 else 3) (py_int (sign_of x * IZR d)) = (s "-" ++ y)%list /\ numeral 2 y (Z.to_nat d)).
Proof.
  intros x d H Hd. rewrite sign_neg by auto. destruct Rlt_dec; [lra|]. replace (-1 * IZR d) with (IZR (- d)) by (rewrite opp_IZR; lra). rewrite py_int_IZR.
  destruct (Z.eq_dec d 0) as [->|N]; [left; split; reflexivity|right]. split; [lia|]. destruct (fmt_d_neg 3 (- d)) as (y & E & F); [lia|].
  exists y. rewrite E. split; [reflexivity|]. rewrite Z.opp_involutive in F. exact F.
Qed.

Theorem dms_label_pos : forall deg, 0 <= deg -> exists D M n m, label_dms (Some deg) = POk (D ++ s "d" ++ M ++ s "m")%list /\
  numeral 2 D n /\ numeral 2 M m /\ (m < 60)%nat /\ - (5 / 1000 / 3600) <= deg - (INR n + INR m / 60) < 1 / 60.
Proof.
  intros deg H. unfold label_dms. pose proof (carry_spec (fun _ => 0) deg) as C. destruct (carry _ _) as [[d m] t]. destruct C as (Hd & Hm & C).
  rewrite Rabs_pos_eq in C by auto. eexists _, _, (Z.to_nat d), (Z.to_nat m). split; [reflexivity|]. split; [now apply head_pos|]. split; [apply fmt_d_pos; lia|].
  split; [lia|]. rewrite !INR_Z by lia. destruct C as [C|(u & U & _ & C)]; lra.
Qed.
Theorem dms_label_neg : forall deg, deg < 0 -> exists D M n m, label_dms (Some deg) = POk ((if (n =? 0)%nat then s "000" else s "-" ++ D) ++ s "d" ++ M ++ s "m")%list /\
  numeral 2 D n /\ numeral 2 M m /\ (m < 60)%nat /\ - (5 / 1000 / 3600) <= - deg - (INR n + INR m / 60) < 1 / 60.
Proof.
  intros deg H. unfold label_dms. pose proof (carry_spec (fun _ => 0) deg) as C. destruct (carry _ _) as [[d m] t]. destruct C as (Hd & Hm & C).
  rewrite Rabs_left in C by auto.
  assert (T : - (5 / 1000 / 3600) <= - deg - (IZR d + IZR m / 60) < 1 / 60) by (destruct C as [C|(u & U & _ & C)]; lra).
  destruct (head_neg deg d H Hd) as [[E F]|(P & y & F & G)]; rewrite F.
  - exists (s "00"), (fmt_d 2 m), 0%nat, (Z.to_nat m). subst d. split; [reflexivity|]. split; [apply (numeral_format0 2 0)|]. split; [apply fmt_d_pos; lia|]. split; [lia|].
    rewrite INR_Z by lia. cbn [INR]. lra.
  - exists y, (fmt_d 2 m), (Z.to_nat d), (Z.to_nat m). destruct (Nat.eqb_spec (Z.to_nat d) 0); [lia|]. split; [reflexivity|]. split; [auto|]. split; [apply fmt_d_pos; lia|]. split; [lia|].
    rewrite !INR_Z by lia. exact T.
Qed.

Lemma secs_label : forall t, 0 <= t -> exists S k, fmt_f 2 0 t = S /\ numeral 2 S k /\ Rabs (INR k - t) <= 1 / 2 /\ (t < 60 -> (k <= 60)%nat) /\ ((60 <= k)%nat <-> 595 / 10 <= t).
Proof.
  intros t H. destruct (fmt_f_spec 2 0 t) as (y & E & a & b & Y & N & _ & B0 & K). cbn [point Nat.eqb] in *.
  destruct Rlt_dec; [lra|]. cbn [Nat.sub app] in *. rewrite app_nil_r in Y. subst a.
  rewrite pow_O, Rmult_1_r, (Rabs_pos_eq t H) in K. cbn [Nat.pow] in K. rewrite Nat.mul_1_r in K.
  assert (b = []) as -> by (destruct b; [auto|discriminate B0]). change (value []) with 0%nat in K. rewrite Nat.add_0_r in K.
  pose proof (py_round_nonneg t H) as P. pose proof (py_round_close t) as Q.
  exists y, (value y). split; [exact E|]. split; [exact N|]. rewrite <- K, INR_Z by auto. split; [exact Q|]. split.
  - intros L. apply Rabs_le_between in Q. assert (IZR (py_round t) < IZR 61) by lra. apply lt_IZR in H0. lia.
  - pose proof (py_round_ge t 60 eq_refl) as G. split; intros L.
    + assert (IZR 60 - 1 / 2 <= t) by (apply G; lia). lra.
    + assert (60 <= py_round t)%Z by (apply G; lra). lia.
Qed.

Lemma hms_core : forall x, let '(d, m, t) := carry (fun _ => 0) (sexagesimal x) in (0 <= d)%Z /\ (0 <= m < 60)%Z /\
  exists S k, fmt_f 2 0 t = S /\ numeral 2 S k /\ (k <= 60)%nat /\ Rabs (Rabs x - (IZR d + IZR m / 60 + INR k / 3600)) <= 1 / 7200.
Proof.
  intros x. pose proof (carry_spec (fun _ => 0) x) as C. destruct (carry _ _) as [[d m] t]. destruct C as (Hd & Hm & C). split; auto. split; auto.
  assert (T : 0 <= t < 60 /\ - (5 / 1000 / 3600) <= Rabs x - (IZR d + IZR m / 60 + t / 3600) <= 0 /\ (0 < t -> Rabs x = IZR d + IZR m / 60 + t / 3600))
    by (destruct C as [C|(u & U & -> & C)]; repeat split; intros; lra).
  destruct T as (T & T1 & T2). destruct (secs_label t (proj1 T)) as (S & k & E & N & K & L & _).
  exists S, k. split; [exact E|]. split; [exact N|]. split; [apply L; lra|].
  apply Rabs_le_between in K. destruct (Rle_lt_dec t 0) as [Z0|Z0].
  - assert (t = 0) by lra. subst t. assert (k = 0)%nat as ->.
    { assert (INR k < 1) by lra. change 1 with (INR 1) in H. apply INR_lt in H. lia. }
    cbn [INR] in *. apply Rabs_le. lra.
  - rewrite (T2 Z0). apply Rabs_le. lra.
Qed.
Theorem hms_label_pos : forall deg, 0 <= deg -> exists D M S n m k, label_hms (Some deg) = POk (D ++ s "h" ++ M ++ s "m" ++ S ++ s "s")%list /\
  numeral 2 D n /\ numeral 2 M m /\ numeral 2 S k /\ (m < 60)%nat /\ (k <= 60)%nat /\ Rabs (deg / 15 - (INR n + INR m / 60 + INR k / 3600)) <= 1 / 7200.
Proof.
  intros deg H. unfold label_hms. assert (P : 0 <= deg / 15) by lra. pose proof (hms_core (deg / 15)) as C. destruct (carry _ _) as [[d m] t].
  destruct C as (Hd & Hm & S & k & E & N & K & B). rewrite (Rabs_pos_eq (deg / 15)) in B by auto. rewrite E.
  exists (fmt_d (if Rlt_dec 0 (sign_of (deg / 15)) then 2 else 3) (py_int (sign_of (deg / 15) * IZR d))), (fmt_d 2 m), S, (Z.to_nat d), (Z.to_nat m), k.
  split; [reflexivity|]. split; [now apply head_pos|]. split; [apply fmt_d_pos; lia|]. split; [exact N|]. split; [lia|]. split; [exact K|].
  rewrite !INR_Z by lia. exact B.
Qed.
Theorem hms_label_neg : forall deg, deg < 0 -> exists D M S n m k, label_hms (Some deg) = POk ((if (n =? 0)%nat then s "000" else s "-" ++ D) ++ s "h" ++ M ++ s "m" ++ S ++ s "s")%list /\
  numeral 2 D n /\ numeral 2 M m /\ numeral 2 S k /\ (m < 60)%nat /\ (k <= 60)%nat /\ Rabs (- (deg / 15) - (INR n + INR m / 60 + INR k / 3600)) <= 1 / 7200.
Proof.
  intros deg H. unfold label_hms. assert (P : deg / 15 < 0) by lra. pose proof (hms_core (deg / 15)) as C. destruct (carry _ _) as [[d m] t].
  destruct C as (Hd & Hm & S & k & E & N & K & B). rewrite (Rabs_left (deg / 15)) in B by auto. rewrite E.
  destruct (head_neg (deg / 15) d P Hd) as [[Z0 F]|(Q & y & F & G)]; rewrite F.
  - exists (s "00"), (fmt_d 2 m), S, 0%nat, (Z.to_nat m), k. subst d. split; [reflexivity|]. split; [apply (numeral_format0 2 0)|]. split; [apply fmt_d_pos; lia|].
    split; [exact N|]. split; [lia|]. split; [exact K|]. rewrite (INR_Z m) by lia. exact B.
  - exists y, (fmt_d 2 m), S, (Z.to_nat d), (Z.to_nat m), k. destruct (Nat.eqb_spec (Z.to_nat d) 0); [lia|]. split; [reflexivity|]. split; [auto|]. split; [apply fmt_d_pos; lia|].
    split; [exact N|]. split; [lia|]. split; [exact K|]. rewrite !INR_Z by lia. exact B.
Qed.

(** the seconds read 60 *)
Theorem hms_sixty : forall deg n m t, 0 <= deg -> deg / 15 = INR n + INR m / 60 + t / 3600 -> (m < 60)%nat -> 595 / 10 <= t < 59995 / 1000 ->
  exists D M, label_hms (Some deg) = POk (D ++ s "h" ++ M ++ s "m60s")%list /\ numeral 2 D n /\ numeral 2 M m.
Proof.
  intros deg n m t H E Hm Ht. unfold label_hms, carry.
  assert (F : sexagesimal (deg / 15) = (Z.of_nat n, Z.of_nat m, t)).
  { unfold sexagesimal. rewrite Rabs_pos_eq by lra. assert (INR m / 60 <= 59 / 60). { assert (INR m <= INR 59) by (apply le_INR; lia). change (INR 59) with (IZR (Z.of_nat 59)) in H0 at 1 || rewrite (INR_IZR_INZ 59) in H0. change (Z.of_nat 59) with 59%Z in H0. lra. }
    pose proof (pos_INR m) as Pm.
    assert (E1 : py_int (deg / 15) = Z.of_nat n). { unfold py_int. destruct Rle_dec; [|lra]. apply Rfloor_unique. rewrite <- INR_IZR_INZ. lra. }
    rewrite E1. rewrite <- INR_IZR_INZ.
    assert (E2 : py_int (60 * (deg / 15 - INR n)) = Z.of_nat m). { unfold py_int. destruct Rle_dec; [|lra]. apply Rfloor_unique. rewrite <- INR_IZR_INZ. lra. }
    rewrite E2, <- INR_IZR_INZ. f_equal. rewrite E. field. }
  rewrite F. destruct (rounds_to_60 t) eqn:Q; [apply rounds_spec in Q; lra|]. destruct (Z.leb_spec 60 (Z.of_nat m)); [lia|].
  destruct (secs_label t ltac:(lra)) as (S & k & E3 & N & K & L & G). rewrite E3.
  assert (k = 60)%nat as -> by (assert (60 <= k)%nat by (apply G; lra); specialize (L ltac:(lra)); lia).
  assert (S = s "60") as ->.
  { pose proof (numeral_small _ _ _ N ltac:(lia) ltac:(cbn; lia)) as LS. destruct N as (DD & V & _). destruct S as [|a [|b [|c S]]]; try discriminate LS.
    unfold value in V. cbn [fold_left] in V. pose proof (Forall_inv DD) as Da. pose proof (Forall_inv (Forall_inv_tail DD)) as Db. cbn beta in Da, Db.
    assert (Ea : nat_of_ascii a = 54%nat) by lia. assert (Eb : nat_of_ascii b = 48%nat) by lia.
    replace a with "6"%char by (apply nat_of_ascii_inj; rewrite Ea; reflexivity). replace b with "0"%char by (apply nat_of_ascii_inj; rewrite Eb; reflexivity). reflexivity. }
  eexists _, _. split; [reflexivity|]. split.
  - pose proof (head_pos (deg / 15) (Z.of_nat n) ltac:(lra) ltac:(lia)) as J. rewrite Nat2Z.id in J. exact J.
  - pose proof (fmt_d_pos 2 (Z.of_nat m) ltac:(lia)) as J. rewrite Nat2Z.id in J. exact J.
Qed.

Theorem dms_sign_lost : forall deg, -1 + 1 / 60 < deg < 0 -> exists M, label_dms (Some deg) = POk (s "000d" ++ M)%list.
Proof.
  intros deg H. destruct (dms_label_neg deg ltac:(lra)) as (D & M & n & m & E & A & B & Hm & V). exists (M ++ s "m")%list. rewrite E.
  assert (n = 0)%nat as ->. { pose proof (pos_INR m). assert (INR n < 1) by lra. change 1 with (INR 1) in H1. apply INR_lt in H1. lia. }
  reflexivity.
Qed.

(* -------------------------------------------------------------- deg2dms *)

Definition places (nPlaces : Z) : nat := Z.to_nat nPlaces.

(** The text is sign, degrees, minutes and seconds with the decimals asked for. It
    stands for the angle within half of the last place. The seconds are written
    with a minus sign if they were within 0.005 of 60. *)
Theorem deg2dms_spec : forall deg delim doSign p, exists pre D M S n m k neg, deg2dms (Some deg) delim doSign p =
    Some (pre ++ D ++ delim ++ M ++ delim ++ (if neg : bool then s "-" else []) ++ S)%list /\
  (deg < 0 -> pre = s "-") /\ (0 <= deg -> pre = if doSign then s "+" else []) /\
  numeral 2 D n /\ numeral 2 M m /\ (m < 60)%nat /\ decimal (if neg then 1 else 2) (Z.to_nat p) S k /\
  Rabs (Rabs deg - (INR n + INR m / 60 + (if neg then -1 else 1) * (INR k / 10 ^ Z.to_nat p) / 3600)) <= / 2 / 10 ^ Z.to_nat p / 3600 /\
  (neg = true <-> exists n' m' u, Rabs deg = INR n' + INR m' / 60 + u / 3600 /\ (m' < 60)%nat /\ 59995 / 1000 <= u < 60).
Proof.
  intros deg delim doSign p. unfold deg2dms.
  pose proof (sexagesimal_spec deg) as SX. pose proof (carry_spec (fun x => x - 60) deg) as C. unfold carry in *. destruct (sexagesimal deg) as [[d0 m0] t0].
  destruct SX as (Hd0 & Hm0 & Ht0 & E0). pose proof (rounds_spec t0) as RS.
  set (c := if rounds_to_60 t0 then ((m0 + 1)%Z, t0 - 60) else (m0, t0)) in *.
  assert (Ct : snd c = if rounds_to_60 t0 then t0 - 60 else t0) by (unfold c; destruct rounds_to_60; reflexivity).
  destruct c as [mc tc]. cbn [snd] in Ct.
  set (q := if (60 <=? mc)%Z then ((d0 + 1)%Z, (mc - 60)%Z, tc) else (d0, mc, tc)) in *. assert (Et : snd q = tc) by (unfold q; destruct (60 <=? mc)%Z; reflexivity).
  destruct q as [[d m] t]. cbn [snd] in Et. subst t. destruct C as (Hd & Hm & C).
  set (w := if (0 <? p)%Z then (2 + Z.to_nat p + 1)%nat else 2%nat).
  assert (W : (if (0 <? p)%Z then fmt_f (2 + Z.to_nat p + 1) (Z.to_nat p) tc else fmt_f 2 0 tc) = fmt_f w (Z.to_nat p) tc).
  { unfold w. destruct (Z.ltb_spec 0 p); [reflexivity|]. replace (Z.to_nat p) with 0%nat by lia. reflexivity. }
  rewrite W. destruct (fmt_f_spec w (Z.to_nat p) tc) as (S & F & G). rewrite F.
  exists (if Rlt_dec 0 (sign_of deg) then (if doSign then s "+" else []) else s "-"), (fmt_d 2 d), (fmt_d 2 m), S, (Z.to_nat d), (Z.to_nat m), (Z.to_nat (py_round (Rabs tc * 10 ^ Z.to_nat p))), (if Rlt_dec tc 0 then true else false).
  assert (PW : 0 < 10 ^ Z.to_nat p) by (apply pow_lt; lra).
  split; [destruct (Rlt_dec tc 0); reflexivity|]. split; [intros L; rewrite sign_neg by auto; destruct (Rlt_dec 0 (-1)); [lra|reflexivity]|].
  split; [intros L; rewrite sign_pos by auto; destruct (Rlt_dec 0 1); [reflexivity|lra]|]. split; [now apply fmt_d_pos|]. split; [apply fmt_d_pos; lia|]. split; [lia|]. split.
  - replace (w - (if Rlt_dec tc 0 then 1 else 0) - point (Z.to_nat p))%nat with (if (if Rlt_dec tc 0 then true else false) then 1%nat else 2%nat) in G; [exact G|].
    unfold w, point. destruct (Z.ltb_spec 0 p); destruct (Nat.eqb_spec (Z.to_nat p) 0); destruct (Rlt_dec tc 0); lia.
  - assert (TA : Rabs deg = IZR d + IZR m / 60 + tc / 3600) by (destruct C as [[_ C]|(u & _ & -> & C)]; exact C).
    split.
    + rewrite !INR_Z by (lia || (apply py_round_nonneg; apply Rmult_le_pos; [apply Rabs_pos|lra])).
      pose proof (py_round_close (Rabs tc * 10 ^ Z.to_nat p)) as K. set (k := py_round _) in *. set (T := 10 ^ Z.to_nat p) in *.
      assert (K2 : Rabs (IZR k / T - Rabs tc) <= / 2 / T).
      { replace (IZR k / T - Rabs tc) with ((IZR k - Rabs tc * T) / T) by (field; lra). unfold Rdiv. rewrite Rabs_mult, (Rabs_pos_eq (/ T)) by (apply Rlt_le, Rinv_0_lt_compat; auto).
        apply Rmult_le_compat_r; [apply Rlt_le, Rinv_0_lt_compat; auto|lra]. }
      rewrite TA. apply Rabs_le_between in K2. apply Rabs_le. destruct (Rlt_dec tc 0).
      * rewrite (Rabs_left tc) in K2 by auto. lra.
      * rewrite (Rabs_pos_eq tc) in K2 by lra. lra.
    + split.
      * intros Q. exists (Z.to_nat d0), (Z.to_nat m0), t0. rewrite !INR_Z by lia. split; [exact E0|]. split; [lia|]. split; [|lra].
        destruct (rounds_to_60 t0) eqn:Rb; [apply RS; reflexivity|]. destruct (Rlt_dec tc 0); [lra|discriminate Q].
      * intros (n' & m' & u & E1 & Hm' & Hu).
        assert (U : INR n' = IZR d0 /\ INR m' = IZR m0).
        { rewrite !INR_IZR_INZ in *. assert (IZR (Z.of_nat m') <= 59) by (apply IZR_le; lia). assert (0 <= IZR (Z.of_nat m')) by (apply IZR_le; lia).
          assert (IZR m0 <= 59) by (apply IZR_le; lia). assert (0 <= IZR m0) by (apply IZR_le; lia).
          assert (Z.of_nat n' = d0). { rewrite E1 in E0. assert (IZR (Z.of_nat n') < IZR (d0 + 1)) by (rewrite plus_IZR; lra). assert (IZR d0 < IZR (Z.of_nat n' + 1)) by (rewrite plus_IZR; lra). apply lt_IZR in H3, H4. lia. }
          split; [now f_equal|]. f_equal. subst d0. rewrite E1 in E0. assert (IZR (Z.of_nat m') < IZR (m0 + 1)) by (rewrite plus_IZR; lra). assert (IZR m0 < IZR (Z.of_nat m' + 1)) by (rewrite plus_IZR; lra). apply lt_IZR in H3, H4. lia. }
        destruct U as [U1 U2]. assert (u = t0) by lra. subst u. destruct (rounds_to_60 t0) eqn:Rb.
        -- destruct (Rlt_dec tc 0); [reflexivity|lra].
        -- exfalso. assert (59995 / 1000 <= t0) by lra. apply RS in H. discriminate H.
Qed.

Theorem deg2dms_invalid : forall delim b p, deg2dms None delim b p = None.
Proof. reflexivity. Qed.

(** with the default of two places a carry prints -0.00 *)
Theorem deg2dms_minus_zero : forall deg delim b n m u, Rabs deg = INR n + INR m / 60 + u / 3600 -> (m < 60)%nat -> 59995 / 1000 <= u < 60 ->
  exists x, deg2dms (Some deg) delim b 2 = Some (x ++ s "-0.00")%list.
Proof.
  intros deg delim b n m u E Hm Hu. unfold deg2dms.
  assert (F : sexagesimal deg = (Z.of_nat n, Z.of_nat m, u)).
  { unfold sexagesimal. assert (INR m / 60 <= 59 / 60). { assert (INR m <= INR 59) by (apply le_INR; lia). rewrite (INR_IZR_INZ 59) in H. change (Z.of_nat 59) with 59%Z in H. lra. }
    pose proof (pos_INR m) as Pm. pose proof (pos_INR n) as Pn.
    assert (E1 : py_int (Rabs deg) = Z.of_nat n). { unfold py_int. destruct Rle_dec; [|lra]. apply Rfloor_unique. rewrite <- INR_IZR_INZ. lra. }
    rewrite E1. rewrite <- INR_IZR_INZ.
    assert (E2 : py_int (60 * (Rabs deg - INR n)) = Z.of_nat m). { unfold py_int. destruct Rle_dec; [|lra]. apply Rfloor_unique. rewrite <- INR_IZR_INZ. lra. }
    rewrite E2, <- INR_IZR_INZ. f_equal. rewrite E. field. }
  rewrite F. unfold carry. assert (Q : rounds_to_60 u = true) by (apply rounds_spec; lra). rewrite Q.
  assert (Z : fmt_f (2 + Z.to_nat 2 + 1) (Z.to_nat 2) (u - 60) = s "-0.00").
  { unfold fmt_f. destruct Rlt_dec; [|lra]. rewrite Rabs_left by auto.
    assert (P : (py_round (- (u - 60) * 10 ^ Z.to_nat 2) < 1)%Z).
    { change (Z.to_nat 2) with 2%nat. pose proof (py_round_ge (- (u - 60) * 10 ^ 2) 0 eq_refl) as G0. destruct (Z_lt_ge_dec (py_round (- (u - 60) * 10 ^ 2)) 1); auto. exfalso.
      pose proof (py_round_close (- (u - 60) * 10 ^ 2)) as K. apply Rabs_le_between in K. assert (1 <= IZR (py_round (- (u - 60) * 10 ^ 2))) by (apply IZR_le; lia).
      assert (- (u - 60) * 10 ^ 2 = 1 / 2) by lra. rewrite H0 in *. pose proof (py_round_half 0) as H1. cbn [Z.even] in H1. rewrite Rplus_0_l in H1. rewrite H1 in *. lia. }
    assert (P0 : (0 <= py_round (- (u - 60) * 10 ^ Z.to_nat 2))%Z) by (apply py_round_nonneg; apply Rmult_le_pos; [lra|apply pow_le; lra]).
    replace (py_round (- (u - 60) * 10 ^ Z.to_nat 2)) with 0%Z by lia. reflexivity. }
  destruct (60 <=? Z.of_nat m + 1)%Z; change (0 <? 2)%Z with true; cbv iota; rewrite Z; (eexists; rewrite !app_assoc; reflexivity).
Qed.

(* ------------------------------------------------------------ other labels *)

Theorem deg_label : forall deg, exists y k, label_deg deg = ((if Rlt_dec deg 0 then s "-" else []) ++ y)%list /\ decimal 0 3 y k /\ Rabs (INR k / 1000 - Rabs deg) <= 5 / 10000.
Proof.
  intros deg. destruct (fmt_f_spec 0 3 deg) as (y & E & G). exists y. eexists. unfold label_deg. rewrite E. split; [destruct Rlt_dec; reflexivity|].
  split; [replace (0 - (if Rlt_dec deg 0 then 1 else 0) - point 3)%nat with 0%nat in G by (destruct Rlt_dec; reflexivity); exact G|].
  pose proof (py_round_close (Rabs deg * 10 ^ 3)) as K. rewrite INR_Z by (apply py_round_nonneg; apply Rmult_le_pos; [apply Rabs_pos|lra]).
  apply Rabs_le_between in K. apply Rabs_le. lra.
Qed.

(** powers of ten: the exponent is cut towards zero, so large numbers are
    labelled by the power below, small ones by the power above *)
Theorem exp_label : forall g sw x, x <> 0 -> sw <= Rabs (log10 (Rabs x)) -> exists z, label_exp g sw (Some x) =
    POk (s "$" ++ (if Rlt_dec x 0 then s "-" else []) ++ s "10^{" ++ (if (z <? 0)%Z then s "-" else []) ++ str_of_nat (Z.to_nat (Z.abs z)) ++ s "}$")%list /\
  (1 <= Rabs x -> (0 <= z)%Z /\ IZR z <= log10 (Rabs x) < IZR z + 1) /\ (Rabs x < 1 -> (z <= 0)%Z /\ IZR z - 1 < log10 (Rabs x) <= IZR z).
Proof.
  intros g sw x N H. unfold label_exp. destruct (Req_EM_T x 0); [contradiction|]. destruct (Rle_dec sw _); [|contradiction].
  pose proof (Rabs_pos_lt x N) as P. destruct (Req_EM_T (Rabs x) 0); [lra|]. exists (py_int (log10 (Rabs x))).
  assert (L10 : 0 < ln 10) by (rewrite <- ln_1; apply ln_increasing; lra). split; [|split].
  - assert (S1 : (if (py_int (x / Rabs x) <? 0)%Z then s "-" else []) = if Rlt_dec x 0 then s "-" else []).
    { destruct (Rlt_dec x 0) as [q|q].
      - rewrite (Rabs_left x q). replace (x / - x) with (IZR (-1)) by (field; lra). rewrite py_int_IZR. reflexivity.
      - rewrite (Rabs_pos_eq x) by lra. replace (x / x) with (IZR 1) by (field; lra). rewrite py_int_IZR. reflexivity. }
    f_equal. apply f_equal2; [reflexivity|]. apply f_equal2; [exact S1|]. apply f_equal2; [reflexivity|]. rewrite app_assoc. apply f_equal2; [|reflexivity]. unfold fmt_d. set (z := py_int (log10 (Rabs x))).
    assert (F1 : forall n, format0 1 n = str_of_nat n /\ format0 0 n = str_of_nat n).
    { intros n'. unfold format0. split; [|reflexivity]. unfold str_of_nat. destruct (dec_fuel (S n') n') as (k & L & _ & K1 & _); [lia|]. rewrite <- L. replace (1 - k)%nat with 0%nat by lia. reflexivity. }
    destruct (Z.ltb_spec z 0).
    + change (1 - 1)%nat with 0%nat. rewrite (proj2 (F1 _)). rewrite Z.abs_neq by lia. reflexivity.
    + rewrite (proj1 (F1 _)). rewrite Z.abs_eq by lia. reflexivity.
  - intros G. assert (0 <= log10 (Rabs x)). { apply Rmult_le_pos; [|apply Rlt_le, Rinv_0_lt_compat; auto]. rewrite <- ln_1. destruct (Req_dec (Rabs x) 1) as [-> |]; [lra|]. apply Rlt_le, ln_increasing; lra. }
    pose proof (py_int_pos _ H0). split; [|auto]. assert (IZR (-1) < IZR (py_int (log10 (Rabs x)))) by lra. apply lt_IZR in H2. lia.
  - intros G. assert (log10 (Rabs x) < 0). { assert (ln (Rabs x) < 0) by (rewrite <- ln_1; apply ln_increasing; lra). unfold log10, Rdiv. assert (0 < / ln 10) by (apply Rinv_0_lt_compat; auto). nra. }
    pose proof (py_int_neg _ H0). split; [|auto]. assert (IZR (py_int (log10 (Rabs x))) < IZR 1) by lra. apply lt_IZR in H2. lia.
Qed.
Theorem exp_label_plain : forall g sw x, Rabs (if Req_EM_T x 0 then 0 else log10 (Rabs x)) < sw -> label_exp g sw (Some x) = POk (s "$" ++ (if Rlt_dec x 0 then s "-" else []) ++ g (Rabs x) ++ s "$")%list.
Proof.
  intros g sw x H. unfold label_exp. destruct (Req_EM_T x 0) as [->|N]; (destruct (Rle_dec sw _) as [Q|Q]; [exfalso; apply (Rle_not_lt _ _ Q H)|clear Q]).
  - destruct (Rlt_dec 0 0); [lra|]. rewrite Rabs_R0. reflexivity.
  - f_equal. f_equal. f_equal. destruct (Rlt_dec x 0) as [q|q].
    + rewrite (Rabs_left x q). replace (x / - x) with (IZR (-1)) by (field; lra). rewrite py_int_IZR. reflexivity.
    + rewrite (Rabs_pos_eq x) by lra. replace (x / x) with (IZR 1) by (field; lra). rewrite py_int_IZR. reflexivity.
Qed.
Theorem exp_label_defined : forall g sw num, (exists t, label_exp g sw num = POk t) <-> exists x, num = Some x /\ (x <> 0 \/ 0 < sw).
Proof.
  intros g sw [x|]; [|split; [intros [t Q]; discriminate Q|intros (x & Q & _); discriminate Q]]. unfold label_exp. destruct (Req_EM_T x 0) as [E|N].
  - rewrite Rabs_R0. destruct (Rle_dec sw 0); destruct (Req_EM_T 0 0); try lra.
    + split; [intros [t Q]; discriminate Q|]. intros (y & [= <-] & [Q|Q]); [contradiction|lra].
    + split; [intros _; exists x; split; [auto|right; lra]|eauto].
  - pose proof (Rabs_pos_lt x N). destruct (Req_EM_T (Rabs x) 0); [lra|]. split; [intros _; exists x; auto|]. intros _. destruct (Rle_dec sw _); eauto.
Qed.

(** no label for NaN or infinities *)
Theorem labels_invalid : label_dms None = PErr /\ label_hms None = PErr /\ (forall d, exists t, label_dms (Some d) = POk t) /\ forall d, exists t, label_hms (Some d) = POk t.
Proof. repeat split; intros d; unfold label_dms, label_hms; destruct (carry _ _) as [[? ?] ?]; eauto. Qed.

(** equal labels: the positions differ by less than a minute *)
Theorem dms_close : forall x y t, 0 <= x -> 0 <= y -> label_dms (Some x) = POk t -> label_dms (Some y) = POk t -> Rabs (x - y) < 1 / 60 + 5 / 1000 / 3600.
Proof.
  intros x y t Hx Hy A B. destruct (dms_label_pos x Hx) as (D & M & n & m & E & N1 & N2 & Hm & V). destruct (dms_label_pos y Hy) as (D' & M' & n' & m' & E' & N1' & N2' & Hm' & V').
  rewrite A in E. rewrite B in E'. injection E as E. injection E' as E'. rewrite E in E'.
  assert (U : forall a b a' b', digits a -> digits a' -> (a ++ s "d" ++ b)%list = (a' ++ s "d" ++ b')%list -> a = a' /\ b = b').
  { clear. induction a as [|c a IH]; intros b a' b' P Q H.
    - destruct a' as [|c' a']; [injection H as H; auto|]. injection H as H _. apply Forall_inv in Q. subst c'. vm_compute in Q. lia.
    - destruct a' as [|c' a']; [injection H as H _; apply Forall_inv in P; subst c; vm_compute in P; lia|]. injection H as -> H.
      destruct (IH b a' b' (Forall_inv_tail P) (Forall_inv_tail Q) H) as [-> ->]. auto. }
  destruct (U _ _ _ _ (proj1 N1) (proj1 N1') E') as [-> E2]. apply app_inv_tail in E2. subst M'.
  assert (n = n') by (rewrite <- (numeral_value _ _ _ N1); apply (numeral_value _ _ _ N1')). assert (m = m') by (rewrite <- (numeral_value _ _ _ N2); apply (numeral_value _ _ _ N2')). subst n' m'.
  apply Rabs_def1; lra.
Qed.
