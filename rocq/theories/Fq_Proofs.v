(** Proofs about frequency files: numbers written and read. *)
From Coq Require Import Reals Lra Lia List Arith ZArith Bool Ascii String.
From Flocq Require Import Core.
Set Warnings "-ambiguous-paths".
From Verif Require Import PyRes PyStr PyStr_Proofs PyList PyList_Proofs NdArray Setup_Model Setup_Proofs Cube_Model Cat_Model Cat_Spec Cat_Text Sx_Model Fq_Model Fq_Spec.
Import ListNotations.
Local Notation length := List.length.
Local Open Scope R_scope.

(* --------------------------------------------------------------- rounding *)

Lemma bpow2 : forall e, bpow radix2 e = powerRZ 2 e.
Proof. intros e. rewrite bpow_powerRZ. reflexivity. Qed.
Lemma binary_format : forall p emin emax x, (0 < p)%Z -> binary p emin emax x <-> generic_format radix2 (FLT_exp emin p) x /\ Rabs x < bpow radix2 emax.
Proof.
  intros p emin emax x Hp. assert (PG : Prec_gt_0 p) by exact Hp. unfold binary. rewrite bpow2. split; intros [A B]; (split; [|exact B]).
  - destruct A as (m & e & -> & M & E). apply generic_format_FLT. exists (Float radix2 m e); auto. unfold F2R. cbn. rewrite bpow2. reflexivity.
  - apply (FLT_format_generic radix2 emin p) in A. destruct A as [[m e] E1 M E]. exists m, e. split; [|auto]. rewrite E1. unfold F2R. cbn. rewrite bpow2. reflexivity.
Qed.

Lemma keeps_pos : forall p emin x d, (1 < p)%Z -> generic_format radix2 (FLT_exp emin p) x -> 0 < x -> Rabs (d - x) <= x * bpow radix2 (- p) / 8 ->
  round radix2 (FLT_exp emin p) ZnearestE d = x.
Proof.
  intros p emin x d Hp F X H. assert (PG : Prec_gt_0 p) by (red; lia). set (fe := FLT_exp emin p) in *.
  assert (VE : Valid_exp fe) by exact (FLT_exp_valid emin p). assert (ME : Monotone_exp fe) by exact (FLT_exp_monotone emin p).
  pose proof (bpow_gt_0 radix2 (- p)) as B0. assert (B1 : bpow radix2 (- p) < 1) by (apply (bpow_lt radix2 (- p) 0); lia).
  set (b := bpow radix2 (- p)) in *. apply Rabs_le_inv in H.
  assert (SX : x * b < succ radix2 fe x - x).
  { rewrite succ_eq_pos by lra. pose proof (ulp_FLT_gt radix2 emin p x) as U. fold fe b in U. rewrite Rabs_pos_eq in U by lra. lra. }
  assert (PX : x * b / 2 < x - pred radix2 fe x).
  { pose proof (pred_ge_0 radix2 fe x X F) as P0. pose proof (succ_pred radix2 fe x F) as SP. rewrite succ_eq_pos in SP by auto. set (q := pred radix2 fe x) in *.
    pose proof (ulp_FLT_gt radix2 emin p q) as U. fold fe b in U. rewrite Rabs_pos_eq in U by lra. nra. }
  apply Rle_antisym.
  - apply round_N_le_midp; auto. lra.
  - apply round_N_ge_midp; auto. lra.
Qed.
Lemma keeps : forall p emin x d, (1 < p)%Z -> generic_format radix2 (FLT_exp emin p) x -> Rabs (d - x) <= Rabs x * bpow radix2 (- p) / 8 ->
  round radix2 (FLT_exp emin p) ZnearestE d = x.
Proof.
  intros p emin x d Hp F H. destruct (Rtotal_order x 0) as [X|[->|X]].
  - rewrite <- (Ropp_involutive d), round_NE_opp, (keeps_pos p emin (- x)); auto; try lra.
    + now apply generic_format_opp.
    + rewrite (Rabs_left x) in H by lra. replace (- d - - x) with (- (d - x)) by ring. rewrite Rabs_Ropp. lra.
  - rewrite Rabs_R0 in H. assert (d = 0) as ->. { apply Rminus_diag_uniq. destruct (Req_dec (d - 0) 0); auto. pose proof (Rabs_pos_lt _ H0). lra. } apply round_0. apply valid_rnd_N.
  - rewrite (Rabs_pos_eq x) in H by lra. apply keeps_pos; auto.
Qed.
Lemma cast_keeps : forall f x d, (1 < i_prec f)%Z -> binary (i_prec f) (i_emin f) (i_emax f) x -> Rabs (d - x) <= Rabs x * bpow radix2 (- i_prec f) / 8 -> cast f d = Some x.
Proof.
  intros f x d Hp H D. apply binary_format in H; [|lia]. destruct H as [F B]. unfold cast. rewrite (keeps (i_prec f) (i_emin f) x d) by auto.
  destruct (Rlt_dec (Rabs x) (bpow radix2 (i_emax f))); [reflexivity|contradiction].
Qed.
Lemma cast_exact : forall f x, (1 < i_prec f)%Z -> binary (i_prec f) (i_emin f) (i_emax f) x -> cast f x = Some x.
Proof.
  intros f x Hp H. apply cast_keeps; auto. replace (x - x) with 0 by ring. rewrite Rabs_R0. pose proof (Rabs_pos x). pose proof (bpow_gt_0 radix2 (- i_prec f)). nra.
Qed.

(* ---------------------------------------------------------------- numerals *)

Fixpoint fdigs (d n : nat) : list nat := match d with O => [] | S d => (fdigs d (n / 10) ++ [n mod 10])%list end.
Lemma fdigs_map : forall d n, map digit (fdigs d n) = fixed d n.
Proof. induction d as [|d IH]; intros n; cbn [fdigs fixed map]; auto. rewrite map_app, IH. reflexivity. Qed.
Lemma fdigs_length : forall d n, length (fdigs d n) = d.
Proof. induction d as [|d IH]; intros n; cbn [fdigs]; auto. rewrite app_length, IH. cbn. lia. Qed.
Lemma fdigs_ok : forall d n, List.Forall (fun x => (x < 10)%nat) (fdigs d n).
Proof. induction d as [|d IH]; intros n; cbn [fdigs]; [constructor|]. apply Forall_app. split; auto. constructor; [apply Nat.mod_upper_bound; lia|constructor]. Qed.
Lemma fdigs_whole : forall d n, (n < 10 ^ d)%nat -> whole (fdigs d n) = INR n.
Proof.
  induction d as [|d IH]; intros n H; cbn [fdigs].
  - cbn in H. replace n with 0%nat by lia. reflexivity.
  - rewrite whole_app, IH; [|rewrite Nat.pow_succ_r' in H; apply Nat.div_lt_upper_bound; lia]. cbn [length whole pow].
    pose proof (Nat.div_mod n 10 ltac:(lia)) as D. rewrite D at 3. rewrite plus_INR, mult_INR. change (INR 10) with (INR (10)). replace (INR 10) with 10 by (cbn; lra). ring.
Qed.
Lemma format0_digs : forall w n, exists j, format0 w n = fixed j n /\ (n < 10 ^ j)%nat /\ (1 <= j)%nat.
Proof.
  intros w n. unfold format0, str_of_nat. destruct (dec_fuel (S n) n) as (k & L & E & K1 & B & C); [lia|]. exists (w - k + k)%nat. rewrite <- L, E, <- fixed_pad by auto.
  split; [reflexivity|]. split; [eapply Nat.lt_le_trans; [exact B|apply Nat.pow_le_mono_r; lia]|lia].
Qed.

Lemma log10_range : forall a, 0 < a -> let k := Rfloor (log10 a) in powerRZ 10 k <= a < powerRZ 10 (k + 1).
Proof.
  intros a A k. pose proof (Rfloor_spec (log10 a)) as F. fold k in F. assert (L : 0 < ln 10) by (rewrite <- ln_1; apply ln_increasing; lra).
  assert (PR : forall z, powerRZ 10 z = exp (IZR z * ln 10)) by (intros z; rewrite powerRZ_Rpower by lra; reflexivity).
  assert (LA : log10 a * ln 10 = ln a) by (unfold log10; field; lra).
  assert (EA : exp (log10 a * ln 10) = a) by (rewrite LA; apply exp_ln; auto). rewrite !PR. split.
  - rewrite <- EA. destruct (proj1 F) as [H|H]; [apply Rlt_le, exp_increasing, Rmult_lt_compat_r; auto|rewrite H; lra].
  - rewrite <- EA. rewrite plus_IZR. apply exp_increasing, Rmult_lt_compat_r; [auto|apply F].
Qed.
Lemma p10 : forall z, 0 < powerRZ 10 z.
Proof. intros. apply powerRZ_lt. lra. Qed.
Lemma INR_pow10 : forall p, INR (10 ^ p) = 10 ^ p.
Proof. intros. rewrite pow_INR. f_equal. cbn. lra. Qed.

Lemma INR_le' : forall a b, INR a < INR b + 1 -> (a <= b)%nat.
Proof. intros a b H. rewrite <- S_INR in H. apply INR_lt in H. lia. Qed.
Lemma powerRZ_sub10 : forall k p, powerRZ 10 (k - Z.of_nat p) = powerRZ 10 k / 10 ^ p.
Proof. intros k p. unfold Z.sub. rewrite powerRZ_add by lra. rewrite powerRZ_neg', <- pow_powerRZ. reflexivity. Qed.

(** the text is a numeral of one digit, p places and an exponent, within half of
    the last place *)
Theorem fmt_e_spec : forall p x, (1 <= p)%nat -> exists n d f g, fmt_e p x = show n /\ num_ok n /\ n_int n = [d] /\ n_frac n = Some f /\ length f = p /\ n_exp n = Some g /\
  (n_sign n = Some true <-> x < 0) /\ (x <> 0 -> d <> 0%nat) /\ Rabs (num_value n - x) <= Rabs x / 2 / 10 ^ p.
Proof.
  intros p x Hp. unfold fmt_e.
  set (k0 := if Req_EM_T x 0 then 0%Z else Rfloor (log10 (Rabs x))). set (y := Rabs x * powerRZ 10 (Z.of_nat p - k0)). set (n0 := Z.to_nat (py_round y)).
  assert (P10 : (10 ^ p <> 0)%nat) by (apply Nat.pow_nonzero; lia).
  assert (Y0 : 0 <= y) by (apply Rmult_le_pos; [apply Rabs_pos|apply Rlt_le, p10]).
  assert (N0 : Rabs (INR n0 - y) <= 1 / 2).
  { unfold n0. rewrite INR_IZR_INZ, Z2Nat.id by (apply py_round_nonneg; auto). apply py_round_close. }
  assert (YX : x <> 0 -> 10 ^ p <= y < 10 ^ (p + 1)).
  { intros X. unfold y, k0. destruct (Req_EM_T x 0); [contradiction|]. pose proof (log10_range (Rabs x) (Rabs_pos_lt x X)) as K. cbv zeta in K. set (k := Rfloor (log10 (Rabs x))) in *.
    rewrite !pow_powerRZ. pose proof (p10 (Z.of_nat p - k)) as Q. split.
    - replace (powerRZ 10 (Z.of_nat p)) with (powerRZ 10 k * powerRZ 10 (Z.of_nat p - k)); [apply Rmult_le_compat_r; lra|]. rewrite <- powerRZ_add by lra. f_equal. lia.
    - replace (powerRZ 10 (Z.of_nat (p + 1))) with (powerRZ 10 (k + 1) * powerRZ 10 (Z.of_nat p - k)); [apply Rmult_lt_compat_r; lra|]. rewrite <- powerRZ_add by lra. f_equal. lia. }
  assert (NR : x <> 0 -> (10 ^ p <= n0 <= 10 ^ (p + 1))%nat).
  { intros X. specialize (YX X). apply Rabs_le_inv in N0. split.
    - apply INR_le'. rewrite INR_pow10. lra.
    - apply INR_le'. rewrite INR_pow10. lra. }
  assert (NZ : x = 0 -> n0 = 0%nat).
  { intros X. apply Rabs_le_inv in N0. assert (y = 0) by (unfold y; rewrite X, Rabs_R0; ring). assert (INR n0 < INR 1) by (cbn [INR]; lra). apply INR_lt in H0. lia. }
  set (kn := if (n0 =? 10 ^ (p + 1))%nat then ((k0 + 1)%Z, (10 ^ p)%nat) else (k0, n0)).
  assert (KN : INR (snd kn) * powerRZ 10 (fst kn - Z.of_nat p) = INR n0 * powerRZ 10 (k0 - Z.of_nat p) /\ (snd kn < 10 ^ (p + 1))%nat /\ (x <> 0 -> (10 ^ p <= snd kn)%nat)).
  { unfold kn. destruct (Nat.eqb_spec n0 (10 ^ (p + 1))) as [E|E]; cbn [fst snd].
    - rewrite E, !INR_pow10, !pow_powerRZ, <- !powerRZ_add by lra. split; [f_equal; lia|]. split; [apply Nat.pow_lt_mono_r; lia|lia].
    - split; [reflexivity|]. split; [|apply NR]. destruct (Req_dec x 0) as [X|X]; [rewrite (NZ X); apply Nat.neq_0_lt_0, Nat.pow_nonzero; lia|]. specialize (NR X). lia. }
  destruct kn as [k n]. cbn [fst snd] in KN. destruct KN as (V & NB & NL).
  assert (ND : (n / 10 ^ p < 10)%nat). { apply Nat.div_lt_upper_bound; auto. rewrite Nat.add_1_r, Nat.pow_succ_r', Nat.mul_comm in NB. exact NB. }
  assert (NM : (n mod 10 ^ p < 10 ^ p)%nat) by (apply Nat.mod_upper_bound; auto).
  destruct (format0_digs 2 (Z.to_nat (Z.abs k))) as (j & FJ & JB & J1).
  set (num := mk_num (if Rlt_dec x 0 then Some true else None) [(n / 10 ^ p)%nat] (Some (fdigs p (n mod 10 ^ p))) (Some (false, Some (k <? 0)%Z, fdigs j (Z.to_nat (Z.abs k))))).
  exists num, (n / 10 ^ p)%nat, (fdigs p (n mod 10 ^ p)), (false, Some (k <? 0)%Z, fdigs j (Z.to_nat (Z.abs k))).
  split; [|split; [|split; [|split; [|split; [|split; [|split; [|split]]]]]]]; try reflexivity.
  - unfold show, num. cbn [n_sign n_int n_frac n_exp]. rewrite !fdigs_map, (format0_fixed p) by auto. rewrite FJ. destruct (Rlt_dec x 0), (k <? 0)%Z; reflexivity.
  - unfold num_ok, num, frac_digits. cbn [n_int n_frac n_exp]. split; [constructor; auto|]. split; [apply fdigs_ok|]. split; [discriminate|]. split; [apply fdigs_ok|].
    destruct j; [lia|]. cbn [fdigs]. intros E. apply app_eq_nil in E. destruct E as [_ E]. discriminate E.
  - apply fdigs_length.
  - unfold num. cbn [n_sign]. destruct (Rlt_dec x 0); split; auto; intros E; [discriminate E|contradiction].
  - intros X. specialize (NL X). intros E. apply Nat.div_small_iff in E; lia.
  - assert (VAL : num_value num = (if Rlt_dec x 0 then -1 else 1) * (INR n0 * powerRZ 10 (k0 - Z.of_nat p))).
    { rewrite <- V. unfold num_value, num, frac_digits. cbn [n_sign n_int n_frac n_exp]. rewrite fdigs_length, (fdigs_whole p) by auto.
      replace (minus (if Rlt_dec x 0 then Some true else None)) with (if Rlt_dec x 0 then true else false) by (destruct (Rlt_dec x 0); reflexivity).
      assert (WZ : wholeZ (fdigs j (Z.to_nat (Z.abs k))) = Z.abs k). { apply eq_IZR. rewrite wholeZ_R, fdigs_whole by auto. rewrite INR_IZR_INZ, Z2Nat.id by lia. reflexivity. }
      rewrite WZ. replace (if minus (Some (k <? 0)%Z) then (- Z.abs k)%Z else Z.abs k) with k by (cbn; destruct (Z.ltb_spec k 0); lia).
      cbn [whole length pow]. rewrite (powerRZ_sub10 k p).
      pose proof (Nat.div_mod n (10 ^ p) P10) as DM. apply (f_equal INR) in DM. rewrite plus_INR, mult_INR, INR_pow10 in DM.
      assert (0 < 10 ^ p) by (apply pow_lt; lra). rewrite DM. destruct (Rlt_dec x 0); field; lra. }
    rewrite VAL. assert (E : INR n0 * powerRZ 10 (k0 - Z.of_nat p) - Rabs x = (INR n0 - y) * powerRZ 10 (k0 - Z.of_nat p)).
    { unfold y. rewrite Rmult_minus_distr_r. f_equal. rewrite Rmult_assoc, <- powerRZ_add by lra. replace (Z.of_nat p - k0 + (k0 - Z.of_nat p))%Z with 0%Z by lia. cbn. ring. }
    assert (T : Rabs (INR n0 * powerRZ 10 (k0 - Z.of_nat p) - Rabs x) <= Rabs x / 2 / 10 ^ p).
    { destruct (Req_dec x 0) as [X|X].
      - rewrite (NZ X), X, Rabs_R0. cbn [INR]. rewrite Rmult_0_l, Rminus_0_r, Rabs_R0. unfold Rdiv. rewrite !Rmult_0_l. lra.
      - rewrite E, Rabs_mult, (Rabs_pos_eq (powerRZ 10 (k0 - Z.of_nat p))) by apply Rlt_le, p10.
        apply Rle_trans with (1 / 2 * powerRZ 10 (k0 - Z.of_nat p)); [apply Rmult_le_compat_r; [apply Rlt_le, p10|exact N0]|].
        rewrite (powerRZ_sub10 k0 p). assert (0 < 10 ^ p) by (apply pow_lt; lra).
        assert (KX : powerRZ 10 k0 <= Rabs x). { unfold k0. destruct (Req_EM_T x 0); [contradiction|]. apply (log10_range (Rabs x) (Rabs_pos_lt x X)). }
        unfold Rdiv. rewrite <- Rmult_assoc. apply Rmult_le_compat_r; [apply Rlt_le, Rinv_0_lt_compat; auto|lra]. }
    destruct (Rlt_dec x 0) as [X|X].
    + rewrite (Rabs_left x) in * by auto. replace (-1 * (INR n0 * powerRZ 10 (k0 - Z.of_nat p)) - x) with (- (INR n0 * powerRZ 10 (k0 - Z.of_nat p) - - x)) by ring. rewrite Rabs_Ropp. exact T.
    + rewrite (Rabs_pos_eq x) in * by lra. rewrite Rmult_1_l. exact T.
Qed.
