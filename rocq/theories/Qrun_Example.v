(** Findings and a worked run of the QU-fitting tool. *)
From Coq Require Import Reals List Arith ZArith Bool Lra Lia Psatz String Ascii Permutation.
Set Warnings "-ambiguous-paths".
From Coquelicot Require Import Coquelicot.
From Verif Require Import CBase PyRes PyList PyStr PyList_Proofs PyStr_Proofs Synth_Model StokesI_Model StokesI_Spec StokesI_Proofs MpI_Model MpI_Spec Measure_Model Measure_Spec Median_Proofs
  Setup_Spec Setup_Proofs Run1D_Model Run1D_Spec CleanTop_Model QU_Model QU_Spec QU_Proofs QU_Like QU_Extra Qrun_Flat Qrun_Model Qrun_Spec Qrun_Proofs Qrun_Report Qrun_Fit.
Import ListNotations.
Local Open Scope R_scope.
Local Notation length := List.length.

Definition kp := mk_k (s "fracPol") KOther 0 1 None.
Definition kp_fixed := mk_k (s "fracPol") KDelta (1 / 2) (1 / 2) None.
Definition kpsi := mk_k (s "psi0_deg") KOther 0 180 (Some (s "periodic")).
Definition krm := mk_k (s "RM_radm2") KOther (-1100) 1100 None.
Definition krm_fixed := mk_k (s "RM_radm2") KDelta 5 5 None.
Definition thin_free := mk_mod m1 [kp; kpsi; krm].
Definition thin_fixed := mk_mod m1 [kp_fixed; kpsi; krm].
Definition thin_fixed2 := mk_mod m1 [kp_fixed; krm_fixed; kpsi].

(** a sampler whose samples are all the same *)
Definition const_sampler (vs : list R) (n : nat) : sampler_t :=
  fun _ ks => if Nat.eqb (length (varied ks)) (length vs) then Some (mk_sres (map (fun v => repeat v (S n)) vs) [0] 0 0) else None.

Lemma const_ok : forall vs n, sampler_ok (const_sampler vs n).
Proof.
  intros vs n L ks x H. unfold const_sampler in H. destruct (Nat.eqb_spec (length (varied ks)) (length vs)) as [E|]; [|discriminate]. injection H as <-. cbn [s_cols s_lnl].
  split; [now rewrite map_length|]. split; [discriminate|]. intros c Hc. apply in_map_iff in Hc. destruct Hc as (v & <- & _). discriminate.
Qed.

Lemma median_const : forall v n, median (repeat v (S n)) = Some v.
Proof.
  intros v n. assert (N : repeat v (S n) <> []) by discriminate. pose proof (quantile_half _ N) as Q. rewrite Q. f_equal.
  destruct (median_bounds _ _ v v Q) as [A B]; [intros y Hy; apply repeat_spec in Hy; lra|]. lra.
Qed.
Lemma quantile_const : forall v n, quantile (/ 2) (repeat v (S n)) = v.
Proof. intros v n. pose proof (median_const v n) as M. rewrite quantile_half in M by discriminate. now injection M. Qed.

Lemma keys_differ : proper_priors [kp_fixed; kpsi; krm] /\ proper_priors [kp; kpsi; krm] /\ proper_priors [kp_fixed; krm_fixed; kpsi].
Proof.
  repeat split.
  all: try (cbn [map k_key kp_fixed kp kpsi krm krm_fixed]; repeat constructor; cbn; intuition discriminate).
  all: intros k Hk Ck; repeat (destruct Hk as [<-|Hk]; [first [discriminate|reflexivity]|]); destruct Hk.
Qed.

Lemma thin_computable : forall m l2, In m [thin_free; thin_fixed; thin_fixed2] -> computable m l2.
Proof.
  intros m l2 H p Lp. destruct H as [<-|[<-|[<-|[]]]]; cbn in Lp; destruct p as [|a [|b [|c [|? ?]]]]; try discriminate; eexists; reflexivity.
Qed.

Lemma psi_rotates : forall n, to_rotate (as_param kpsi (repeat 10 (S n))) = true.
Proof.
  intros n. apply (to_rotate_spec _ 10); [|apply median_const|left; lra].
  split; [exists (s "psi0_"); reflexivity|]. repeat split; reflexivity.
Qed.
Lemma others_stay : forall k col, In k [kp; kp_fixed; krm; krm_fixed] -> to_rotate (as_param k col) = false.
Proof.
  intros k col H. destruct (to_rotate _) eqn:T; [|reflexivity]. exfalso. apply rotates_angle in T. destruct T as (_ & T1 & T2 & _).
  destruct H as [<-|[<-|[<-|[<-|[]]]]]; cbn in T1, T2; lra.
Qed.

(** C79 finding: a fixed parameter before an angle *)
Definition x_freq : list R := [299792458; 299792458 / 2].
Definition x_data (q u : list (option R)) : synth_data := Data5 x_freq q u [Some 1; Some 1] [Some 1; Some 1].

Lemma example_run : forall fuel rest sampler m q u po ff, length q = 2%nat -> length u = 2%nat -> ff <> OtherFun ->
  exists fr, run_qufit (mpfit_code (S fuel) rest) sampler (fun _ => Missing) (fun _ => Found m) (x_data q u) 1 po false ff =
    fit_fractions sampler m (map lsq x_freq) q u [Some 1; Some 1] [Some 1; Some 1] fr.
Proof.
  intros fuel rest sampler m q u po ff Lq Lu F.
  destruct (fractional_data fuel rest x_freq q u [Some 1; Some 1] [Some 1; Some 1] po ff) as (fr & CF & P & FF); auto; [discriminate|].
  exists fr. unfold run_qufit, x_data, parse_data. rewrite Lq. cbv zeta. change (repeat (Some 1) 2) with (repeat (Some 1) (length x_freq)). change (repeat (Some 0) 2) with (repeat (Some 0) (length x_freq)).
  rewrite CF. pose proof (calc_spec fr x_freq) as Hc. unfold x_freq in *. cbv iota. rewrite Hc by (try (now rewrite P); congruence). reflexivity.
Qed.

Lemma post_at : forall ks cols k j, NoDup (map k_key ks) -> nth_error (varied ks) j = Some k -> post ks cols k = nth j cols [].
Proof.
  intros ks cols k i ND H. unfold post. rewrite sampled_varied.
  rewrite (index_of_spec _ i); [reflexivity| |apply map_nth_error, H]. now apply NoDup_filter_map.
Qed.

Theorem fixed_refuted : forall fuel rest n, exists m sampler inst d r,
  proper_priors (f_priors m) /\ sampler_ok sampler /\ map k_key (varied (f_priors m)) = [s "psi0_deg"; s "RM_radm2"] /\
  (forall L x, sampler L (f_priors m) = Some x -> s_cols x = [repeat 10 (S n); repeat 5 (S n)]) /\
  run_qufit (mpfit_code (S fuel) rest) sampler (fun _ => Missing) inst d 1 2 false Log = QuDone r /\ inst 1%nat = Found m /\
  u_names r = [s "fracPol"; s "psi0_deg"; s "RM_radm2"] /\ q_values (u_fit r) = [1 / 2; 100; 95].
Proof.
  intros fuel rest n. exists thin_fixed, (const_sampler [10; 5] n), (fun _ => Found thin_fixed), (x_data [Some 1; Some 1] [Some 1; Some 1]).
  destruct (example_run fuel rest (const_sampler [10; 5] n) thin_fixed [Some 1; Some 1] [Some 1; Some 1] 2 Log) as (fr & E); [reflexivity|reflexivity|discriminate|].
  rewrite E. clear E. unfold fit_fractions. cbv zeta. rewrite parameters_filter.
  change (const_sampler [10; 5] n (fun d => log_likelihood (f_model thin_fixed) d (map lsq x_freq) [Some 1; Some 1] [Some 1; Some 1] [Some 1; Some 1] [Some 1; Some 1]) (f_priors thin_fixed))
    with (Some (mk_sres [repeat 10 (S n); repeat 5 (S n)] [0] 0 0)).
  cbv iota beta. change (rmax_list (s_lnl {| s_cols := [repeat 10 (S n); repeat 5 (S n)]; s_lnl := [0]; s_lnZ := 0; s_dlnZ := 0 |})) with (Some 0). cbv iota beta.
  cbn [s_cols s_lnZ s_dlnZ]. change (f_priors thin_fixed) with [kp_fixed; kpsi; krm]. change (parameters [kp_fixed; kpsi; krm]) with [kp_fixed; kpsi; krm].
  set (ks := [kp_fixed; kpsi; krm]). destruct keys_differ as ([ND Fx] & _ & _).
  assert (V1 : forall cols, post ks cols kpsi = nth 0 cols []) by (intros; now apply post_at).
  assert (V2 : forall cols, post ks cols krm = nth 1 cols []) by (intros; now apply post_at).
  assert (V0 : forall cols, post ks cols kp_fixed = [1 / 2]) by (intros; apply post_fixed; [split; auto|now left|discriminate]).
  assert (Er : rotate_columns ks ks [repeat 10 (S n); repeat 5 (S n)] = POk [repeat 10 (S n); map rotate90 (repeat 5 (S n))]).
  { unfold rotate_columns. cbn [length ks seq fold_left pybind]. fold ks. cbn [nth ks]. fold ks. rewrite V0, V1, V2. cbn [nth].
    rewrite !others_stay by (cbn; auto). cbn [pybind]. rewrite psi_rotates. cbn [length Nat.ltb Nat.leb pybind]. rewrite others_stay by (cbn; auto). reflexivity. }
  rewrite Er.
  assert (Ero : rotated ks ks [repeat 10 (S n); repeat 5 (S n)] = [s "psi0_deg"]).
  { unfold rotated. cbn [filter ks]. fold ks. rewrite V0, V1, V2. cbn [nth]. rewrite !others_stay by (cbn; auto). rewrite psi_rotates. reflexivity. }
  rewrite Ero.
  assert (R5 : map rotate90 (repeat 5 (S n)) = repeat 95 (S n)).
  { assert (H5 : rotate90 5 = 95) by (unfold rotate90, Rleb; destruct (Rle_dec 180 (5 + 90)); lra). clear - H5. induction (S n) as [|k IH]; [reflexivity|]. cbn [repeat map]. rewrite H5. now f_equal. }
  rewrite R5.
  assert (Es : map (fun k => reported (in_names (k_key k) [s "psi0_deg"]) (post ks [repeat 10 (S n); repeat 95 (S n)] k)) ks =
    [reported false [1 / 2]; reported true (repeat 10 (S n)); reported false (repeat 95 (S n))]).
  { cbn [map ks]. fold ks. rewrite V0, V1, V2. reflexivity. }
  rewrite Es.
  assert (Ep : map (fun x : R * R * R => fst (fst x)) [reported false [1 / 2]; reported true (repeat 10 (S n)); reported false (repeat 95 (S n))] = [1 / 2; 100; 95]).
  { cbn [map]. unfold reported. cbv zeta. cbn [fst]. rewrite quantile_single by lra. rewrite !quantile_const. unfold Rltb.
    destruct (Rlt_dec (1 / 2 - 90 * 0) 0); [lra|]. destruct (Rlt_dec (10 - 90 * 1) 0); [|lra]. destruct (Rlt_dec (95 - 90 * 0) 0); [lra|]. f_equal; [lra|]. f_equal; [lra|]. f_equal. lra. }
  rewrite Ep.
  assert (Ec : exists co, corner_columns ks [s "psi0_deg"] [1 / 2; 100; 95] [repeat 10 (S n); repeat 95 (S n)] = POk co) by (eexists; reflexivity).
  destruct Ec as (co & Ec). rewrite Ec.
  assert (Eh : exists ch, chisq_model (f_model thin_fixed) (combine (map k_key ks) [1 / 2; 100; 95]) (map lsq x_freq) [Some 1; Some 1] [Some 1; Some 1] [Some 1; Some 1] [Some 1; Some 1] = POk ch) by (eexists; reflexivity).
  destruct Eh as (ch & Eh). rewrite Eh.
  eexists. split; [split; auto|]. split; [apply const_ok|]. split; [reflexivity|]. split; [intros L x H; injection H as <-; reflexivity|]. split; [reflexivity|].
  split; [reflexivity|]. split; reflexivity.
Qed.

(** C79 finding: and with two of them the run fails *)
Theorem fixed_raises_refuted : forall fuel rest, exists m sampler inst d,
  proper_priors (f_priors m) /\ sampler_ok sampler /\ computable m (map lsq x_freq) /\ (forall L, exists x, sampler L (f_priors m) = Some x) /\
  inst 1%nat = Found m /\ run_qufit (mpfit_code (S fuel) rest) sampler (fun _ => Missing) inst d 1 2 false Log = QuRaise.
Proof.
  intros fuel rest. exists thin_fixed2, (const_sampler [10] 2), (fun _ => Found thin_fixed2), (x_data [Some 1; Some 1] [Some 1; Some 1]).
  destruct keys_differ as (_ & _ & [ND Fx]). split; [split; auto|]. split; [apply const_ok|]. split; [apply thin_computable; cbn; auto|].
  split; [intros L; eexists; reflexivity|]. split; [reflexivity|].
  destruct (example_run fuel rest (const_sampler [10] 2) thin_fixed2 [Some 1; Some 1] [Some 1; Some 1] 2 Log) as (fr & E); [reflexivity|reflexivity|discriminate|].
  rewrite E. clear E. unfold fit_fractions. cbv zeta. rewrite parameters_filter.
  change (const_sampler [10] 2 (fun d => log_likelihood (f_model thin_fixed2) d (map lsq x_freq) [Some 1; Some 1] [Some 1; Some 1] [Some 1; Some 1] [Some 1; Some 1]) (f_priors thin_fixed2))
    with (Some (mk_sres [repeat 10 3] [0] 0 0)).
  cbv iota beta. change (rmax_list (s_lnl {| s_cols := [repeat 10 3]; s_lnl := [0]; s_lnZ := 0; s_dlnZ := 0 |})) with (Some 0). cbv iota beta.
  cbn [s_cols s_lnZ s_dlnZ]. change (f_priors thin_fixed2) with [kp_fixed; krm_fixed; kpsi]. change (parameters [kp_fixed; krm_fixed; kpsi]) with [kp_fixed; krm_fixed; kpsi].
  set (ks := [kp_fixed; krm_fixed; kpsi]) in *.
  assert (V1 : forall cols, post ks cols kpsi = nth 0 cols []) by (intros; now apply post_at).
  assert (Er : rotate_columns ks ks [repeat 10 3] = PErr).
  { unfold rotate_columns. cbn [length ks seq fold_left pybind]. fold ks. cbn [nth ks]. fold ks. rewrite V1. cbn [nth].
    rewrite !others_stay by (cbn; auto). cbn [pybind]. rewrite (psi_rotates 2). reflexivity. }
  rewrite Er. reflexivity.
Qed.

(** the free model, and C79 finding: blank channels are counted as data *)
Lemma angles_first_free : angles_first [kp; kpsi; krm].
Proof.
  intros a k b E An k' Hk'. change (parameters [kp; kpsi; krm]) with [kp; kpsi; krm] in E. assert (In k' [kp; kpsi; krm]) as H by (rewrite E; apply in_or_app; auto).
  destruct H as [<-|[<-|[<-|[]]]]; reflexivity.
Qed.

Theorem blank_counted_refuted : forall fuel rest, exists m sampler inst d r,
  d = x_data [Some 1; None] [Some 1; None] /\ sampler_ok sampler /\ length (varied (f_priors m)) = 3%nat /\ inst 1%nat = Found m /\
  run_qufit (mpfit_code (S fuel) rest) sampler (fun _ => Missing) inst d 1 2 false Log = QuDone r /\ q_dof (u_fit r) = 4 - 3 - 1.
Proof.
  intros fuel rest. exists thin_free, (const_sampler [1 / 2; 10; 5] 2), (fun _ => Found thin_free), (x_data [Some 1; None] [Some 1; None]).
  destruct (fractional_fit fuel rest (const_sampler [1 / 2; 10; 5] 2) (fun _ => Missing) (fun _ => Found thin_free) (x_data [Some 1; None] [Some 1; None]) 1 2 false Log thin_free x_freq
    [Some 1; None] [Some 1; None] [Some 1; Some 1] [Some 1; Some 1] (mk_sres (map (fun v => repeat v 3) [1 / 2; 10; 5]) [0] 0 0)) as (r & A & _ & (lnL & _ & _ & _ & _ & D & _) & _).
  - split; [now left|]. repeat split. discriminate.
  - discriminate.
  - right. split; reflexivity.
  - apply const_ok.
  - apply keys_differ.
  - apply angles_first_free.
  - apply thin_computable. cbn. auto.
  - reflexivity.
  - exists r. split; [reflexivity|]. split; [apply const_ok|]. split; [reflexivity|]. split; [reflexivity|]. split; [exact A|]. rewrite D. cbn. lra.
Qed.
