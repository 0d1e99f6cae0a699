(** Runs of the 1-D tool on three channels, and a claim that fails on them. *)
From Coq Require Import Reals List Arith ZArith Bool Lra Lia.
Set Warnings "-ambiguous-paths".
From Coquelicot Require Import Coquelicot.
From Verif Require Import CBase NdArray PyRes PyList Synth_Model Synth_Spec Synth_Proofs Synth_Laws Setup_Model Setup_Spec Setup_Proofs StokesI_Model StokesI_Spec Measure_Model
  Clean_Grid Run1D_Model Run1D_Spec Run1D_Proofs Run1D_Laws Run1D_Total Run1D_Fits.
Import ListNotations.
Local Open Scope R_scope.

Definition e_freq : list R := [299792458; 299792458 / 2; 299792458 / 3].
Definition e_opts (step : R) : run_opts := mk_opts 2 (Some step) (Some step) 10 false false true (Some [1; 1; 1]) Linear false.
Definition e_data (u : option R) : synth_data := Data5 e_freq [Some 1; Some 1; Some 1] [Some 0; Some 0; u] [None; None; None] [None; None; None].
Definition e_mpfit : mpin -> pyres mpres := fun _ => PErr.
Definition e_fit : bool -> list R -> list (option C) -> option (Z * R) := fun _ _ _ => None.
Definition e_ones : list (option R) := [Some 1; Some 1; Some 1].

Lemma e_lsq : forall k, 0 < k -> lsq (299792458 / k) = k ^ 2.
Proof. intros k H. unfold lsq. f_equal. field. lra. Qed.
Lemma e_lsq1 : lsq 299792458 = 1.
Proof. unfold lsq. replace (299792458 / 299792458) with 1 by field. ring. Qed.

Lemma e_input : forall u step, good_input (e_data u) (o_noStokesI (e_opts step)) e_freq e_ones [Some 1; Some 1; Some 1] [Some 0; Some 0; u] [Some 0; Some 0; Some 0] [None; None; None] [None; None; None].
Proof.
  intros u step. split; [right; repeat split|]. repeat (split; [reflexivity|]). intros f I. repeat destruct I as [<-|I]; try lra. destruct I.
Qed.
Lemma e_good_opts : forall step, good_opts e_mpfit (e_opts step) (length e_freq).
Proof. intros step. split; [discriminate|]. split; [discriminate|]. intros m [= <-]. reflexivity. Qed.
Lemma e_model : forall step, first_model e_mpfit (e_opts step) e_freq e_ones [Some 0; Some 0; Some 0] (fun _ => 1).
Proof. intros step j Hj. cbn in Hj. destruct j as [|[|[|j]]]; [reflexivity..|lia]. Qed.

Definition e_chans (u : option R) : list chan := used_chans e_freq [Some 1; Some 1; Some 1] [Some 0; Some 0; u] (fun _ => 1) [1; 1; 1].
Lemma e_chans_none : e_chans None = [mk_chan 1 1 (RtoC 1); mk_chan 4 1 (RtoC 1)].
Proof.
  unfold e_chans, used_chans, e_freq. cbn [length seq flat_map nth]. destruct (Req_EM_T 1 0); [lra|]. cbn [app]. rewrite e_lsq1, e_lsq by lra. unfold RtoC.
  replace (1 / 1) with 1 by field. replace (0 / 1) with 0 by field. replace (2 ^ 2) with 4 by ring. reflexivity.
Qed.
Lemma e_chans_zero : e_chans (Some 0) = [mk_chan 1 1 (RtoC 1); mk_chan 4 1 (RtoC 1); mk_chan 9 1 (RtoC 1)].
Proof.
  unfold e_chans, used_chans, e_freq. cbn [length seq flat_map nth]. destruct (Req_EM_T 1 0); [lra|]. cbn [app]. rewrite e_lsq1, !e_lsq by lra. unfold RtoC.
  replace (1 / 1) with 1 by field. replace (0 / 1) with 0 by field. replace (2 ^ 2) with 4 by ring. replace (3 ^ 2) with 9 by ring. reflexivity.
Qed.

Lemma e_ready : forall u step, u = None \/ u = Some 0 -> 0 < step -> run_ready (e_opts step) e_freq [Some 1; Some 1; Some 1] [Some 0; Some 0; u] [None; None; None] [None; None; None] (fun _ => 1).
Proof.
  intros u step Hu Hs. split; [|split; [|split]].
  - exists 299792458, (299792458 / 2). cbn. split; [auto|]. split; [auto|]. lra.
  - intros m _. split; [|reflexivity]. unfold e_freq. repeat (constructor; [cbn; lra|]). constructor.
  - discriminate.
  - cbv zeta. change (map _ (seq 0 (length e_freq))) with [1; 1; 1]. fold (e_chans u).
    assert (W : 0 < wsum (e_chans u) /\ forall l0, FDF_spec (e_chans u) l0 0 = RtoC 1).
    { destruct Hu as [-> | ->]; rewrite ?e_chans_none, ?e_chans_zero.
      - split; [unfold wsum; cbn [map]; rewrite !rsum_cons, rsum_nil; cbn; lra|]. intros l0. unfold FDF_spec, wsum. cbn [map c_w c_l2 c_P]. rewrite !csum_cons, csum_nil, !rsum_cons, rsum_nil.
        replace (-2 * 0 * (1 - l0)) with 0 by ring. replace (-2 * 0 * (4 - l0)) with 0 by ring. rewrite cis_0.
        replace (1 + (1 + 0)) with 2 by ring. apply injective_projections; cbn; field; lra.
      - split; [unfold wsum; cbn [map]; rewrite !rsum_cons, rsum_nil; cbn; lra|]. intros l0. unfold FDF_spec, wsum. cbn [map c_w c_l2 c_P]. rewrite !csum_cons, csum_nil, !rsum_cons, rsum_nil.
        replace (-2 * 0 * (1 - l0)) with 0 by ring. replace (-2 * 0 * (4 - l0)) with 0 by ring. replace (-2 * 0 * (9 - l0)) with 0 by ring. rewrite cis_0.
        replace (1 + (1 + (1 + 0))) with 3 by ring. apply injective_projections; cbn; field; lra. }
    destruct W as [W F]. split; [exact W|]. intros st pm (mx & mn & gap & _ & _ & _ & E). cbv zeta in E. cbn [o_dPhi o_phiMax e_opts] in E. destruct E as [-> ->].
    rewrite !Rabs_pos_eq by lra. split; [lra|]. split; [lra|]. exists 0%Z. rewrite Rabs_R0. split; [lra|]. replace (0 * step) with 0 by ring. rewrite F. intros X. apply RtoC_inj in X. lra.
Qed.

(** A run that ends. *)
Theorem e_run : forall u step, u = None \/ u = Some 0 -> 0 < step ->
  exists out, run_rmsynth e_mpfit e_fit (e_data u) (e_opts step) = POk out.
Proof.
  intros u step Hu Hs. destruct (run_succeeds e_mpfit e_fit (e_data u) (e_opts step) e_freq e_ones _ _ _ _ _ (fun _ => 1)
    (e_input u step) (e_good_opts step) (e_model step) (e_ready u step Hu Hs)) as (out & R & _). eauto.
Qed.

Lemma e_weights : forall u step out, run_rmsynth e_mpfit e_fit (e_data u) (e_opts step) = POk out -> r_weight out = [1; 1; 1].
Proof.
  intros u step out R. destruct (run_refines _ _ _ _ _ _ _ _ _ _ _ _ (e_input u step) (e_good_opts step) R) as (h & st & pm & I0 & _ & _ & _ & _ & LW & W & _).
  destruct (r_weight out) as [|a [|b [|c [|x t]]]]; try discriminate. pose proof (W 0%nat ltac:(cbn; lia)) as W0. pose proof (W 1%nat ltac:(cbn; lia)) as W1. pose proof (W 2%nat ltac:(cbn; lia)) as W2.
  cbn in W0, W1, W2. now rewrite W0, W1, W2.
Qed.

(** Not so: a channel without U is no part of the spectrum but is counted, gives
    the band edge, and is in the spread function. *)
Theorem run_rmsf_refuted : exists d o freq iA Q U dI dQ dU out,
  good_input d (o_noStokesI o) freq iA Q U dI dQ dU /\ good_opts e_mpfit o (length freq) /\ run_rmsynth e_mpfit e_fit d o = POk out /\
  let chs := used_chans freq Q U (stokes_model o (r_fit out) freq) (r_weight out) in
  length chs = 2%nat /\ r_N_channels out = 3%nat /\
  exists k, (k < length (r_phi2 out))%nat /\ RMSF_spec chs (r_lam0 out) (nth k (r_phi2 out) 0) = RtoC 0 /\ nth k (r_RMSF out) None <> Some (RtoC 0).
Proof.
  assert (P2 : 0 < PI / 2) by (pose proof PI_RGT_0; lra).
  destruct (e_run None (PI / 2) (or_introl eq_refl) P2) as [out R].
  exists (e_data None), (e_opts (PI / 2)), e_freq, e_ones, [Some 1; Some 1; Some 1], [Some 0; Some 0; None], [Some 0; Some 0; Some 0], [None; None; None], [None; None; None], out.
  split; [apply e_input|]. split; [apply e_good_opts|]. split; [exact R|]. cbv zeta.
  pose proof (e_weights None (PI / 2) out R) as EW.
  assert (EC : used_chans e_freq [Some 1; Some 1; Some 1] [Some 0; Some 0; None] (stokes_model (e_opts (PI / 2)) (r_fit out) e_freq) (r_weight out) = e_chans None).
  { rewrite EW. unfold e_chans. apply used_ext; [|auto]. intros [|[|[|j]]] Hj; try reflexivity. cbn in Hj. lia. }
  rewrite EC, e_chans_none. split; [reflexivity|].
  destruct (run_refines _ _ _ _ _ _ _ _ _ _ _ _ (e_input None (PI / 2)) (e_good_opts (PI / 2)) R) as (h0 & st & pm & I0 & (mx & mn & gap & _ & _ & _ & E) & OC0 & OH & _ & _ & _ & _ & _ & EL & _).
  cbv zeta in E. cbn [o_dPhi o_phiMax e_opts] in E. destruct E as [-> ->]. cbn [o_super e_opts] in EL. rewrite EC, e_chans_none in EL.
  assert (EL' : r_lam0 out = 5 / 2).
  { rewrite EL. unfold mean_l2, wsum. cbn [map c_w c_l2]. rewrite !rsum_cons, !rsum_nil. field. }
  destruct (run_channels _ _ _ _ _ _ _ _ _ _ _ _ (e_input None (PI / 2)) (e_good_opts (PI / 2)) R) as (NC & _). split.
  { rewrite NC, EW. unfold counted, e_freq. cbn [length seq flat_map nth app stokes_model e_opts o_modStokesI]. destruct (Req_EM_T 1 0); [lra|]. reflexivity. }
  destruct (run_rmsf _ _ _ _ _ _ _ _ _ _ _ _ (e_input None (PI / 2)) (e_good_opts (PI / 2)) R) as (h & step & OC & OC2 & _ & _ & RM).
  assert (H1 : (1 <= h0)%nat).
  { destruct h0; [|lia]. exfalso. simpl INR in OH. rewrite Rmult_0_l in OH. rewrite (Rabs_pos_eq (PI / 2)) in OH by lra. replace (0 - PI / 2) with (- (PI / 2)) in OH by ring.
    rewrite Rabs_Ropp, Rabs_pos_eq in OH by lra. lra. }
  assert (h0 = h) as -> by (destruct OC0, OC; lia).
  assert (step = PI / 2) as ->.
  { destruct OC0 as [L0 O0], OC as [L1 O1]. specialize (O0 (S h) ltac:(lia)). specialize (O1 (S h) ltac:(lia)). rewrite S_INR in *. lra. }
  destruct OC2 as [L2 O2]. exists (S (2 * h + 1))%nat. split; [lia|]. rewrite RM by lia.
  assert (V : nth (S (2 * h + 1)) (r_phi2 out) 0 = PI / 2) by (rewrite O2 by lia; rewrite S_INR; ring). rewrite V, EL'. split.
  - unfold RMSF_spec, wsum. cbn [map c_w c_l2]. rewrite !csum_cons, csum_nil, !rsum_cons, rsum_nil.
    replace (-2 * (PI / 2) * (1 - 5 / 2)) with (PI / 2 + PI) by field. replace (-2 * (PI / 2) * (4 - 5 / 2)) with (- (PI / 2 + PI)) by field. unfold cis.
    rewrite cos_neg, sin_neg, neg_cos, neg_sin, cos_PI2, sin_PI2. apply injective_projections; cbn; field; lra.
  - rewrite EW. unfold q_chans, e_freq. cbn [length seq flat_map nth app stokes_model e_opts o_modStokesI]. destruct (Req_EM_T 1 0); [lra|]. cbn [app].
    rewrite e_lsq1, !e_lsq by lra.
    match goal with |- Some ?z <> _ => assert (E : snd z = - / 3) end.
    { unfold RMSF_spec, wsum. cbn [map c_w c_l2]. rewrite !csum_cons, csum_nil, !rsum_cons, rsum_nil.
      replace (-2 * (PI / 2) * (1 - 5 / 2)) with (PI / 2 + PI) by field. replace (-2 * (PI / 2) * (2 ^ 2 - 5 / 2)) with (- (PI / 2 + PI)) by field.
      replace (-2 * (PI / 2) * (3 ^ 2 - 5 / 2)) with (- (PI / 2 + 2 * INR 3 * PI)) by (simpl INR; field). unfold cis.
      rewrite !cos_neg, !sin_neg, cos_period, sin_period, neg_cos, neg_sin, cos_PI2, sin_PI2. cbn. field. }
    intros X. apply (f_equal (fun t => match t with Some z => snd z | None => 0 end)) in X. rewrite E in X. cbn in X. lra.
Qed.

(** The same channels, all with U, meet the hypotheses of [run_thin]. *)
Theorem e_thin : exists out h I0, run_rmsynth e_mpfit e_fit (e_data (Some 0)) (e_opts (1 / 2)) = POk out /\
  thin_columns e_freq [Some 1; Some 1; Some 1] [Some 0; Some 0; Some 0] (stokes_model (e_opts (1 / 2)) (r_fit out) e_freq) 1 0 0 /\
  odd_centred (r_phi out) h (1 / 2) /\ (0 < h < length (r_phi out) - 1)%nat /\ nth h (r_phi out) 0 = 0 /\ r_weight out = [1; 1; 1] /\
  lsq (nth 0 e_freq 0) <> lsq (nth 1 e_freq 0) /\
  (forall k, (k < length (r_phi out))%nat -> Rabs (nth k (r_phi out) 0 - 0) * Rabs (lsq (nth 0 e_freq 0) - lsq (nth 1 e_freq 0)) < PI) /\
  r_Ifreq0 out = Some I0 /\ 0 < I0.
Proof.
  destruct (e_run (Some 0) (1 / 2) (or_intror eq_refl) ltac:(lra)) as [out R]. pose proof (e_input (Some 0) (1 / 2)) as EI. pose proof (e_good_opts (1 / 2)) as EO.
  destruct (run_refines _ _ _ _ _ _ _ _ _ _ _ _ EI EO R) as (h & st & pm & I0 & (mx & mn & gap & _ & _ & _ & E) & OC & OH & _).
  cbv zeta in E. cbn [o_dPhi o_phiMax e_opts] in E. destruct E as [-> ->]. rewrite (Rabs_pos_eq (1 / 2)) in OH by lra.
  assert (h = 1%nat) as ->.
  { apply Rabs_le_between in OH. destruct OH as [O1 O2]. assert (H1 : 0 < INR h) by (destruct h; [simpl in O1; lra|apply lt_0_INR; lia]).
    destruct h as [|[|h]]; [simpl in H1; lra|reflexivity|]. destruct h as [|h].
    - (* rounding would have to double *) exfalso.
      destruct (run_raw e_mpfit e_fit _ _ _ _ _ _ _ _ _ _ R (proj1 EI)) as (IM & q & u & dq & du & fr & dp & phi & w & r & s & freq0 & fr' & I1 & m & sg & _ & _ & EG & EP & _ & _ & _ & _ & _ & _ & _ & EOut).
      assert (EPh : r_phi out = phi) by (rewrite EOut; reflexivity). assert (Edp : dp = (1 / 2, 1 / 2)).
      { unfold grid_params in EG. cbn [o_dPhi o_phiMax e_opts o_super] in EG. destruct (rmax_list _); [|discriminate]. destruct (rmin_list _); [|discriminate].
        destruct (rmax_list _); [|discriminate]. now injection EG as <-. }
      rewrite Edp in EP. cbn [fst snd] in EP. unfold depth_grid_1D in EP. destruct (Req_EM_T (1 / 2) 0); [lra|].
      replace (Rabs ((1 / 2 - 0) / (1 / 2))) with (IZR 1) in EP by (replace ((1 / 2 - 0) / (1 / 2)) with 1 by field; rewrite Rabs_R1; reflexivity).
      assert (RR : py_round 1 = 1%Z) by (apply (Run1D_Fits.round_near 1 1); simpl INR; replace (1 - 1) with 0 by ring; rewrite Rabs_R0; lra).
      rewrite RR in EP. replace (1 * 2 + 1) with (IZR 3) in EP by lra. rewrite PyList_Proofs.py_int_IZR in EP. cbn in EP. injection EP as EP. destruct OC as [OL _]. rewrite EPh, <- EP in OL. cbn in OL. lia.
    - exfalso. rewrite !S_INR in O2. pose proof (pos_INR h). lra. }
  destruct OC as [OL ON]. exists out, 1%nat.
  assert (MM : forall j, (j < 3)%nat -> stokes_model (e_opts (1 / 2)) (r_fit out) e_freq j = 1) by (intros [|[|[|j]]] Hj; [reflexivity..|lia]).
  assert (ND : NoDup e_freq) by (unfold e_freq; repeat (constructor; [cbn; lra|]); constructor).
  destruct (run_table_interpolates e_mpfit e_fit _ _ _ _ _ _ _ _ _ _ _ EI EO R eq_refl ND) as (i & j & Hi & Hj & _ & _ & _ & EI0).
  assert (VV : forall k, (k < 3)%nat -> nth k [1; 1; 1] 0 = 1) by (intros [|[|[|k]]] Hk; [reflexivity..|lia]).
  rewrite (VV i Hi), (VV j Hj) in EI0. eexists. split; [exact R|]. split; [|split; [split; [exact OL|exact ON]|split; [lia|split; [rewrite ON by lia; simpl INR; ring|]]]].
  - intros k q u Hk E1 E2. cbn in Hk. rewrite MM by lia.
    assert (q = 1 /\ u = 0) as [-> ->].
    { destruct k as [|[|[|k]]]; try lia; cbn in E1, E2; injection E1 as <-; injection E2 as <-; auto. }
    replace (2 * (0 + 0 * lsq (nth k e_freq 0))) with 0 by ring. rewrite cis_0. apply injective_projections; cbn; ring.
  - split; [exact (e_weights _ _ _ R)|]. cbn [nth e_freq]. rewrite e_lsq1, e_lsq by lra. split; [lra|]. split.
    + intros k Hk. rewrite ON by auto. assert (INR k <= 2) by (replace 2 with (INR 2) by reflexivity; apply le_INR; lia). pose proof (pos_INR k). simpl (INR 1).
      replace (Rabs (1 - 2 ^ 2)) with 3 by (rewrite Rabs_left by lra; ring). assert (Rabs ((INR k - 1) * (1 / 2) - 0) <= 1 / 2) by (apply Rabs_le; lra).
      pose proof PI2_3_2. lra.
    + split; [exact EI0|]. match goal with |- 0 < ?e => replace e with 1 by (unfold Rdiv; ring) end. lra.
Qed.
