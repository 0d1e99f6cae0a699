(** A flat Stokes I spectrum is fitted exactly, whatever the order and the kind
    of model; without Stokes I the fractions are the data. *)
From Coq Require Import Reals List Arith ZArith Bool Lra Lia Psatz FunctionalExtensionality.
Set Warnings "-ambiguous-paths".
From Coquelicot Require Import Coquelicot.
From Verif Require Import PyRes CBase PyList StokesI_Model StokesI_Spec StokesI_Proofs StokesI_Fit
  Mp_Model Mp_Spec Mp_Sums Mp_QR Mp_Solve Mp_Step Mp_Covar Mp_Run Mp_Fit Mp_Linear Mp_Exact MpI_Model MpI_Spec MpI_Proofs.
Import ListNotations.
Local Open Scope R_scope.

(** A fit that starts with zero residuals stays there. *)
Lemma exact_start : forall fuel fcn npar m free xall, NoDup free -> free <> [] -> (length free <= m)%nat ->
  (forall i, (i < m)%nat -> fcn xall i = 0) ->
  exists o, mpfit (S fuel) fcn npar m free xall = Some (POk o) /\ o_params o = xall /\ o_status o = 4%Z /\ o_fnorm o = 0 /\ exists cov, o_covar o = Some cov.
Proof.
  intros fuel fcn npar m free xall Nd Nf Hm Z0.
  assert (E0 : enorm 0 m (fcn xall) = 0).
  { destruct (Req_dec (enorm 0 m (fcn xall)) 0) as [|N]; [assumption|]. exfalso. apply N.
    assert (Q : enorm 0 m (fcn xall) ^ 2 = 0).
    { rewrite enorm_chi2. unfold chi2, sqlen, dot. rewrite total_ssum. rewrite (ssum_ext _ _ _ (fun _ => 0)) by (intros i Hi; rewrite Z0 by lia; ring).
      clear. induction m as [|m IH]; [reflexivity|]. unfold ssum in *. rewrite Nat.sub_0_r in *. rewrite seq_S, map_app, rsum_app, IH. cbn. rewrite rsum_cons, rsum_nil. lra. }
    nra. }
  rewrite mpfit_unfold by assumption. rewrite outer_step. cbv zeta.
  destruct (r_qtf _ _ _ _) as [r qtf]. unfold grad_norm, lm_start. cbn [s_fnorm]. rewrite E0.
  destruct (Req_EM_T 0 0) as [_|]; [|lra]. destruct (Rle_dec 0 gtol) as [_|N]; [|exfalso; apply N; unfold gtol; left; apply Rinv_0_lt_compat, pow_lt; lra].
  eexists. split; [reflexivity|]. unfold prepared. cbn [o_params o_status o_fnorm o_covar s_x s_fnorm1].
  assert (EP : place (length free) (fun j => nth j free 0%nat) xall (fun j => xall (nth j free 0%nat)) = xall).
  { apply functional_extensionality. intros i. now apply place_start. }
  rewrite EP. split; [reflexivity|]. split; [reflexivity|]. split; [|eauto]. rewrite E0. rewrite Rmax_left by lra. lra.
Qed.

Lemma mean_flat : forall (g : list (R * R * R)) c, g <> [] -> (forall t, In t g -> snd (fst t) = c) -> mean_I g = c.
Proof.
  intros g c Ng H. unfold mean_I, mean. rewrite map_length.
  assert (E : rsum (map (fun t => snd (fst t)) g) = INR (length g) * c).
  { clear Ng. induction g as [|t g IH]; [cbn; unfold rsum; cbn; ring|]. cbn [map]. rewrite rsum_cons, IH by (intros; apply H; now right).
    rewrite (H t) by now left. cbn [length]. rewrite S_INR. ring. }
  rewrite E. field. apply not_0_INR. destruct g; [congruence|cbn; lia].
Qed.

Section Flat.
  Variables (fuel : nat) (rest : mpin -> pyres mpres) (g : list (R * R * R)) (ff : fit_fun) (c : R).
  Hypothesis Ng : g <> [].
  Hypothesis Us : forall t, In t (with_errors g) -> snd t <> 0.
  Hypothesis Hc : forall t, In t g -> snd (fst t) = c.

  Lemma flat_answer : forall o, (0 <= o)%Z -> exists mp, mpfit_code (S fuel) rest (fit_question g o ff) = POk mp /\
    mp_params mp = [0; 0; 0; 0; 0; c] /\ -1 <= mp_fnorm mp <= 0 /\ (o = 0%Z -> mp_fnorm mp = 0) /\
    ((Z.to_nat (Z.min o 5) < length g)%nat -> exists cov, mp_covar mp = Some cov).
  Proof.
    intros o Ho. set (q := fit_question g o ff). set (d := Z.to_nat (Z.min o 5)).
    destruct (free_question g o ff Ho) as [Fq Hd]. fold d in Fq, Hd. fold q in Fq.
    assert (PS : map (start_values q) (seq 0 6) = [0; 0; 0; 0; 0; c]).
    { unfold start_values, q. cbn [fit_question in_start seq map Nat.eqb]. fold (mean_I g). now rewrite (mean_flat g c Ng Hc). }
    unfold mpfit_code. unfold q at 1. rewrite question_usable by exact Us. unfold q at 2. rewrite question_len, Fq.
    destruct (le_dec (S d) (length g)) as [L|L].
    - destruct (exact_start fuel (errFn q) 6 (length g) (seq (5 - d) (S d)) (start_values q)) as (out & E & P & _ & F & CV).
      { apply seq_NoDup. } { discriminate. } { now rewrite seq_length. }
      { intros i Hi. unfold q. rewrite errFn_eval by exact Hi. cbv zeta. rewrite eval_start, (mean_flat g c Ng Hc).
        rewrite with_errors_fst. rewrite Hc by (now apply nth_In). unfold Rdiv. ring. }
      rewrite E, P, F, PS. eexists. split; [reflexivity|]. cbn [mp_params mp_fnorm mp_covar]. repeat split; auto; lra.
    - unfold mpfit. rewrite seq_length. destruct (Nat.ltb_spec (length g) (S d)) as [_|N]; [|lia]. cbn [seq]. cbn [o_params o_status o_fnorm o_covar o_perror option_map].
      change (map (start_values q) [0%nat; 1%nat; 2%nat; 3%nat; 4%nat; 5%nat]) with (map (start_values q) (seq 0 6)). rewrite PS.
      eexists. split; [reflexivity|]. cbn [mp_params mp_fnorm]. split; [reflexivity|]. split; [lra|]. split; [|intros X; exfalso; unfold d in L; lia]. intros ->. exfalso. unfold d in L. destruct g; [congruence|]. cbn in L. lia.
  Qed.
End Flat.

(** Every order (negative: chosen by the AIC), linear and logarithmic. *)
Theorem flat_fit : forall fuel rest freq I dI po ff c,
  length I = length freq -> length dI = length freq -> ff <> OtherFun ->
  let g := finite_chans freq I dI in
  g <> [] -> (forall t, In t (with_errors g) -> snd t <> 0) -> (forall t, In t g -> snd (fst t) = c) ->
  exists r, fit_StokesI_model (mpfit_code (S fuel) rest) freq I dI po ff = POk r /\
    params r = [0; 0; 0; 0; 0; c] /\ fit_function r = ff /\ polyOrd r = Z.max po 0 /\ ref_freq r = fit_ref g /\
    ((Z.to_nat (Z.min po 5) < length g)%nat -> exists cov, pcov r = Some cov).
Proof.
  intros fuel rest freq I dI po ff c L1 L2 F g Ng Us Hc.
  pose proof (flat_answer fuel rest g ff c Ng Us Hc) as FA.
  destruct (Z_lt_dec po 0) as [N|N].
  - unfold fit_StokesI_model. rewrite good_chans_spec by auto. fold g. destruct g as [|g0 gt] eqn:G; [congruence|]. cbv iota. rewrite <- G in *. rewrite rmean_inv.
    destruct (Z.ltb_spec po 0) as [_|]; [|lia]. rewrite fit_asks by (auto; lia).
    destruct (FA 0%Z ltac:(lia)) as (mp0 & E0 & P0 & _ & F0 & CV0). rewrite E0. cbn [pybind]. rewrite F0 by reflexivity.
    destruct (Z.to_nat (Z.abs po)) as [|rem] eqn:ER; [lia|]. cbn [order_loop]. rewrite fit_asks by (auto; lia).
    destruct (FA 1%Z ltac:(lia)) as (mp1 & E1 & P1 & F1 & _ & _). rewrite E1. cbn [pybind]. cbv zeta.
    destruct (Rlt_dec _ _) as [X|_]; [exfalso; cbn in X; lra|]. cbn [pybind]. cbv zeta. eexists. split; [reflexivity|]. cbn [params fit_function polyOrd ref_freq pcov].
    split; [exact P0|]. split; [reflexivity|]. split; [lia|]. split; [reflexivity|]. intros _. apply CV0. rewrite G. cbn. lia.
  - destruct (FA po ltac:(lia)) as (mp & E & P & _ & _ & CV). eexists. split; [apply (fit_order _ freq I dI po ff mp L1 L2 F Ng ltac:(lia) E)|].
    cbv zeta. cbn [params fit_function polyOrd ref_freq pcov]. split; [exact P|]. split; [reflexivity|]. split; [lia|]. split; [reflexivity|exact CV].
Qed.

(** The model is the constant. *)
Lemma flat_model : forall r c f, params r = [0; 0; 0; 0; 0; c] -> fit_function r <> OtherFun -> model_at r f = c.
Proof.
  intros r c f P F. unfold model_at. rewrite P. destruct (fit_function r); [| |congruence]; unfold lin_model, log_model; cbn [seq map]; rewrite ?rsum_cons, ?rsum_nil; cbn [nth Nat.sub].
  - ring.
  - rewrite !Rmult_0_l, !Rplus_0_l, Rpower_O by lra. ring.
Qed.

(** The fractions are the data divided by the constant; without Stokes I they are the data. *)
Theorem flat_fractions : forall fuel rest freq I Q U dI dQ dU po ff c,
  length I = length freq -> length dI = length freq -> length Q = length freq -> length U = length freq -> length dQ = length freq -> length dU = length freq ->
  ff <> OtherFun -> let g := finite_chans freq I dI in
  g <> [] -> (forall t, In t (with_errors g) -> snd t <> 0) -> (forall t, In t g -> snd (fst t) = c) -> c <> 0 ->
  exists fr, create_frac_spectra (mpfit_code (S fuel) rest) freq I Q U dI dQ dU po ff None =
    Some (repeat c (length freq), map (option_map (fun x => x / c)) Q, map (option_map (fun x => x / c)) U,
          map (option_map (fun x => x / c)) dQ, map (option_map (fun x => x / c)) dU, fr) /\ params fr = [0; 0; 0; 0; 0; c] /\ fit_function fr = ff.
Proof.
  intros fuel rest freq I Q U dI dQ dU po ff c L1 L2 LQ LU LdQ LdU F g Ng Us Hc Nc.
  destruct (flat_fit fuel rest freq I dI po ff c L1 L2 F Ng Us Hc) as (r & Hr & P & FF & _).
  assert (Nf : freq <> []) by (intros ->; now apply Ng).
  unfold create_frac_spectra.
  assert (all_nan_fit freq I dI po ff = false) as ->.
  { unfold all_nan_fit. rewrite good_chans_spec by auto. fold g. destruct g; [congruence|]. destruct ff; reflexivity. }
  rewrite andb_false_r. rewrite Hr. cbn [pybind]. rewrite calc_spec by (rewrite ?FF, ?P; auto). cbn [pybind].
  assert (EM : map (model_at r) freq = repeat c (length freq)).
  { clear - P FF F. induction freq as [|f l IH]; [reflexivity|]. cbn [map length repeat]. rewrite IH, (flat_model r c f P); [reflexivity|congruence]. }
  rewrite EM.
  destruct (repeat c (length freq)) as [|m0 mt] eqn:Em; [destruct freq; [congruence|discriminate]|]. rewrite <- Em. cbv zeta.
  assert (K : forall X : list (option R), length X = length freq -> map (fun xm : option R * R => div_or_nan (fst xm) (snd xm)) (combine X (repeat c (length freq))) = map (option_map (fun x => x / c)) X).
  { clear - Nc. intros X LX. rewrite <- LX. clear LX. induction X as [|x X IH]; [reflexivity|]. cbn [length repeat combine map]. rewrite IH. f_equal.
    unfold div_or_nan. cbn [fst snd]. destruct x as [x|]; [|reflexivity]. destruct (Req_EM_T c 0); [contradiction|reflexivity]. }
  rewrite !K by assumption. eexists. split; [reflexivity|].
  split; destruct (existsb _ (combine _ _)); destruct (existsb _ (repeat _ _)); cbn [params fit_function with_status]; assumption.
Qed.

(** Fractional input: Stokes I one, error zero. *)
Lemma nth_rep : forall {A} (a d : A) n k, (k < n)%nat -> nth k (repeat a n) d = a.
Proof. induction n as [|n IH]; intros [|k] H; cbn; try lia; auto. apply IH. lia. Qed.

Lemma unit_chans : forall freq t, In t (finite_chans freq (repeat (Some 1) (length freq)) (repeat (Some 0) (length freq))) -> snd (fst t) = 1 /\ snd t = 0.
Proof.
  intros freq t H. unfold finite_chans in H. apply in_flat_map in H. destruct H as (j & Hj & H). apply in_seq in Hj.
  rewrite !nth_rep in H by lia. destruct H as [<-|[]]. auto.
Qed.

Lemma unit_used : forall freq, freq <> [] -> let g := finite_chans freq (repeat (Some 1) (length freq)) (repeat (Some 0) (length freq)) in
  g <> [] /\ (forall t, In t (with_errors g) -> snd t <> 0) /\ forall t, In t g -> snd (fst t) = 1.
Proof.
  intros freq Nf g. split; [|split].
  - intros E. assert (In (nth 0 freq 0, 1, 0) g) as H; [|rewrite E in H; destruct H]. unfold g, finite_chans. apply in_flat_map. exists 0%nat.
    destruct freq; [congruence|]. cbn. split; [now left|now left].
  - intros t Ht. unfold with_errors in Ht. destruct (forallb _ g) eqn:E.
    + apply in_map_iff in Ht. destruct Ht as (t' & <- & _). cbn. lra.
    + exfalso. assert (forallb (fun t : R * R * R => if Req_EM_T (snd t) 0 then true else false) g = true); [|congruence].
      apply forallb_forall. intros x Hx. destruct (unit_chans freq x Hx) as [_ ->]. destruct (Req_EM_T 0 0); [reflexivity|lra].
  - intros t Ht. now apply unit_chans in Ht.
Qed.

Lemma over_one : forall X : list (option R), map (option_map (fun x => x / 1)) X = X.
Proof. induction X as [|[x|] X IH]; [reflexivity| |]; cbn [map option_map]; rewrite IH; [|reflexivity]. do 2 f_equal. field. Qed.

Theorem fractional_data : forall fuel rest freq Q U dQ dU po ff, freq <> [] ->
  length Q = length freq -> length U = length freq -> length dQ = length freq -> length dU = length freq -> ff <> OtherFun ->
  exists fr, create_frac_spectra (mpfit_code (S fuel) rest) freq (repeat (Some 1) (length freq)) Q U (repeat (Some 0) (length freq)) dQ dU po ff None =
    Some (repeat 1 (length freq), Q, U, dQ, dU, fr) /\ params fr = [0; 0; 0; 0; 0; 1] /\ fit_function fr = ff.
Proof.
  intros fuel rest freq Q U dQ dU po ff Nf LQ LU LdQ LdU F. destruct (unit_used freq Nf) as (A & B & C).
  destruct (flat_fractions fuel rest freq (repeat (Some 1) (length freq)) Q U (repeat (Some 0) (length freq)) dQ dU po ff 1) as (fr & E & P); rewrite ?repeat_length; auto; try lra.
  rewrite !over_one in E. eauto.
Qed.
