(** Proofs about the Stokes I fit: order selection and fractional spectra. *)
From Coq Require Import Reals List Arith ZArith Bool Lra Lia.
Set Warnings "-ambiguous-paths".
From Coquelicot Require Import Coquelicot.
From Verif Require Import PyRes CBase PyList StokesI_Model StokesI_Spec StokesI_Proofs.
Import ListNotations.
Local Open Scope R_scope.

Lemma good_chans_spec : forall freq I dI, length I = length freq -> length dI = length freq ->
  good_chans freq I dI = finite_chans freq I dI.
Proof.
  induction freq as [|f freq IH]; intros I dI HI HD; [reflexivity|].
  destruct I as [|i I]; [discriminate|]. destruct dI as [|e dI]; [discriminate|].
  specialize (IH I dI). unfold good_chans, finite_chans in *. cbn [length seq]. rewrite <- seq_shift.
  rewrite (flat_map_concat_map _ (0%nat :: _)). cbn [map concat combine flat_map]. rewrite map_map.
  rewrite IH by (cbn in *; lia). rewrite flat_map_concat_map. cbn [nth].
  destruct i, e; reflexivity.
Qed.

Lemma fit_asks : forall mpfit g o ff, (0 <= o)%Z -> ff <> OtherFun ->
  fit_spec_poly5 mpfit (map (fun f => f / fit_ref g) (map (fun t => fst (fst t)) g)) (map (fun t => snd (fst t)) g)
     (map (fun t => snd t) g) o ff = mpfit (fit_question g o ff).
Proof.
  intros mpfit g o ff Ho E. unfold fit_spec_poly5, fit_question.
  destruct (Z.ltb_spec o 0); [lia|].
  assert (F : map (fun i : nat => ((if (5 <? o)%Z then 5%Z else o) <? 6 - Z.of_nat i - 1)%Z) (seq 0 6) =
              map (fun i : nat => negb (5 - Z.of_nat i <=? Z.min o 5)%Z) (seq 0 6)).
  { apply map_ext_in. intros i Hi. apply in_seq in Hi.
    destruct (Z.ltb_spec 5 o).
    - rewrite Z.min_r by lia. destruct (Z.leb_spec (5 - Z.of_nat i) 5), (Z.ltb_spec 5 (6 - Z.of_nat i - 1)); try reflexivity; lia.
    - rewrite Z.min_l by lia. destruct (Z.leb_spec (5 - Z.of_nat i) o), (Z.ltb_spec o (6 - Z.of_nat i - 1)); try reflexivity; lia. }
  rewrite F. unfold rmean. fold (mean (map (fun t : R * R * R => snd (fst t)) g)). rewrite map_map.
  destruct ff; [reflexivity|reflexivity|congruence].
Qed.

Lemma order_loop_spec : forall fit rem cur mp a r b k,
  (1 <= cur)%Z -> fit (cur - 1)%Z = POk mp -> a = aic_of mp (cur - 1) ->
  order_loop fit rem cur mp a = POk (r, b, k) ->
  (cur <= k <= cur + Z.of_nat rem)%Z /\ fit (k - 1)%Z = POk r /\ b = aic_of r (k - 1) /\
  (forall o, (cur <= o <= k - 1)%Z -> exists r r', fit o = POk r /\ fit (o - 1)%Z = POk r' /\ aic_of r o < aic_of r' (o - 1)) /\
  ((k < cur + Z.of_nat rem)%Z -> exists r', fit k = POk r' /\ aic_of r (k - 1) <= aic_of r' k).
Proof.
  induction rem as [|rem IH]; intros cur mp a r b k Hc Hf Ha H.
  - cbn in H. injection H as <- <- <-. split; [lia|]. split; [auto|]. split; [auto|]. split; intros; lia.
  - cbn [order_loop] in H. destruct (fit cur) as [nm|] eqn:E; [|discriminate]. cbn [pybind] in H.
    fold (aic_of nm cur) in H. destruct (Rlt_dec (aic_of nm cur) a) as [L|L].
    + apply IH in H; [|lia|now replace (cur + 1 - 1)%Z with cur by lia|now replace (cur + 1 - 1)%Z with cur by lia].
      destruct H as (K & F & B & D & S).
      1:{ split; [lia|]. split; [auto|]. split; [auto|]. split.
        -- intros o Ho. destruct (Z.eq_dec o cur) as [->|]; [|apply D; lia].
           exists nm, mp. subst a. auto.
        -- intros HK. apply S. lia. }
    + injection H as <- <- <-. subst a. split; [lia|]. split; [auto|]. split; [auto|]. split.
      * intros o Ho. lia.
      * intros _. exists nm. split; auto. lra.
Qed.

Lemma rmean_inv : forall g : list (R * R * R),
  1 / sqrt (rmean (map (fun f : R => 1 / f ^ 2) (map (fun t : R * R * R => fst (fst t)) g))) = fit_ref g.
Proof. intros. unfold fit_ref, rmean, mean. now rewrite map_map. Qed.

Theorem fit_order_selection : forall mpfit freq I dI polyOrd0 ff r,
  length I = length freq -> length dI = length freq -> ff <> OtherFun ->
  fit_StokesI_model mpfit freq I dI polyOrd0 ff = POk r ->
  let g := finite_chans freq I dI in
  let fits := fun o => mpfit (fit_question g o ff) in
  exists mp, fits (polyOrd r) = POk mp /\
    params r = mp_params mp /\ chiSq r = mp_fnorm mp /\ aic r = aic_of mp (polyOrd r) /\
    fitStatus r = Z.abs (mp_status mp) /\ pcov r = mp_covar mp /\ ref_freq r = fit_ref g /\ fit_function r = ff /\
    ((0 <= polyOrd0)%Z -> polyOrd r = polyOrd0) /\
    ((polyOrd0 < 0)%Z -> first_stop fits (- polyOrd0) (polyOrd r)).
Proof.
  intros mpfit freq I dI po ff r HI HD E H. cbn zeta.
  unfold fit_StokesI_model in H. rewrite good_chans_spec in H by auto.
  remember (finite_chans freq I dI) as g eqn:G. destruct g as [|g0 gt]; [discriminate|].
  set (g := g0 :: gt) in *. rewrite rmean_inv in H.
  destruct (Z.ltb_spec po 0) as [Hn|Hn].
  - set (fit := fun o => fit_spec_poly5 mpfit (map (fun f => f / fit_ref g) (map (fun t => fst (fst t)) g))
         (map (fun t => snd (fst t)) g) (map (fun t => snd t) g) o ff) in H.
    assert (FA : forall o, (0 <= o)%Z -> fit o = mpfit (fit_question g o ff)) by (intros; now apply fit_asks).
    change (fit_spec_poly5 mpfit (map (fun f => f / fit_ref g) (map (fun t => fst (fst t)) g))
         (map (fun t => snd (fst t)) g) (map (fun t => snd t) g) 0 ff) with (fit 0%Z) in H.
    destruct (fit 0%Z) as [mp0|] eqn:E0; [|discriminate]. cbn [pybind] in H.
    destruct (order_loop fit _ 1 mp0 _) as [[[mp b] k]|] eqn:EL; [|discriminate]. cbn [pybind] in H.
    apply order_loop_spec in EL; [|lia|exact E0|unfold aic_of; change (1 - 1)%Z with 0%Z; lra].
    destruct EL as (K & F & B & D & S). injection H as <-. cbn [polyOrd params chiSq aic fitStatus pcov ref_freq fit_function].
    exists mp. rewrite <- FA by lia. repeat split; try lia; auto.
    + intros o Ho. rewrite <- !FA by lia. apply D. lia.
    + intros HK. destruct S as (r' & Er & Le); [lia|].
      exists r', mp. rewrite <- !FA by lia. replace (k - 1 + 1)%Z with k by lia. auto.
  - rewrite fit_asks in H by auto. destruct (mpfit (fit_question g po ff)) as [mp|] eqn:EM; [|discriminate].
    cbn [pybind] in H. injection H as <-. cbn [polyOrd params chiSq aic fitStatus pcov ref_freq fit_function].
    exists mp. repeat split; auto; lia.
Qed.

(** The chosen AIC is the smallest of all those computed. *)
Theorem first_stop_best : forall fits n best rb, first_stop fits n best -> fits best = POk rb ->
  forall o, (0 <= o <= Z.min n (best + 1))%Z -> exists r, fits o = POk r /\ aic_of rb best <= aic_of r o.
Proof.
  intros fits n best rb (B & D & SS) Eb o Ho.
  assert (FB : forall m : nat, (Z.of_nat m <= best)%Z ->
     exists r, fits (best - Z.of_nat m)%Z = POk r /\ aic_of rb best <= aic_of r (best - Z.of_nat m)).
  { induction m as [|m IH]; intros Hm.
    - exists rb. replace (best - Z.of_nat 0)%Z with best by lia. split; auto; lra.
    - destruct IH as (r & E & L); [lia|].
      destruct (D (best - Z.of_nat m)%Z) as (r1 & r2 & E1 & E2 & L2); [lia|].
      exists r2. replace (best - Z.of_nat (S m))%Z with (best - Z.of_nat m - 1)%Z by lia.
      rewrite E in E1. injection E1 as ->. split; auto; lra. }
  destruct (Z.le_gt_cases o best) as [Hle|Hgt].
  - destruct (FB (Z.to_nat (best - o))) as (r & E & L); try lia.
    rewrite Z2Nat.id in * by lia. replace (best - (best - o))%Z with o in * by lia. eauto.
  - assert (o = best + 1)%Z by lia. subst o. destruct SS as (r & r' & E1 & E2 & L); [lia|].
    rewrite Eb in E2. injection E2 as <-. eauto.
Qed.

(** If the fitter never raises and some channel is good, a fit comes out. *)
Theorem fit_total : forall mpfit freq I dI polyOrd0 ff,
  length I = length freq -> length dI = length freq -> ff <> OtherFun ->
  (forall q, exists r, mpfit q = POk r) -> finite_chans freq I dI <> [] ->
  exists r, fit_StokesI_model mpfit freq I dI polyOrd0 ff = POk r.
Proof.
  intros mpfit freq I dI po ff HI HD E T N.
  unfold fit_StokesI_model. rewrite good_chans_spec by auto.
  destruct (finite_chans freq I dI) as [|g0 gt]; [congruence|].
  set (fit := fun o => fit_spec_poly5 mpfit _ _ _ o ff).
  assert (TF : forall o, exists r, fit o = POk r).
  { intros o. unfold fit, fit_spec_poly5. destruct ff; [apply T|apply T|congruence]. }
  assert (TL : forall rem cur mp a, exists x, order_loop fit rem cur mp a = POk x).
  { induction rem; intros; cbn [order_loop]; [eauto|]. destruct (TF cur) as (r & ->). cbn [pybind].
    destruct Rlt_dec; eauto. }
  destruct (po <? 0)%Z.
  - change (fit_spec_poly5 mpfit _ _ _ 0 ff) with (fit 0%Z).
    destruct (TF 0%Z) as (mp & ->). cbn [pybind].
    destruct (TL (Z.to_nat (Z.abs po)) 1%Z mp (2 + mp_fnorm mp)) as ([[m1 a1] c1] & ->). cbn [pybind]. eauto.
  - change (fit_spec_poly5 mpfit _ _ _ po ff) with (fit po).
    destruct (TF po) as (mp & ->). cbn [pybind]. eauto.
Qed.

(** The number of degrees of freedom counts flagged channels. *)
Theorem fit_dof_refuted : exists mpfit freq I dI r,
  length I = length freq /\ length dI = length freq /\
  fit_StokesI_model mpfit freq I dI 0 Linear = POk r /\
  dof r = 2%Z /\ Z.of_nat (length (finite_chans freq I dI)) = 2%Z /\ polyOrd r = 0%Z /\
  chiSq r = 1 /\ chiSqRed r = Some (1 / 2).
Proof.
  exists (fun _ => POk (mk_mp [0; 0; 0; 0; 0; 1] 1 1 None None)), [1; 2; 3], [Some 1; None; Some 1], [Some 1; Some 1; Some 1].
  eexists. repeat split; try reflexivity.
Qed.

(* ------------------------------------------------------- fractions *)

Lemma div_fraction : forall x m, fraction x m (div_or_nan x m).
Proof.
  intros [X|] m; cbn; [|auto]. destruct (Req_EM_T m 0); cbn; eauto.
Qed.

Lemma frac_nth : forall x m j, length x = length m -> (j < length m)%nat ->
  fraction (nth j x None) (nth j m 0) (nth j (map (fun xm => div_or_nan (fst xm) (snd xm)) (combine x m)) None).
Proof.
  intros x m j L H. set (F := fun xm : option R * R => div_or_nan (fst xm) (snd xm)).
  rewrite (nth_indep (map F (combine x m)) None (F (None, 0))) by (rewrite map_length, combine_length; lia).
  rewrite (map_nth F). rewrite combine_nth by auto. apply div_fraction.
Qed.

Lemma frac_len : forall x m, length x = length m -> length (map (fun xm : option R * R => div_or_nan (fst xm) (snd xm)) (combine x m)) = length m.
Proof. intros. rewrite map_length, combine_length. lia. Qed.

Lemma fit_params_len : forall mpfit freq I dI po ff fr, (forall q r, mpfit q = POk r -> length (mp_params r) = 6%nat) ->
  fit_StokesI_model mpfit freq I dI po ff = POk fr -> length (params fr) = 6%nat.
Proof.
  intros mpfit freq I dI po ff fr L H. unfold fit_StokesI_model in H. destruct (good_chans freq I dI) as [|g0 gt]; [discriminate|].
  set (fit := fun o => fit_spec_poly5 mpfit _ _ _ o ff) in H.
  assert (LF : forall o r, fit o = POk r -> length (mp_params r) = 6%nat).
  { intros o r. unfold fit, fit_spec_poly5. destruct ff; try apply L. discriminate. }
  assert (LL : forall rem cur mp a x, length (mp_params mp) = 6%nat -> order_loop fit rem cur mp a = POk x -> length (mp_params (fst (fst x))) = 6%nat).
  { induction rem; intros cur mp a x Lm; cbn [order_loop]; [intros [= <-]; auto|].
    destruct (fit cur) eqn:E; [|discriminate]. cbn [pybind]. destruct Rlt_dec; [apply IHrem; eauto|intros [= <-]; auto]. }
  destruct (po <? 0)%Z.
  - change (fit_spec_poly5 mpfit _ _ _ 0 ff) with (fit 0%Z) in H.
    destruct (fit 0%Z) as [mp|] eqn:E0; [|discriminate]. cbn [pybind] in H.
    destruct (order_loop fit _ _ _ _) as [[[m1 a1] c1]|] eqn:EL; [|discriminate]. cbn [pybind] in H.
    apply LL in EL; [|eauto]. injection H as <-. exact EL.
  - change (fit_spec_poly5 mpfit _ _ _ po ff) with (fit po) in H.
    destruct (fit po) as [mp|] eqn:E0; [|discriminate]. cbn [pybind] in H. injection H as <-. cbn. eauto.
Qed.

Lemma fit_fun_kept : forall mpfit freq I dI po ff fr, fit_StokesI_model mpfit freq I dI po ff = POk fr -> fit_function fr = ff.
Proof.
  intros mpfit freq I dI po ff fr H. unfold fit_StokesI_model in H. destruct (good_chans freq I dI) as [|g0 gt]; [discriminate|].
  match type of H with pybind ?s _ = _ => destruct s as [[[a b] c]|]; [|discriminate] end. cbn in H. injection H as <-. reflexivity.
Qed.

Lemma neg_flag : forall m, existsb (fun v => Rltb v 0) m = true <-> negative_somewhere m.
Proof.
  intros. rewrite existsb_exists. unfold negative_somewhere, Rltb. split; intros (v & I & H); exists v; split; auto.
  - now destruct Rlt_dec.
  - now destruct Rlt_dec.
Qed.

Lemma low_flag : forall m dI, length dI = length m ->
  existsb (fun ve : R * option R => match snd ve with Some e => Rltb (fst ve) e | None => false end) (combine m dI) = true
  <-> below_error_somewhere m dI.
Proof.
  intros m dI L. rewrite existsb_exists. unfold below_error_somewhere. split.
  - intros ((v & e) & I & H). apply In_nth with (d := (0, None)) in I. destruct I as (k & K & N).
    rewrite combine_nth in N by auto. rewrite combine_length, L, Nat.min_id in K. injection N as N1 N2.
    cbn in H. destruct e as [e|]; [|discriminate]. exists k, e. repeat split; auto. rewrite N1.
    unfold Rltb in H. now destruct Rlt_dec.
  - intros (k & e & K & N & H). exists (nth k m 0, nth k dI None). split.
    + rewrite <- combine_nth by auto. apply nth_In. rewrite combine_length. lia.
    + cbn. rewrite N. unfold Rltb. now destruct Rlt_dec.
Qed.

(** All outcomes of [create_frac_spectra]. *)
Theorem frac_spectra_spec : forall mpfit freq I Q U dI dQ dU polyOrd0 ff modI IMod q u dq du fr n,
  (0 < n)%nat -> length freq = n -> length I = n -> length Q = n -> length U = n -> length dI = n -> length dQ = n -> length dU = n ->
  (forall m, modI = Some m -> length m = n) -> ff <> OtherFun ->
  (forall qn r, mpfit qn = POk r -> length (mp_params r) = 6%nat) ->
  create_frac_spectra mpfit freq I Q U dI dQ dU polyOrd0 ff modI = Some (IMod, q, u, dq, du, fr) ->
  (* fractions: value * model = data, exactly where both exist *)
  (length q = n /\ length u = n /\ length IMod = n /\ forall j, (j < n)%nat ->
     fraction (nth j Q None) (nth j IMod 0) (nth j q None) /\ fraction (nth j U None) (nth j IMod 0) (nth j u None)) /\
  (* the model and the status *)
  match modI with
  | Some m => IMod = m /\ fitStatus fr = 0%Z
  | None =>
    match fit_StokesI_model mpfit freq I dI polyOrd0 ff with
    | PErr => IMod = repeat 1 n /\ fitStatus fr = 9%Z /\ params fr = [0; 0; 0; 0; 0; 1]
    | POk fr0 => IMod = map (model_at fr0) freq /\ params fr = params fr0 /\ ref_freq fr = ref_freq fr0 /\ fit_function fr = ff /\
        exists b1 b2, fitStatus fr = (fitStatus fr0 + b1 + b2)%Z /\
          bit (negative_somewhere IMod) 128 b1 /\ bit (below_error_somewhere IMod dI) 64 b2
    end
  end.
Proof.
  intros mpfit freq I Q U dI dQ dU po ff modI IMod q u dq du fr n Hn Lf LI LQ LU LdI LdQ LdU Lm E LP H.
  unfold create_frac_spectra in H. match type of H with (if ?b then _ else _) = _ => destruct b; [discriminate|] end.
  match type of H with (let '(_, _) := ?e in _) = _ => destruct e as [M fr1] eqn:EM end.
  injection H as -> <- <- <- <- <-.
  assert (LM : length IMod = n).
  { destruct modI as [m|]; [injection EM as <- <-; auto|].
    destruct (fit_StokesI_model mpfit freq I dI po ff) as [fr0|] eqn:EF; cbn [pybind] in EM.
    - rewrite calc_spec in EM; [|eapply fit_params_len; eauto|now rewrite (fit_fun_kept _ _ _ _ _ _ _ EF)].
      cbn [pybind] in EM. destruct (map (model_at fr0) freq) eqn:EMp; injection EM as <- _.
      + rewrite map_length; auto.
      + rewrite <- EMp, map_length; auto.
    - injection EM as <- <-. rewrite map_length; auto. }
  split.
  - rewrite !frac_len by congruence. repeat split; auto; intros; apply frac_nth; congruence.
  - destruct modI as [m|]; [injection EM as <- <-; auto|].
    destruct (fit_StokesI_model mpfit freq I dI po ff) as [fr0|] eqn:EF; cbn [pybind] in EM.
    + pose proof (fit_fun_kept _ _ _ _ _ _ _ EF) as FK.
      rewrite calc_spec in EM; [|eapply fit_params_len; eauto|congruence].
      cbn [pybind] in EM. destruct (map (model_at fr0) freq) as [|m0 mt] eqn:EMp.
      { apply (f_equal (@length R)) in EMp. rewrite map_length in EMp. cbn in EMp. lia. }
      cbv beta iota zeta in EM. apply pair_equal_spec in EM. destruct EM as [EM <-]. rewrite <- EM in *. split; auto.
      pose proof (neg_flag (m0 :: mt)) as NF. pose proof (low_flag (m0 :: mt) dI ltac:(congruence)) as LF.
      destruct (existsb (fun v => Rltb v 0) (m0 :: mt)); destruct (existsb _ (combine (m0 :: mt) dI)); cbn;
        (split; [reflexivity|]; split; [reflexivity|]; split; [exact FK|]).
      * exists 128%Z, 64%Z. unfold bit. repeat split; try lia; left; split; try tauto; lia.
      * exists 128%Z, 0%Z. unfold bit. repeat split; try lia; [left|right]; split; try tauto; try lia. intros B. apply LF in B. discriminate.
      * exists 0%Z, 64%Z. unfold bit. repeat split; try lia; [right|left]; split; try tauto; try lia. intros B. apply NF in B. discriminate.
      * exists 0%Z, 0%Z. unfold bit. repeat split; try lia; right; split; try lia; intros B; [apply NF in B|apply LF in B]; discriminate.
    + injection EM as <- <-. cbn. repeat split; auto. rewrite <- LI. clear. induction I; cbn; congruence.
Qed.

(** The quoted errors: |dQ/model| wherever the model is positive. *)
Theorem frac_errors_positive_model : forall mpfit freq I Q U dI dQ dU polyOrd0 ff modI IMod q u dq du fr,
  length dQ = length IMod -> length dU = length IMod ->
  create_frac_spectra mpfit freq I Q U dI dQ dU polyOrd0 ff modI = Some (IMod, q, u, dq, du, fr) ->
  forall j e, (j < length IMod)%nat -> 0 < nth j IMod 0 -> 0 <= e ->
    (nth j dQ None = Some e -> nth j dq None = Some (Rabs (e / nth j IMod 0))) /\
    (nth j dU None = Some e -> nth j du None = Some (Rabs (e / nth j IMod 0))).
Proof.
  intros mpfit freq I Q U dI dQ dU po ff modI IMod q u dq du fr LQ LU H j e Hj Hm He.
  unfold create_frac_spectra in H. match type of H with (if ?b then _ else _) = _ => destruct b; [discriminate|] end.
  match type of H with (let '(_, _) := ?e in _) = _ => destruct e as [M fr1] end.
  injection H as -> <- <- <- <- <-.
  assert (Rabs (e / nth j IMod 0) = e / nth j IMod 0).
  { apply Rabs_pos_eq. apply Rdiv_le_0_compat; auto. }
  split; intros N.
  - pose proof (frac_nth dQ IMod j LQ Hj) as F. rewrite N in F. unfold fraction in F.
    destruct (nth j (map _ (combine dQ IMod)) None); [destruct F as (X & EX & _ & ->)|destruct F as [F|F]; [discriminate|lra]].
    injection EX as <-. congruence.
  - pose proof (frac_nth dU IMod j LU Hj) as F. rewrite N in F. unfold fraction in F.
    destruct (nth j (map _ (combine dU IMod)) None); [destruct F as (X & EX & _ & ->)|destruct F as [F|F]; [discriminate|lra]].
    injection EX as <-. congruence.
Qed.

(** With a negative model the quoted error is negative; and a channel whose
    value is NaN can keep a finite error. *)
Theorem frac_errors_refuted : exists IMod q u dq du fr,
  create_frac_spectra (fun _ => PErr) [1; 2] [Some 1; Some 1] [Some 1; None] [Some 1; Some 1]
    [Some 1; Some 1] [Some 1; Some 1] [Some 1; Some 1] 1 Log (Some [-2; 2]) = Some (IMod, q, u, dq, du, fr) /\
  (exists e, nth 0 dq None = Some e /\ e < 0) /\
  nth 1 q None = None /\ nth 1 dq None <> None.
Proof.
  do 6 eexists. split; [reflexivity|]. cbn. destruct (Req_EM_T (-2) 0); [lra|]. destruct (Req_EM_T 2 0); [lra|].
  repeat split; [|discriminate]. eexists. split; [reflexivity|]. lra.
Qed.

(** When the result is NaN throughout. *)
Lemma good_chans_none : forall freq I dI, length I = length freq -> length dI = length freq ->
  (good_chans freq I dI = [] <-> forall j, (j < length freq)%nat -> nth j I None = None \/ nth j dI None = None).
Proof.
  intros freq I dI LI LD. rewrite good_chans_spec by auto. unfold finite_chans. split.
  - intros E j Hj. destruct (nth j I None) as [i|] eqn:EI; [|auto]. destruct (nth j dI None) as [e|] eqn:ED; [|auto]. exfalso.
    assert (X : In (nth j freq 0, i, e) []); [|destruct X]. rewrite <- E. apply in_flat_map. exists j. split; [apply in_seq; lia|].
    rewrite EI, ED. now left.
  - intros H. assert (G : forall l : list nat, (forall j, In j l -> (j < length freq)%nat) ->
      flat_map (fun k => match nth k I None, nth k dI None with Some i, Some e => [(nth k freq 0, i, e)] | _, _ => [] end) l = []).
    { induction l as [|k l IH]; intros Hl; [reflexivity|]. cbn. rewrite IH by (intros; apply Hl; now right).
      destruct (H k (Hl k (or_introl eq_refl))) as [->| ->]; [reflexivity|]. now destruct (nth k I None). }
    apply G. intros j Hj. apply in_seq in Hj. lia.
Qed.

Theorem frac_spectra_nan : forall mpfit freq I Q U dI dQ dU polyOrd0 ff,
  (0 < length freq)%nat -> length I = length freq -> length dI = length freq -> ff <> OtherFun ->
  (create_frac_spectra mpfit freq I Q U dI dQ dU polyOrd0 ff None = None <->
   (forall j, (j < length freq)%nat -> nth j I None = None \/ nth j dI None = None) /\ Z.of_nat (length freq) <> (Z.max polyOrd0 0 + 1)%Z).
Proof.
  intros mpfit freq I Q U dI dQ dU po ff Hn LI LD E. rewrite <- good_chans_none by auto.
  unfold create_frac_spectra, all_nan_fit. destruct (Nat.eqb_spec (length freq) 0); [lia|]. cbn [negb andb].
  match goal with |- (if _ then None else ?e) = None <-> _ => assert (D : e <> None) by (match goal with |- (let '(_, _) := ?x in _) <> _ => destruct x end; discriminate);
    set (body := e) in * end.
  destruct (good_chans freq I dI) eqn:G.
  - destruct ff; [| |congruence]; (destruct (Z.eqb_spec (Z.of_nat (length freq) - Z.max po 0 - 1) 0); cbn [negb];
      (split; [intros X; first [contradiction|split; [reflexivity|lia]]|intros [_ ?]; try lia; reflexivity])).
  - split; [|intros [? _]; discriminate]. destruct ff; intros X; contradiction.
Qed.
