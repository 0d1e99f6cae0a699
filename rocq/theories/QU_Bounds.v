(** QU-fitting models: amplitudes never exceed the fractional polarisation; the
    priors give every parameter a model reads. *)
From Coq Require Import Reals List Arith ZArith Bool String Lra Lia.
Set Warnings "-ambiguous-paths".
From Coquelicot Require Import Coquelicot.
From Verif Require Import CBase PyRes PyList PyStr PyStr_Proofs CleanTop_Model Measure_Model Measure_Spec Measure_Proofs Synth_Spec QU_Model QU_Spec QU_Proofs.
Import ListNotations.
Local Open Scope R_scope.

Lemma thin_bound : forall p a RM l, 0 <= p -> Cmod (RtoC p * e2j (radians a + RM * l))%C <= p.
Proof. intros. rewrite e2j_thin, thin_mod, Rabs_pos_eq by auto. lra. Qed.

Lemma bounded_map : forall (f : R -> option C) l2 b, (forall l z, f l = Some z -> Cmod z <= b) -> bounded_by (POk (map f l2)) b.
Proof.
  intros f l2 b H l z E Hz. apply POk_inj' in E. subst l. apply in_map_iff in Hz. destruct Hz as (x & Ex & _). eapply H; eauto.
Qed.
Lemma bounded_err : forall b, bounded_by PErr b.
Proof. intros b l z E. discriminate. Qed.

Ltac some_inj := let H := fresh in intros ? ? H; first [injection H as <- | idtac].

Theorem m1_bound : forall d l2 p, pget d (s "fracPol") = POk p -> 0 <= p -> bounded_by (m1 d l2) p.
Proof.
  intros d l2 p Hp P. keys. rewrite Hp. bindget; try apply bounded_err. apply bounded_map. intros l z E. injection E as <-. apply thin_bound, P.
Qed.
Theorem m2_bound : forall d l2 p, pget d (s "fracPol") = POk p -> 0 <= p -> bounded_by (m2 d l2) p.
Proof.
  intros d l2 p Hp P. keys. rewrite Hp. bindget; try apply bounded_err. apply bounded_map. intros l z E. injection E as <-.
  eapply Rle_trans; [apply burn_mod|]. apply thin_bound, P.
Qed.
Theorem m5_bound : forall d l2 p, pget d (s "fracPol") = POk p -> 0 <= p -> bounded_by (m5 d l2) p.
Proof.
  intros d l2 p Hp P. keys. rewrite Hp. bindget; try apply bounded_err. apply bounded_map. intros l z E. apply cdivr_mod in E.
  eapply Rle_trans; [exact E|]. apply thin_bound, P.
Qed.
Lemma internal_S : forall l sg dRM, 0 <= fst ((2 * l ^ 2 * sg ^ 2, - (2 * l * dRM)) : C).
Proof. intros. cbn [fst]. replace (2 * l ^ 2 * sg ^ 2) with (2 * (l * sg) ^ 2) by ring. pose proof (pow2_ge_0 (l * sg)). lra. Qed.
Theorem m7_bound : forall d l2 p, pget d (s "fracPol") = POk p -> 0 <= p -> bounded_by (m7 d l2) p.
Proof.
  intros d l2 p Hp P. keys. rewrite Hp. bindget; try apply bounded_err. apply bounded_map. intros l z E. cbv zeta in E.
  pose proof (internal_S l a a0) as S0. set (S := ((2 * l ^ 2 * a ^ 2)%R, (- (2 * l * a0))%R) : C) in *.
  unfold cdiv in E. destruct (Ceq_dec S (RtoC 0)) as [|N]; [discriminate|]. injection E as <-.
  unfold Cdiv. rewrite <- Cmult_assoc, Cmod_mult.
  assert (Cmod ((RtoC 1 - cexp (- S)) * / S)%C <= 1).
  { apply (internal_mod S); [auto|]. unfold cdiv. destruct (Ceq_dec S (RtoC 0)); [contradiction|reflexivity]. }
  pose proof (thin_bound p a1 a2 l P). pose proof (Cmod_ge_0 (RtoC p * e2j (radians a1 + a2 * l))%C). nra.
Qed.
Theorem m12_bound : forall d l2 p, pget d (s "fracPol") = POk p -> 0 <= p -> bounded_by (m12 d l2) p.
Proof.
  intros d l2 p Hp P. keys. rewrite Hp. bindget; try apply bounded_err. apply bounded_map. intros l z E. cbv zeta in E.
  pose proof (internal_S l a a0) as S0. set (S := ((2 * l ^ 2 * a ^ 2)%R, (- (2 * l * a0))%R) : C) in *.
  destruct (cdiv _ S) as [q|] eqn:Eq; [|discriminate]. injection E as <-.
  eapply Rle_trans; [apply burn_mod|]. rewrite Cmod_mult. pose proof (internal_mod S q S0 Eq).
  pose proof (thin_bound p a1 a2 l P). pose proof (Cmod_ge_0 (RtoC p * e2j (radians a1 + a2 * l))%C). pose proof (Cmod_ge_0 q). nra.
Qed.
Theorem m11_bound : forall d l2 p1 p2, pget d (s "fracPol1") = POk p1 -> pget d (s "fracPol2") = POk p2 -> 0 <= p1 -> 0 <= p2 -> bounded_by (m11 d l2) (p1 + p2).
Proof.
  intros d l2 p1 p2 H1 H2 P1 P2. keys. rewrite H1, H2. bindget; try apply bounded_err. apply bounded_map. intros l z E. injection E as <-.
  eapply Rle_trans; [apply Cmod_triangle|]. apply Rplus_le_compat; apply thin_bound; auto.
Qed.
Theorem m3_bound : forall d l2 p1 p2, pget d (s "fracPol1") = POk p1 -> pget d (s "fracPol2") = POk p2 -> 0 <= p1 -> 0 <= p2 -> bounded_by (m3 d l2) (p1 + p2).
Proof.
  intros d l2 p1 p2 H1 H2 P1 P2. keys. rewrite H1, H2. bindget; try apply bounded_err. apply bounded_map. intros l z E. injection E as <-.
  eapply Rle_trans; [apply burn_mod|]. eapply Rle_trans; [apply Cmod_triangle|]. apply Rplus_le_compat; apply thin_bound; auto.
Qed.
Theorem m4_bound : forall d l2 p1 p2, pget d (s "fracPol1") = POk p1 -> pget d (s "fracPol2") = POk p2 -> 0 <= p1 -> 0 <= p2 -> bounded_by (m4 d l2) (p1 + p2).
Proof.
  intros d l2 p1 p2 H1 H2 P1 P2. keys. rewrite H1, H2. bindget; try apply bounded_err. apply bounded_map. intros l z E. injection E as <-.
  eapply Rle_trans; [apply Cmod_triangle|]. apply Rplus_le_compat; (eapply Rle_trans; [apply burn_mod|]); apply thin_bound; auto.
Qed.
Theorem m6_bound : forall d l2 p1 p2, pget d (s "fracPol1") = POk p1 -> pget d (s "fracPol2") = POk p2 -> 0 <= p1 -> 0 <= p2 -> bounded_by (m6 d l2) (p1 + p2).
Proof.
  intros d l2 p1 p2 H1 H2 P1 P2. keys. rewrite H1, H2. bindget; try apply bounded_err. apply bounded_map. intros l z E.
  unfold ocadd in E. destruct (cdivr _ (a0 * l)) eqn:E1; [|discriminate]. destruct (cdivr _ (a3 * l)) eqn:E2; [|discriminate]. injection E as <-.
  apply cdivr_mod in E1. apply cdivr_mod in E2.
  eapply Rle_trans; [apply Cmod_triangle|]. apply Rplus_le_compat; (eapply Rle_trans; [eassumption|]); apply thin_bound; auto.
Qed.
Theorem m111_bound : forall d l2 p1 p2 p3, pget d (s "fracPol1") = POk p1 -> pget d (s "fracPol2") = POk p2 -> pget d (s "fracPol3") = POk p3 ->
  0 <= p1 -> 0 <= p2 -> 0 <= p3 -> bounded_by (m111 d l2) (p1 + p2 + p3).
Proof.
  intros d l2 p1 p2 p3 H1 H2 H3 P1 P2 P3. keys. rewrite H1, H2, H3. bindget; try apply bounded_err. apply bounded_map. intros l z E. injection E as <-.
  eapply Rle_trans; [apply Cmod_triangle|]. apply Rplus_le_compat; [|apply thin_bound; auto].
  eapply Rle_trans; [apply Cmod_triangle|]. apply Rplus_le_compat; apply thin_bound; auto.
Qed.

(** ** priors *)
Lemma bounded_weaken : forall sp a b, bounded_by sp a -> a <= b -> bounded_by sp b.
Proof. intros sp a b H L l z E Hz. specialize (H l z E Hz). lra. Qed.

Ltac have H k := let v := fresh "v" in let E := fresh "G" in let B := fresh "B" in
  destruct (H (mk_prior (s k%string) false _ _ _) ltac:(cbn; eauto 20) eq_refl) as (v & E & B); cbn [pr_key pr_min pr_max] in E, B.

(** each entry of the priors as a fact *)
Lemma forall_priors : forall (P : prior -> Prop) l, (forall x, In x l -> P x) -> fold_right (fun x q => P x /\ q) True l.
Proof.
  induction l as [|x l IH]; intros H; [exact I|]. split; [apply H; left; reflexivity|]. apply IH. intros y Hy. apply H. right. exact Hy.
Qed.

Ltac spread H := apply forall_priors in H; cbn [fold_right priors1 priors2 priors3 priors4 priors5 priors6 priors7 priors11 priors12 priors111 pair_priors pair_constraints app uni ang con pr_key pr_constraint pr_min pr_max pr_periodic] in H;
  repeat match goal with
  | X : _ /\ _ |- _ => let A := fresh "F" in destruct X as [A X]
  end;
  repeat match goal with
  | X : true = false -> _ |- _ => clear X
  | X : false = true -> _ |- _ => clear X
  | X : ?a = ?a -> _ |- _ => specialize (X eq_refl)
  | X : exists v, pget _ _ = POk v /\ _ |- _ => let v := fresh "v" in let E := fresh "G" in destruct X as (v & E & X)
  end.

Theorem single_models_ok : forall m pr d l2, In (m, pr) single_models -> samples_of pr d ->
  (exists sp, m d l2 = POk sp /\ List.length sp = List.length l2) /\ bounded_by (m d l2) 1.
Proof.
  intros m pr d l2 Hm Hs. unfold samples_of in Hs.
  repeat (destruct Hm as [Hm|Hm]; [injection Hm as <- <-; spread Hs; (split; [keys; repeat match goal with E : pget d _ = _ |- _ => rewrite E; clear E end; cbn [pybind]; eexists; split; [reflexivity|apply map_length]|])|]);
    [.. | destruct Hm].
  - eapply bounded_weaken; [eapply m1_bound; [eassumption|lra]|lra].
  - eapply bounded_weaken; [eapply m2_bound; [eassumption|lra]|lra].
  - eapply bounded_weaken; [eapply m5_bound; [eassumption|lra]|lra].
  - eapply bounded_weaken; [eapply m7_bound; [eassumption|lra]|lra].
  - eapply bounded_weaken; [eapply m12_bound; [eassumption|lra]|lra].
Qed.

Lemma pget_app2 : forall d a b c e k', pget (d ++ [(a, b); (c, e)]) k' = if str_eqb c k' then POk e else if str_eqb a k' then POk b else pget d k'.
Proof.
  intros d a b c e k'. replace (d ++ [(a, b); (c, e)])%list with ((d ++ [(a, b)]) ++ [(c, e)])%list by (rewrite <- app_assoc; reflexivity).
  rewrite !pget_app. reflexivity.
Qed.

Ltac sumfact d' Es := match goal with X : pget d' _ = POk ?v |- _ => is_var v; rewrite Es in X; apply POk_inj' in X end.
Theorem pair_models_ok : forall m pr d l2, In (m, pr) pair_models -> samples_of pr d ->
  (exists sp, m d l2 = POk sp /\ List.length sp = List.length l2) /\
  exists d', converter2 d = POk d' /\ (constraints_hold pr d' -> bounded_by (m d l2) 1).
Proof.
  intros m pr d l2 Hm Hs. unfold samples_of in Hs. unfold constraints_hold.
  assert (CO : forall r1 r2 p1 p2, pget d (s "RM1_radm2") = POk r1 -> pget d (s "RM2_radm2") = POk r2 -> pget d (s "fracPol1") = POk p1 -> pget d (s "fracPol2") = POk p2 ->
     exists d', converter2 d = POk d' /\ pget d' (s "sum_p1_p2") = POk (p1 + p2)).
  { intros r1 r2 p1 p2 H1 H2 H3 H4. unfold converter2. rewrite H1, H2, H3, H4. cbn [pybind]. eexists. split; [reflexivity|].
    rewrite pget_app2. reflexivity. }
  repeat (destruct Hm as [Hm|Hm]; [injection Hm as <- <-; spread Hs;
    (split; [keys; repeat match goal with E : pget d _ = _ |- _ => rewrite E; clear E end; cbn [pybind]; eexists; split; [reflexivity|apply map_length]|
     edestruct CO as (d' & Ed & Es); [eassumption..|]; exists d'; split; [exact Ed|]; intros Hc; spread Hc])|]);
    [.. | destruct Hm].
  - sumfact d' Es. eapply bounded_weaken; [eapply m11_bound; [eassumption|eassumption|lra|lra]|lra].
  - sumfact d' Es. eapply bounded_weaken; [eapply m3_bound; [eassumption|eassumption|lra|lra]|lra].
  - sumfact d' Es. eapply bounded_weaken; [eapply m4_bound; [eassumption|eassumption|lra|lra]|lra].
  - sumfact d' Es. eapply bounded_weaken; [eapply m6_bound; [eassumption|eassumption|lra|lra]|lra].
Qed.

Lemma pget_app3 : forall d a b c e f g k', pget (d ++ [(a, b); (c, e); (f, g)]) k' =
  if str_eqb f k' then POk g else if str_eqb c k' then POk e else if str_eqb a k' then POk b else pget d k'.
Proof.
  intros d a b c e f g k'. replace (d ++ [(a, b); (c, e); (f, g)])%list with ((d ++ [(a, b); (c, e)]) ++ [(f, g)])%list by (rewrite <- app_assoc; reflexivity).
  rewrite pget_app, pget_app2. reflexivity.
Qed.
Theorem triple_model_ok : forall d l2, samples_of priors111 d ->
  (exists sp, m111 d l2 = POk sp /\ List.length sp = List.length l2) /\
  exists d', converter3 d = POk d' /\ (constraints_hold priors111 d' -> bounded_by (m111 d l2) 1).
Proof.
  intros d l2 Hs. unfold samples_of in Hs. unfold constraints_hold. spread Hs. split.
  - keys. repeat match goal with E : pget d _ = _ |- _ => rewrite E; clear E end. cbn [pybind]. eexists. split; [reflexivity|apply map_length].
  - assert (CO : forall r1 r2 r3 p1 p2 p3, pget d (s "RM1_radm2") = POk r1 -> pget d (s "RM2_radm2") = POk r2 -> pget d (s "RM3_radm2") = POk r3 ->
      pget d (s "fracPol1") = POk p1 -> pget d (s "fracPol2") = POk p2 -> pget d (s "fracPol3") = POk p3 ->
      exists d', converter3 d = POk d' /\ pget d' (s "sum_p1_p2_p3") = POk (p1 + p2 + p3)).
    { intros r1 r2 r3 p1 p2 p3 H1 H2 H3 H4 H5 H6. unfold converter3. rewrite H1, H2, H3, H4, H5, H6. cbn [pybind]. eexists. split; [reflexivity|].
      rewrite pget_app3. reflexivity. }
    edestruct CO as (d' & Ed & Es); [eassumption..|]. exists d'. split; [exact Ed|]. intros Hc. spread Hc. sumfact d' Es.
    eapply bounded_weaken; [eapply m111_bound; [eassumption|eassumption|eassumption|lra|lra|lra]|lra].
Qed.

(** the order of the depths loses nothing: every pair of components obeys the
    constraint in one of the two orders, with the same spectrum *)
Theorem m11_order : forall d l2 p1 p2 a1 a2 r1 r2, pget d (s "fracPol1") = POk p1 -> pget d (s "fracPol2") = POk p2 ->
  pget d (s "psi01_deg") = POk a1 -> pget d (s "psi02_deg") = POk a2 -> pget d (s "RM1_radm2") = POk r1 -> pget d (s "RM2_radm2") = POk r2 ->
  exists e e' x, m11 e l2 = m11 d l2 /\ converter2 e = POk e' /\ pget e' (s "delta_RM1_RM2_radm2") = POk x /\ 0 <= x.
Proof.
  intros d l2 p1 p2 a1 a2 r1 r2 P1 P2 A1 A2 R1 R2.
  assert (CO : forall d p1 p2 r1 r2, pget d (s "RM1_radm2") = POk r1 -> pget d (s "RM2_radm2") = POk r2 -> pget d (s "fracPol1") = POk p1 -> pget d (s "fracPol2") = POk p2 ->
     exists d', converter2 d = POk d' /\ pget d' (s "delta_RM1_RM2_radm2") = POk (r1 - r2)).
  { clear. intros d p1 p2 r1 r2 H1 H2 H3 H4. unfold converter2. rewrite H1, H2, H3, H4. cbn [pybind]. eexists. split; [reflexivity|].
    rewrite pget_app2. reflexivity. }
  destruct (Rle_dec r2 r1) as [L|L].
  - destruct (CO d p1 p2 r1 r2 R1 R2 P1 P2) as (d' & E1 & E2). exists d, d', (r1 - r2). repeat split; auto. lra.
  - set (e := [(s "fracPol1", p2); (s "fracPol2", p1); (s "psi01_deg", a2); (s "psi02_deg", a1); (s "RM1_radm2", r2); (s "RM2_radm2", r1)] : pdict).
    destruct (CO e p2 p1 r2 r1 eq_refl eq_refl eq_refl eq_refl) as (d' & E1 & E2). exists e, d', (r2 - r1). repeat split; auto; [|lra].
    unfold m11. rewrite P1, P2, A1, A2, R1, R2. cbn [pybind].
    change (POk (map (fun l => Some (RtoC p2 * e2j (radians a2 + r2 * l) + RtoC p1 * e2j (radians a1 + r1 * l))%C) l2) =
            POk (map (fun l => Some (RtoC p1 * e2j (radians a1 + r1 * l) + RtoC p2 * e2j (radians a2 + r2 * l))%C) l2)).
    f_equal. apply map_ext. intros l. f_equal. ring.
Qed.
