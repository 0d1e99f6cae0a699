(** Proofs about the spectra figures: contents, limits, errors. *)
From Coq Require Import Reals List Arith ZArith Bool Ascii String Lra Lia Psatz.
Set Warnings "-ambiguous-paths".
From Coquelicot Require Import Coquelicot.
From Verif Require Import CBase PyRes PyStr PyList Measure_Model Median_Proofs Measure_Proofs Pl_Model Fg_Model Fg_Spec.
Import ListNotations.
Local Notation length := List.length.
Local Open Scope R_scope.

(* ------------------------------------------------------------- small facts *)

Lemma bind_ok : forall {A B} (x : pyres A) (f : A -> pyres B) r, pybind x f = POk r -> exists a, x = POk a /\ f a = POk r.
Proof. intros A B [a|] f r H; [exists a; auto|discriminate H]. Qed.

Lemma zip2_ok : forall f a b r, zip2 f a b = POk r <->
  length a = length r /\ length b = length r /\ forall i, (i < length r)%nat -> nth i r None = f (nth i a None) (nth i b None).
Proof.
  intros f. induction a as [|x a IH]; intros [|y b] r; simpl.
  - split; [intros [= <-]; simpl; repeat split; auto; intros; lia|]. intros [H _]. destruct r; [auto|discriminate H].
  - split; [discriminate|]. intros [H [K _]]. exfalso. rewrite <- H in K. simpl in K. discriminate K.
  - split; [discriminate|]. intros [H [K _]]. exfalso. rewrite <- K in H. simpl in H. discriminate H.
  - split.
    + intros H. apply bind_ok in H. destruct H as [t [Ht [= <-]]]. apply IH in Ht. destruct Ht as [H1 [H2 H3]]. simpl. repeat split; try lia.
      intros [|i] Hi; auto. apply H3. lia.
    + intros [H1 [H2 H3]]. destruct r as [|z r]; [discriminate H1|]. simpl in *.
      assert (E : zip2 f a b = POk r). { apply IH. repeat split; try lia. intros i Hi. apply (H3 (S i)). lia. }
      rewrite E. simpl. rewrite (H3 0%nat ltac:(lia)). reflexivity.
Qed.
Lemma zip2_runs : forall f a b, (exists r, zip2 f a b = POk r) <-> length a = length b.
Proof.
  intros f a b. split; [intros [r H]; apply zip2_ok in H; lia|]. revert b. induction a as [|x a IH]; intros [|y b] H; try discriminate H.
  - exists []. reflexivity.
  - destruct (IH b ltac:(simpl in H; lia)) as [r Hr]. exists (f x y :: r). simpl. rewrite Hr. reflexivity.
Qed.
Lemma cmod_hyp : forall a b, Cmod (a, b) = sqrt (a ^ 2 + b ^ 2).
Proof. reflexivity. Qed.
Lemma hypot_spec : forall q u, modulus_of q u (hypot q u).
Proof. intros [q|] [u|]; simpl; auto. Qed.
Lemma zip2_hypot : forall a b r, zip2 hypot a b = POk r <-> pointwise modulus_of a b r.
Proof.
  intros a b r. rewrite zip2_ok. unfold pointwise. split; intros [H1 [H2 H3]]; repeat split; auto; intros i Hi.
  - rewrite (H3 i Hi). apply hypot_spec.
  - specialize (H3 i Hi). pose proof (hypot_spec (nth i a None) (nth i b None)) as K. unfold modulus_of in *.
    destruct (nth i a None), (nth i b None); congruence.
Qed.

Lemma in_somes : forall (l : col) x, In x (somes l) <-> In (Some x) l.
Proof.
  induction l as [|[y|] l IH]; intros x; simpl.
  - tauto.
  - rewrite IH. split; intros [H|H]; auto; [left; congruence|left; congruence].
  - rewrite IH. split; auto. intros [H|H]; [discriminate H|auto].
Qed.
Lemma fold_min_spec : forall t x, (fold_right Rmin x t = x \/ In (fold_right Rmin x t) t) /\ fold_right Rmin x t <= x /\ forall y, In y t -> fold_right Rmin x t <= y.
Proof.
  induction t as [|z t IH]; intros x; simpl; [split; [auto|split; [lra|tauto]]|]. destruct (IH x) as [H1 [H2 H3]]. split; [|split].
  - unfold Rmin. destruct (Rle_dec z (fold_right (fun x y => if Rle_dec x y then x else y) x t)); auto. destruct H1 as [H1|H1]; auto.
  - pose proof (Rmin_r z (fold_right Rmin x t)). lra.
  - intros y [<-|Hy]; [apply Rmin_l|]. pose proof (Rmin_r z (fold_right Rmin x t)). specialize (H3 y Hy). lra.
Qed.
Lemma fold_max_spec : forall t x, (fold_right Rmax x t = x \/ In (fold_right Rmax x t) t) /\ x <= fold_right Rmax x t /\ forall y, In y t -> y <= fold_right Rmax x t.
Proof.
  induction t as [|z t IH]; intros x; simpl; [split; [auto|split; [lra|tauto]]|]. destruct (IH x) as [H1 [H2 H3]]. split; [|split].
  - unfold Rmax. destruct (Rle_dec z (fold_right (fun x y => if Rle_dec x y then y else x) x t)); auto. destruct H1 as [H1|H1]; auto.
  - pose proof (Rmax_r z (fold_right Rmax x t)). lra.
  - intros y [<-|Hy]; [apply Rmax_l|]. pose proof (Rmax_r z (fold_right Rmax x t)). specialize (H3 y Hy). lra.
Qed.
Lemma span_ok : forall l lo hi, span l = POk (lo, hi) -> least l lo /\ greatest l hi.
Proof.
  intros l lo hi H. unfold span in H. destruct (somes l) as [|x t] eqn:E; [discriminate H|].
  assert (lo = fold_right Rmin x t /\ hi = fold_right Rmax x t) as [-> ->] by (split; congruence).
  destruct (fold_min_spec t x) as [A1 [A2 A3]]. destruct (fold_max_spec t x) as [B1 [B2 B3]].
  assert (K : forall y, In (Some y) l <-> y = x \/ In y t) by (intros y; rewrite <- in_somes, E; simpl; intuition congruence).
  split; split; try (apply K; auto); intros y Hy; apply K in Hy; destruct Hy as [->|Hy]; auto.
Qed.
Lemma span_runs : forall l, (exists mm, span l = POk mm) <-> exists x, In (Some x) l.
Proof.
  intros l. unfold span. split.
  - intros [mm H]. destruct (somes l) as [|x t] eqn:E; [discriminate H|]. exists x. apply in_somes. rewrite E. simpl; auto.
  - intros [x Hx]. apply in_somes in Hx. destruct (somes l) as [|y t]; [destruct Hx|]. eauto.
Qed.
Lemma limits_ok : forall f l lim, limits f l = POk lim -> margin f l lim.
Proof.
  intros f l lim H. apply bind_ok in H. destruct H as [[lo hi] [H [= <-]]]. apply span_ok in H. exists lo, hi. split; [tauto|]. split; [tauto|]. f_equal; ring.
Qed.
Lemma limits_runs : forall f l, (exists lim, limits f l = POk lim) <-> exists x, In (Some x) l.
Proof.
  intros f l. rewrite <- span_runs. unfold limits. split.
  - intros [lim H]. apply bind_ok in H. destruct H as [a [H _]]. eauto.
  - intros [[lo hi] ->]. simpl. eauto.
Qed.

Lemma no_neg_iff : forall d, no_neg (Some d) = true <-> errors_ok d.
Proof.
  intros d. unfold no_neg, errors_ok. rewrite forallb_forall. split; intros H.
  - intros e He. specialize (H _ He). simpl in H. unfold Rleb in H. destruct (Rle_dec 0 e); [auto|discriminate H].
  - intros [e|] He; auto. unfold Rleb. destruct (Rle_dec 0 e) as [r|n]; auto; exfalso; apply n, H, He.
Qed.
Lemma same_len_iff : forall x y, same_len x (Some y) = true <-> length x = length y.
Proof. intros x y. simpl. apply Nat.eqb_eq. Qed.
Definition eopt (d : option col) (P : col -> Prop) : Prop := match d with None => True | Some d => P d end.
Lemma same_len_opt : forall x y, same_len x y = true <-> eopt y (fun y => length x = length y).
Proof. intros x [y|]; [apply same_len_iff|simpl; tauto]. Qed.
Lemma no_neg_opt : forall d, no_neg d = true <-> eopt d errors_ok.
Proof. intros [d|]; [apply no_neg_iff|simpl; tauto]. Qed.
Lemma errorbar_ok : forall lb x y dx dy r, errorbar lb x y dx dy = POk r <->
  r = [Bars lb x y dx dy] /\ length x = length y /\ eopt dx (fun d => length x = length d) /\ eopt dy (fun d => length x = length d) /\ eopt dx errors_ok /\ eopt dy errors_ok.
Proof.
  intros lb x y dx dy r. unfold errorbar.
  rewrite <- (same_len_iff x y), <- (same_len_opt x dx), <- (same_len_opt x dy), <- (no_neg_opt dx), <- (no_neg_opt dy).
  destruct (same_len x (Some y)), (same_len x dx), (same_len x dy), (no_neg dx), (no_neg dy); simpl; split; intros H;
    try discriminate H; try (destruct H as [_ [A [B [C0 [D E]]]]]; congruence).
  - injection H as <-. repeat split; auto.
  - destruct H as [-> _]. reflexivity.
Qed.
Lemma plot_ok : forall lb x y r, plot lb x y = POk r <-> r = [Line lb x y] /\ length x = length y.
Proof.
  intros. unfold plot. rewrite <- same_len_iff. destruct (same_len x (Some y)); split; intros H; try discriminate H; try (destruct H; congruence).
  injection H as <-. auto.
Qed.
Lemma step_ok : forall lb x y r, step lb x y = POk r <-> r = [Steps lb x y] /\ length x = length y.
Proof.
  intros. unfold step. rewrite <- same_len_iff. destruct (same_len x (Some y)); split; intros H; try discriminate H; try (destruct H; congruence).
  injection H as <-. auto.
Qed.
Lemma band_ok : forall x lo hi r, band x lo hi = POk r <-> r = [Band x lo hi] /\ length x = length lo /\ length x = length hi.
Proof.
  intros. unfold band. rewrite <- !same_len_iff. destruct (same_len x (Some lo)), (same_len x (Some hi)); simpl; split; intros H; try discriminate H; try (destruct H as [? [? ?]]; congruence).
  injection H as <-. auto.
Qed.
Lemma draws_cons : forall x t r, draws (x :: t) = POk r <-> exists a b, x = POk a /\ draws t = POk b /\ r = (a ++ b)%list.
Proof.
  intros x t r. simpl. split.
  - intros H. apply bind_ok in H. destruct H as [a [Ha H]]. apply bind_ok in H. destruct H as [b [Hb [= <-]]]. exists a, b. auto.
  - intros [a [b [-> [-> ->]]]]. reflexivity.
Qed.
Lemma draws_nil : forall r, draws [] = POk r <-> r = [].
Proof. intros r. simpl. split; [intros [= <-]; auto|intros ->; auto]. Qed.

(** the median of the known values *)
Lemma somes_filter : forall (P : R -> bool) (l : col), length (List.filter P (somes l)) = length (List.filter (fun x => match x with Some x => P x | None => false end) l).
Proof. intros P. induction l as [|[x|] l IH]; simpl; auto. destruct (P x); simpl; auto. Qed.
Lemma median_middle : forall l m, median (somes l) = Some m -> middle l m.
Proof.
  intros l m H. apply median_halves in H. unfold middle. cbv zeta.
  assert (E : length (somes l) = length (List.filter (fun x => match x with Some _ => true | None => false end) l)).
  { clear. induction l as [|[x|] l IH]; simpl; auto. }
  rewrite <- E. unfold count in H. rewrite !somes_filter in H. exact H.
Qed.
Lemma median_some : forall l, (exists m, median (somes l) = Some m) <-> exists x, In (Some x) l.
Proof.
  intros l. split.
  - intros [m H]. destruct (somes l) as [|x t] eqn:E; [discriminate H|]. exists x. apply in_somes. rewrite E. simpl; auto.
  - intros [x Hx]. apply in_somes in Hx. unfold median. destruct (somes l) as [|y t]; [destruct Hx|]. eauto.
Qed.
Lemma modulus_known : forall a b r, pointwise modulus_of a b r -> (exists x, In (Some x) r) <-> exists i x y, (i < length r)%nat /\ nth i a None = Some x /\ nth i b None = Some y.
Proof.
  intros a b r [H1 [H2 H3]]. split.
  - intros [x Hx]. destruct (In_nth _ _ None Hx) as [i [Hi E]]. specialize (H3 i Hi). rewrite E in H3. unfold modulus_of in H3.
    destruct (nth i a None) as [u|] eqn:Ea, (nth i b None) as [v|] eqn:Eb; try discriminate H3. exists i, u, v. auto.
  - intros [i [x [y [Hi [Ea Eb]]]]]. specialize (H3 i Hi). rewrite Ea, Eb in H3. simpl in H3. exists (Cmod (x, y)). rewrite <- H3. apply nth_In, Hi.
Qed.

(* --------------------------------------------------------- p, q and u figure *)

(** the errors of p, from those of q and u, are at least zero *)
Lemma errors_modulus : forall a b r, pointwise modulus_of a b r -> errors_ok r.
Proof.
  intros a b r [H1 [H2 H3]] e He. destruct (In_nth _ _ None He) as [i [Hi E]]. specialize (H3 i Hi). rewrite E in H3. unfold modulus_of in H3.
  destruct (nth i a None), (nth i b None); try discriminate H3. injection H3 as ->. apply Cmod_ge_0.
Qed.

Theorem pqu_content : forall l2 q u dq du a, plot_pqu_vs_lamsq l2 q u None (Some dq) (Some du) None None None None None = POk a ->
  exists p dp, pointwise modulus_of q u p /\ pointwise modulus_of dq du dp /\
    drawn a = [Bars (s "Stokes q") l2 q None (Some dq); Bars (s "Stokes u") l2 u None (Some du); Bars (s "Intensity p") l2 p None (Some dp); HLine 0] /\
    margin (5 / 100) l2 (xlim a) /\
    exists y0 y1 mp mq mu, ylim a = Some (y0, y1) /\ middle dp mp /\ middle dq mq /\ middle du mu /\
      forall x, In (Some x) q \/ In (Some x) u \/ In (Some x) p ->
        y0 + 2 * mp <= x <= y1 - 2 * mp /\ y0 + 2 * mq <= x <= y1 - 2 * mq /\ y0 + 2 * mu <= x <= y1 - 2 * mu.
Proof.
  intros l2 q u dq du a H. unfold plot_pqu_vs_lamsq in H.
  apply bind_ok in H. destruct H as [p [Hp H]]. apply bind_ok in H. destruct H as [dp0 [Hdp H]].
  simpl opt2 in Hdp. apply bind_ok in Hdp. destruct Hdp as [dp [Hdp [= <-]]].
  apply zip2_hypot in Hp. apply zip2_hypot in Hdp. exists p, dp. split; [exact Hp|]. split; [exact Hdp|].
  apply bind_ok in H. destruct H as [ar [Ha H]]. apply bind_ok in H. destruct H as [xl [Hx H]].
  apply bind_ok in H. destruct H as [[p0 p1] [Sp H]]. apply bind_ok in H. destruct H as [[q0 q1] [Sq H]]. apply bind_ok in H. destruct H as [[u0 u1] [Su H]].
  cbv zeta in H. unfold med_err in H. simpl pybind in H.
  destruct (median (somes dp)) as [mp|] eqn:Ep; [|discriminate H]. destruct (median (somes dq)) as [mq|] eqn:Eq; [|discriminate H]. destruct (median (somes du)) as [mu|] eqn:Eu; [|discriminate H].
  injection H as <-. cbn [drawn xlim ylim fst snd].
  repeat (apply draws_cons in Ha; let a1 := fresh "a" in let b1 := fresh "b" in let h := fresh "H" in destruct Ha as [a1 [b1 [h [Ha ->]]]]).
  apply draws_nil in Ha. subst. cbn in H2, H3, H4, H5. apply errorbar_ok in H. destruct H as [-> _]. apply errorbar_ok in H0. destruct H0 as [-> _]. apply errorbar_ok in H1. destruct H1 as [-> _].
  injection H2 as <-. injection H3 as <-. injection H4 as <-. injection H5 as <-. split; [reflexivity|].
  split; [apply limits_ok, Hx|].
  apply span_ok in Sp. apply span_ok in Sq. apply span_ok in Su. destruct Sp as [[P1 P2] [P3 P4]]. destruct Sq as [[Q1 Q2] [Q3 Q4]]. destruct Su as [[U1 U2] [U3 U4]].
  eexists. eexists. exists mp, mq, mu. split; [reflexivity|]. split; [apply median_middle, Ep|]. split; [apply median_middle, Eq|]. split; [apply median_middle, Eu|].
  set (yM := Rmax (Rmax p1 q1) u1). set (ym := Rmin (Rmin p0 q0) u0). set (me := Rmax (Rmax mp mq) mu).
  assert (G1 : p1 <= yM /\ q1 <= yM /\ u1 <= yM).
  { unfold yM. pose proof (Rmax_l (Rmax p1 q1) u1). pose proof (Rmax_r (Rmax p1 q1) u1). pose proof (Rmax_l p1 q1). pose proof (Rmax_r p1 q1). lra. }
  assert (G2 : ym <= p0 /\ ym <= q0 /\ ym <= u0).
  { unfold ym. pose proof (Rmin_l (Rmin p0 q0) u0). pose proof (Rmin_r (Rmin p0 q0) u0). pose proof (Rmin_l p0 q0). pose proof (Rmin_r p0 q0). lra. }
  assert (G3 : mp <= me /\ mq <= me /\ mu <= me).
  { unfold me. pose proof (Rmax_l (Rmax mp mq) mu). pose proof (Rmax_r (Rmax mp mq) mu). pose proof (Rmax_l mp mq). pose proof (Rmax_r mp mq). lra. }
  assert (G4 : q0 <= q1) by (apply Q2, Q3).
  intros x Hxx. assert (ym <= x <= yM).
  { destruct Hxx as [h|[h|h]]; [pose proof (Q2 x h); pose proof (Q4 x h)|pose proof (U2 x h); pose proof (U4 x h)|pose proof (P2 x h); pose proof (P4 x h)]; lra. }
  lra.
Qed.

Theorem pqu_runs : forall l2 q u dq du,
  (exists a, plot_pqu_vs_lamsq l2 q u None (Some dq) (Some du) None None None None None = POk a) <->
  length q = length l2 /\ length u = length l2 /\ length dq = length l2 /\ length du = length l2 /\ errors_ok dq /\ errors_ok du /\
  (exists x, In (Some x) l2) /\ (exists i x y, (i < length l2)%nat /\ nth i q None = Some x /\ nth i u None = Some y) /\
  (exists i x y, (i < length l2)%nat /\ nth i dq None = Some x /\ nth i du None = Some y).
Proof.
  intros l2 q u dq du. split.
  - intros [a H]. unfold plot_pqu_vs_lamsq in H.
    apply bind_ok in H. destruct H as [p [Hp H]]. apply bind_ok in H. destruct H as [dp0 [Hdp H]].
    simpl opt2 in Hdp. apply bind_ok in Hdp. destruct Hdp as [dp [Hdp [= <-]]].
    apply zip2_hypot in Hp. apply zip2_hypot in Hdp.
    apply bind_ok in H. destruct H as [ar [Ha H]]. apply bind_ok in H. destruct H as [xl [Hx H]].
    apply bind_ok in H. destruct H as [sp [Sp H]]. apply bind_ok in H. destruct H as [sq [Sq H]]. apply bind_ok in H. destruct H as [su [Su H]].
    cbv zeta in H. unfold med_err in H. simpl pybind in H. destruct (median (somes dp)) as [mp|] eqn:Ep; [|discriminate H].
    repeat (apply draws_cons in Ha; let a1 := fresh "a" in let b1 := fresh "b" in let h := fresh "H" in destruct Ha as [a1 [b1 [h [Ha ->]]]]).
    apply errorbar_ok in H0. apply errorbar_ok in H1. apply errorbar_ok in H2. simpl in H0, H1, H2. destruct H0 as [_ [E1 [_ [E2 [_ E3]]]]]. destruct H1 as [_ [E4 [_ [E5 [_ E6]]]]]. destruct H2 as [_ [E7 [_ [E8 [_ _]]]]].
    repeat (split; [solve [auto; lia]|]). split; [apply (limits_runs (5 / 100)); eauto|]. split.
    + assert (exists x, In (Some x) p) as K by (apply span_runs; eauto). apply (modulus_known _ _ _ Hp) in K. rewrite E7. exact K.
    + assert (exists x, In (Some x) dp) as K by (apply median_some; eauto). apply (modulus_known _ _ _ Hdp) in K. rewrite E8. exact K.
  - intros [L1 [L2 [L3 [L4 [N1 [N2 [K1 [K2 K3]]]]]]]].
    destruct (proj2 (zip2_runs hypot q u) ltac:(lia)) as [p Hp]. destruct (proj2 (zip2_runs hypot dq du) ltac:(lia)) as [dp Hdp].
    pose proof (proj1 (zip2_hypot _ _ _) Hp) as Pp. pose proof (proj1 (zip2_hypot _ _ _) Hdp) as Pd.
    assert (Lp : length p = length l2) by (destruct Pp; lia). assert (Ld : length dp = length l2) by (destruct Pd; lia).
    unfold plot_pqu_vs_lamsq. rewrite Hp. simpl opt2. rewrite Hdp. cbn [pybind].
    assert (D : exists ar, draws [errorbar (s "Stokes q") l2 q None (Some dq); errorbar (s "Stokes u") l2 u None (Some du); errorbar (s "Intensity p") l2 p None (Some dp); plot_opt (s "Model q") l2 None; plot_opt (s "Model u") l2 None; pybind (POk None) (plot_opt (s "Model p") l2); POk []] = POk ar).
    { rewrite (proj2 (errorbar_ok (s "Stokes q") l2 q None (Some dq) _) ltac:(simpl; repeat split; auto)).
      rewrite (proj2 (errorbar_ok (s "Stokes u") l2 u None (Some du) _) ltac:(simpl; repeat split; auto)).
      rewrite (proj2 (errorbar_ok (s "Intensity p") l2 p None (Some dp) _) ltac:(simpl; repeat split; auto; eapply errors_modulus; eauto)).
      eexists. reflexivity. }
    destruct D as [ar D]. cbv zeta. cbn [pybind opt2] in D |- *. rewrite D. cbn [pybind].
    destruct (proj2 (limits_runs (5 / 100) l2) K1) as [xl ->]. cbn [pybind].
    destruct (proj2 (span_runs p)) as [sp ->]. { apply (modulus_known _ _ _ Pp). rewrite Lp. exact K2. } cbn [pybind].
    destruct (proj2 (span_runs q)) as [sq ->]. { destruct K2 as [i [x [y [Hi [E1 _]]]]]. exists x. rewrite <- E1. apply nth_In. lia. } cbn [pybind].
    destruct (proj2 (span_runs u)) as [su ->]. { destruct K2 as [i [x [y [Hi [_ E1]]]]]. exists y. rewrite <- E1. apply nth_In. lia. } cbn [pybind].
    unfold med_err. cbn [pybind].
    destruct (proj2 (median_some dp)) as [mp ->]. { apply (modulus_known _ _ _ Pd). rewrite Ld. exact K3. }
    destruct (proj2 (median_some dq)) as [mq ->]. { destruct K3 as [i [x [y [Hi [E1 _]]]]]. exists x. rewrite <- E1. apply nth_In. lia. }
    destruct (proj2 (median_some du)) as [mu ->]. { destruct K3 as [i [x [y [Hi [_ E1]]]]]. exists y. rewrite <- E1. apply nth_In. lia. }
    eauto.
Qed.

(** without errors the figure of p, q and u cannot be made; the others can *)
Theorem pqu_needs_errors : forall l2 q u p0 dq du l2h qm um smp, dq = None \/ du = None ->
  plot_pqu_vs_lamsq l2 q u p0 dq du None l2h qm um smp = PErr.
Proof.
  intros l2 q u p0 dq du l2h qm um smp H. unfold plot_pqu_vs_lamsq. destruct (match p0 with Some p => POk p | None => zip2 hypot q u end) as [p|]; auto. cbn [pybind].
  assert (E : opt2 (zip2 hypot) dq du = POk None) by (destruct H as [->| ->]; auto; destruct dq; auto). rewrite E. cbn [pybind].
  match goal with |- context [draws ?l] => destruct (draws l); auto end. cbn [pybind].
  destruct (limits (5 / 100) l2); auto. cbn [pybind]. destruct (span p); auto. cbn [pybind]. destruct (span q); auto. cbn [pybind]. destruct (span u); auto.
Qed.
Lemma zip2_len : forall f a b r, zip2 f a b = POk r -> length a = length r /\ length b = length r.
Proof. intros f a b r H. apply zip2_ok in H. tauto. Qed.
Theorem others_without_errors : forall l2 q u, length q = length l2 -> length u = length l2 ->
  (exists x, In (Some x) l2) -> (exists x, In (Some x) q) -> (exists x, In (Some x) u) ->
  (exists a, plot_PQU_vs_nu l2 q u None None None None None = POk a) /\
  (exists a, plot_psi_vs_lamsq l2 q u None None None None None None = POk a) /\
  (exists a, plot_q_vs_u l2 q u None None None None None = POk a).
Proof.
  intros l2 q u L1 L2 K1 K2 K3. split; [|split].
  - unfold plot_PQU_vs_nu. destruct (proj2 (zip2_runs hypot q u) ltac:(lia)) as [p Hp]. rewrite Hp. cbn [pybind opt2]. destruct (zip2_len _ _ _ _ Hp).
    assert (G : length (ghz l2) = length l2) by apply map_length.
    rewrite (proj2 (errorbar_ok (s "Stokes Q") (ghz l2) q None None _) ltac:(simpl; repeat split; auto; lia)).
    rewrite (proj2 (errorbar_ok (s "Stokes U") (ghz l2) u None None _) ltac:(simpl; repeat split; auto; lia)).
    rewrite (proj2 (errorbar_ok (s "Intensity P") (ghz l2) p None None _) ltac:(simpl; repeat split; auto; lia)). cbn [draws pybind plot_opt].
    destruct (proj2 (limits_runs (5 / 100) (ghz l2))) as [xl ->].
    { destruct K1 as [x Hx]. exists (x / 1000000000). apply (in_map (option_map (fun x => x / 1000000000)) _ _ Hx). }
    simpl. eauto.
  - unfold plot_psi_vs_lamsq. destruct (proj2 (zip2_runs (o2 psi_deg) u q) ltac:(lia)) as [p Hp]. rewrite Hp. cbn [pybind]. destruct (zip2_len _ _ _ _ Hp).
    rewrite (proj2 (errorbar_ok [] l2 p None None _) ltac:(simpl; repeat split; auto; lia)). cbn [draws pybind].
    destruct (proj2 (limits_runs (5 / 100) l2) K1) as [xl ->]. simpl. eauto.
  - unfold plot_q_vs_u. rewrite (proj2 (errorbar_ok [] q u None None _) ltac:(simpl; repeat split; auto; lia)). cbn [draws pybind].
    rewrite (proj2 (same_len_iff l2 q)) by auto.
    destruct (proj2 (limits_runs (5 / 100) q) K2) as [xl ->]. destruct (proj2 (limits_runs (5 / 100) u) K3) as [yl ->]. simpl. eauto.
Qed.

(* ----------------------------------------------------------------- errors *)

Lemma errorbar_neg : forall lb x y dx dy e, (match dx with Some d => In (Some e) d | None => False end) \/ (match dy with Some d => In (Some e) d | None => False end) -> e < 0 ->
  errorbar lb x y dx dy = PErr.
Proof.
  intros lb x y dx dy e H He. destruct (errorbar lb x y dx dy) as [r|] eqn:E; auto. apply errorbar_ok in E. destruct E as [_ [_ [_ [_ [E1 E2]]]]].
  exfalso. destruct H as [H|H]; [destruct dx as [d|]|destruct dy as [d|]]; try contradiction; [specialize (E1 _ H)|specialize (E2 _ H)]; lra.
Qed.
(** one negative error and no figure *)
Theorem negative_error : forall d l2 q u p0 dp du l2h qm um smp e, In (Some e) d -> e < 0 ->
  plot_pqu_vs_lamsq l2 q u p0 (Some d) du dp l2h qm um smp = PErr /\
  plot_q_vs_u l2 q u (Some d) du qm um smp = PErr /\
  plot_PQU_vs_nu l2 q u (Some d) du l2h qm um = PErr /\
  forall fr I dI fh IM, plot_Ipqu fr I q u dI (Some d) du fh IM qm um smp = PErr.
Proof.
  intros d l2 q u p0 dp du l2h qm um smp e He H.
  assert (A : forall l2 p0 dp l2h, plot_pqu_vs_lamsq l2 q u p0 (Some d) du dp l2h qm um smp = PErr).
  { clear l2 p0 dp l2h. intros l2 p0 dp l2h. unfold plot_pqu_vs_lamsq. destruct (match p0 with Some p => POk p | None => zip2 hypot q u end) as [p|]; auto. cbn [pybind].
    destruct (match dp with Some d1 => POk (Some d1) | None => opt2 (zip2 hypot) (Some d) du end) as [dp1|]; auto. cbn [pybind draws].
    rewrite (errorbar_neg _ _ _ _ (Some d) e) by auto. reflexivity. }
  split; [apply A|]. split; [|split].
  - unfold plot_q_vs_u. cbn [draws]. rewrite (errorbar_neg _ _ _ (Some d) du e) by auto. reflexivity.
  - unfold plot_PQU_vs_nu. destruct (zip2 hypot q u) as [p|]; auto. cbn [pybind]. destruct (opt2 (zip2 hypot) (Some d) du); auto. cbn [pybind draws].
    rewrite (errorbar_neg _ _ _ _ (Some d) e) by auto. reflexivity.
  - intros fr I dI fh IM. unfold plot_Ipqu. cbv zeta. destruct (plot_I_vs_nu _ _ _ _ _); auto. cbn [pybind]. rewrite A. reflexivity.
Qed.
(** the figure of the angle does not care *)
Lemma dpsi_abs : forall q u dq du, dpsi_deg q u dq du = dpsi_deg q u (Rabs dq) (Rabs du).
Proof.
  intros. unfold dpsi_deg. cbv zeta. assert (E : (q * Rabs du) ^ 2 + (u * Rabs dq) ^ 2 = (q * du) ^ 2 + (u * dq) ^ 2) by (rewrite !Rpow_mult_distr, !pow2_abs; reflexivity).
  rewrite E. reflexivity.
Qed.
Lemma zip4_abs : forall q u dq du, zip4 q u dq du = zip4 q u (map (option_map Rabs) dq) (map (option_map Rabs) du).
Proof.
  induction q as [|a q IH]; intros [|b u] [|c dq] [|e du]; simpl; auto. rewrite IH. f_equal.
  destruct a as [a|], b as [b|], c as [c|], e as [e|]; simpl; auto. rewrite dpsi_abs. reflexivity.
Qed.
Theorem psi_any_sign : forall l2 q u dq du l2h qm um smp,
  plot_psi_vs_lamsq l2 q u (Some dq) (Some du) l2h qm um smp = plot_psi_vs_lamsq l2 q u (Some (map (option_map Rabs) dq)) (Some (map (option_map Rabs) du)) l2h qm um smp.
Proof. intros. unfold plot_psi_vs_lamsq. rewrite zip4_abs. reflexivity. Qed.

(** the bar of p is longer than the error of p *)
Lemma derive_hyp : forall q u, 0 < q ^ 2 + u ^ 2 -> is_derive (fun t => Cmod (t, u)) q (q / Cmod (q, u)) /\ is_derive (fun t => Cmod (q, t)) u (u / Cmod (q, u)).
Proof.
  intros q u H. unfold Cmod. simpl fst. simpl snd.
  assert (P : 0 < sqrt (q ^ 2 + u ^ 2)) by (apply sqrt_lt_R0, H).
  split; (auto_derive; [simpl in *; lra|]; simpl; match goal with |- context [sqrt ?x] => replace x with (q ^ 2 + u ^ 2) by ring end; field; lra).
Qed.
Theorem p_error : forall q u dq du e, (q, u) <> (0, 0) -> propagated (fun q u => Cmod (q, u)) q u dq du e ->
  e ^ 2 = ((q * dq) ^ 2 + (u * du) ^ 2) / (q ^ 2 + u ^ 2) /\ 0 <= e <= Cmod (dq, du) /\
  (e = Cmod (dq, du) <-> u * dq = 0 /\ q * du = 0).
Proof.
  intros q u dq du e Z [fx [fy [D1 [D2 ->]]]].
  assert (S0 : 0 < q ^ 2 + u ^ 2).
  { destruct (Req_dec q 0) as [->|Hq]; [destruct (Req_dec u 0) as [->|Hu]; [contradiction Z; auto|]|].
    - assert (0 < u ^ 2) by (rewrite <- Rsqr_pow2; apply Rsqr_pos_lt; auto). nra.
    - assert (0 < q ^ 2) by (rewrite <- Rsqr_pow2; apply Rsqr_pos_lt; auto). nra. }
  destruct (derive_hyp q u S0) as [E1 E2]. apply is_derive_unique in E1. apply is_derive_unique in E2. apply is_derive_unique in D1. apply is_derive_unique in D2.
  pose proof (eq_trans (eq_sym D1) E1) as F1. pose proof (eq_trans (eq_sym D2) E2) as F2. rewrite F1, F2. clear D1 D2 E1 E2 F1 F2.
  assert (P : 0 < Cmod (q, u)) by (rewrite cmod_hyp; apply sqrt_lt_R0, S0).
  assert (P2 : Cmod (q, u) ^ 2 = q ^ 2 + u ^ 2) by (rewrite cmod_hyp, <- Rsqr_pow2, Rsqr_sqrt by lra; reflexivity).
  assert (N : (q / Cmod (q, u) * dq) ^ 2 + (u / Cmod (q, u) * du) ^ 2 = ((q * dq) ^ 2 + (u * du) ^ 2) / (q ^ 2 + u ^ 2)).
  { rewrite <- P2. field. lra. }
  assert (Pos : 0 <= ((q * dq) ^ 2 + (u * du) ^ 2) / (q ^ 2 + u ^ 2)).
  { apply Rmult_le_pos; [pose proof (pow2_ge_0 (q * dq)); pose proof (pow2_ge_0 (u * du)); lra|left; apply Rinv_0_lt_compat; lra]. }
  assert (D : dq ^ 2 + du ^ 2 - ((q * dq) ^ 2 + (u * du) ^ 2) / (q ^ 2 + u ^ 2) = ((u * dq) ^ 2 + (q * du) ^ 2) / (q ^ 2 + u ^ 2)) by (field; lra).
  assert (Pos2 : 0 <= ((u * dq) ^ 2 + (q * du) ^ 2) / (q ^ 2 + u ^ 2)).
  { apply Rmult_le_pos; [pose proof (pow2_ge_0 (u * dq)); pose proof (pow2_ge_0 (q * du)); lra|left; apply Rinv_0_lt_compat; lra]. }
  rewrite N. split; [|split; [split|]].
  - rewrite <- Rsqr_pow2. apply Rsqr_sqrt, Pos.
  - apply sqrt_pos.
  - rewrite cmod_hyp. apply sqrt_le_1_alt. lra.
  - rewrite cmod_hyp. split.
    + intros E. apply sqrt_inj in E; [|exact Pos|pose proof (pow2_ge_0 dq); pose proof (pow2_ge_0 du); lra].
      assert (E0 : ((u * dq) ^ 2 + (q * du) ^ 2) / (q ^ 2 + u ^ 2) = 0) by lra.
      assert (E3 : (u * dq) ^ 2 + (q * du) ^ 2 = 0).
      { apply (Rmult_eq_reg_r (/ (q ^ 2 + u ^ 2))); [rewrite Rmult_0_l; exact E0|apply Rinv_neq_0_compat; lra]. }
      pose proof (pow2_ge_0 (u * dq)). pose proof (pow2_ge_0 (q * du)). split; apply Rsqr_0_uniq; rewrite Rsqr_pow2; lra.
    + intros [E3 E4]. f_equal. rewrite E3, E4 in D. assert ((0 ^ 2 + 0 ^ 2) / (q ^ 2 + u ^ 2) = 0) by (field; lra). lra.
Qed.
(** with equal errors it is too long by the root of two *)
Theorem p_error_equal : forall q u d e, (q, u) <> (0, 0) -> 0 <= d -> propagated (fun q u => Cmod (q, u)) q u d d e -> e = d /\ Cmod (d, d) = sqrt 2 * e.
Proof.
  intros q u d e Z Hd H. destruct (p_error _ _ _ _ _ Z H) as [E [[E0 _] _]].
  assert (S0 : q ^ 2 + u ^ 2 <> 0).
  { intros E1. apply Z. pose proof (pow2_ge_0 q). pose proof (pow2_ge_0 u). f_equal; apply Rsqr_0_uniq; rewrite Rsqr_pow2; lra. }
  assert (E2 : e ^ 2 = d ^ 2) by (rewrite E; field; exact S0).
  assert (e = d) as ->. { apply Rsqr_inj; auto. rewrite !Rsqr_pow2. exact E2. }
  split; auto. rewrite cmod_hyp. replace (d ^ 2 + d ^ 2) with (2 * d ^ 2) by ring. rewrite sqrt_mult by (try lra; apply pow2_ge_0). rewrite sqrt_pow2 by auto. reflexivity.
Qed.
Lemma propagated_mod : forall q u dq du, (q, u) <> (0, 0) -> exists e, propagated (fun q u => Cmod (q, u)) q u dq du e.
Proof.
  intros q u dq du Z. assert (S0 : 0 < q ^ 2 + u ^ 2).
  { assert (q ^ 2 + u ^ 2 <> 0). { intros E1. apply Z. pose proof (pow2_ge_0 q). pose proof (pow2_ge_0 u). f_equal; apply Rsqr_0_uniq; rewrite Rsqr_pow2; lra. }
    pose proof (pow2_ge_0 q). pose proof (pow2_ge_0 u). lra. }
  destruct (derive_hyp q u S0) as [E1 E2]. eexists. exists (q / Cmod (q, u)), (u / Cmod (q, u)). split; [exact E1|]. split; [exact E2|reflexivity].
Qed.
(** so the bars drawn are not the errors of p *)
Theorem p_bar_refuted : ~ (forall l2 q u dq du a, plot_pqu_vs_lamsq l2 q u None (Some dq) (Some du) None None None None None = POk a ->
  forall lb x y d, In (Bars lb x y None (Some d)) (drawn a) -> lb = s "Intensity p" ->
  forall i q0 u0 dq0 du0 e, (i < length l2)%nat -> nth i q None = Some q0 -> nth i u None = Some u0 -> nth i dq None = Some dq0 -> nth i du None = Some du0 ->
    (q0, u0) <> (0, 0) -> propagated (fun q u => Cmod (q, u)) q0 u0 dq0 du0 e -> nth i d None = Some e).
Proof.
  intros H.
  assert (exists a, plot_pqu_vs_lamsq [Some 1] [Some 1] [Some 1] None (Some [Some 1]) (Some [Some 1]) None None None None None = POk a) as [a Ha].
  { apply pqu_runs. simpl. repeat split; auto; try (intros e [E|[]]; injection E; lra); [exists 1; auto|exists 0%nat, 1, 1; auto|exists 0%nat, 1, 1; auto]. }
  destruct (pqu_content _ _ _ _ _ _ Ha) as [p [dp [_ [[D1 [_ D3]] [Dr _]]]]]. simpl in D1.
  assert (Z : (1, 1) <> (0, 0)) by (intros E; injection E; lra). destruct (propagated_mod 1 1 1 1 Z) as [e He].
  assert (K : nth 0 dp None = Some e).
  { eapply (H _ _ _ _ _ a Ha (s "Intensity p")) with (q0 := 1) (u0 := 1) (dq0 := 1) (du0 := 1); try exact Z; try exact He; try reflexivity; try (simpl; lia).
    rewrite Dr. simpl. right. right. left. reflexivity. }
  specialize (D3 0%nat ltac:(lia)). simpl in D3. rewrite K in D3. injection D3 as E. destruct (p_error_equal 1 1 1 e Z ltac:(lra) He) as [-> E2].
  rewrite E2 in E. assert (1 < sqrt 2) by (rewrite <- sqrt_1 at 1; apply sqrt_lt_1; lra). lra.
Qed.

(** the limits of the figure do not hold the bars *)
Theorem limits_bars_refuted : ~ (forall l2 q u dq du a y0 y1, plot_pqu_vs_lamsq l2 q u None (Some dq) (Some du) None None None None None = POk a -> ylim a = Some (y0, y1) ->
  forall i q0 dq0, nth i q None = Some q0 -> nth i dq None = Some dq0 -> y0 <= q0 - dq0 /\ q0 + dq0 <= y1).
Proof.
  intros H.
  destruct (proj2 (pqu_runs [Some 1; Some 2; Some 3] [Some 1; Some 1; Some 1] [Some 0; Some 0; Some 0] [Some 0; Some 0; Some 10] [Some 0; Some 0; Some 0])) as [a Ha].
  { simpl. repeat split; auto; try (intros e [E|[E|[E|[]]]]; injection E; lra); [exists 1; auto|exists 0%nat, 1, 0; split; auto; lia|exists 0%nat, 0, 0; split; auto; lia]. }
  pose proof Ha as Ha'. unfold plot_pqu_vs_lamsq in Ha. apply bind_ok in Ha. destruct Ha as [p [Hp Ha]]. injection Hp as <-.
  apply bind_ok in Ha. destruct Ha as [dp [Hdp Ha]]. simpl in Hdp. injection Hdp as <-.
  apply bind_ok in Ha. destruct Ha as [ar [_ Ha]]. apply bind_ok in Ha. destruct Ha as [xl [_ Ha]].
  unfold span in Ha. simpl somes in Ha. cbn [pybind med_err] in Ha.
  assert (M : forall x y, x <= y -> median [x; x; y] = Some x).
  { intros x y Hxy. rewrite (median_of_sorted [x; x; y] [x; x; y]); [reflexivity|discriminate|apply Permutation.Permutation_refl|].
    repeat (apply Sorted.SSorted_cons || apply Sorted.SSorted_nil || apply Forall_cons || apply List.Forall_nil); lra. }
  assert (E1 : sqrt (0 ^ 2 + 0 ^ 2) = 0) by (replace (0 ^ 2 + 0 ^ 2) with 0 by ring; apply sqrt_0).
  assert (E2 : sqrt (10 ^ 2 + 0 ^ 2) = 10) by (replace (10 ^ 2 + 0 ^ 2) with (10 ^ 2) by ring; apply sqrt_pow2; lra).
  assert (E3 : sqrt (1 ^ 2 + 0 ^ 2) = 1) by (replace (1 ^ 2 + 0 ^ 2) with 1 by ring; apply sqrt_1).
  unfold hypot, o2 in Ha. simpl pow in Ha, E1, E2, E3. rewrite E1, E2, E3 in Ha. cbn [somes flat_map app] in Ha. rewrite !M in Ha by lra. injection Ha as <-. cbn [ylim fold_right fst snd] in H.
  specialize (H _ _ _ _ _ _ _ _ Ha' eq_refl 2%nat 1 10 eq_refl eq_refl). destruct H as [_ H].
  assert (F1 : forall x, Rmax x x = x) by (intros; apply Rmax_left; lra). assert (F2 : forall x, Rmin x x = x) by (intros; apply Rmin_left; lra).
  rewrite !F1, !F2 in H. rewrite (Rmax_left 1 0), (Rmin_right 1 0) in H by lra. lra.
Qed.
