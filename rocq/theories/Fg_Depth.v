(** Proofs about the spectra figures: colours, depth spectra, complexity. *)
From Coq Require Import Reals List Arith ZArith Bool Ascii String Lra Lia Psatz Permutation Sorted.
Set Warnings "-ambiguous-paths".
From Coquelicot Require Import Coquelicot.
From Verif Require Import CBase PyRes PyStr PyList Measure_Model Median_Proofs Measure_Proofs Pl_Model Fg_Model Fg_Spec Fg_Proofs.
Import ListNotations.
Local Notation length := List.length.
Local Open Scope R_scope.

Lemma nth_opt_map : forall A B (g : option A -> option B) l i, (i < length l)%nat -> nth i (map g l) None = g (nth i l None).
Proof. intros A B g l i H. rewrite (nth_indep _ None (g None)) by (rewrite map_length; exact H). apply map_nth. Qed.
Lemma each_map : forall A (rel : option A -> option R -> Prop) g l, (forall x, rel x (g x)) -> each rel l (map g l).
Proof. intros A rel g l H. split; [apply map_length|]. intros i Hi. rewrite nth_opt_map by exact Hi. apply H. Qed.

(* ------------------------------------------------------- the figure of four *)

(** the axes in GHz and square metres, and the colours in Hz *)
Theorem Ipqu_axes : forall freq I q u dI dq du fh IM qm um smp a1 a2 a3 a4 c, plot_Ipqu freq I q u dI dq du fh IM qm um smp = POk (a1, a2, a3, (a4, c)) ->
  exists nu l2 psi p dp dpsi, each (fun f r => match f with Some f => r = Some (f / 10 ^ 9) | None => r = None end) freq nu /\
    each (fun f r => match f with Some f => (f <> 0 -> r = Some ((299792458 / f) ^ 2)) /\ (f = 0 -> r = None) | None => r = None end) freq l2 /\
    In (Bars (s "Stokes I") nu I None dI) (drawn a1) /\ In (Bars (s "Stokes q") l2 q None dq) (drawn a2) /\ In (Bars (s "Stokes u") l2 u None du) (drawn a2) /\
    In (Bars (s "Intensity p") l2 p None dp) (drawn a2) /\ In (Bars [] l2 psi None dpsi) (drawn a3) /\ In (Bars [] q u dq du) (drawn a4) /\
    length c = length freq /\ forall i f, nth i freq None = Some f -> f <> 0 -> nth i c None = Some (Rabs f).
Proof.
  intros freq I q u dI dq du fh IM qm um smp a1 a2 a3 a4 c H. unfold plot_Ipqu in H. cbv zeta in H. set (hir := match fh with Some h => h | None => freq end) in *.
  apply bind_ok in H. destruct H as [b1 [H1 H]]. apply bind_ok in H. destruct H as [b2 [H2 H]]. apply bind_ok in H. destruct H as [b3 [H3 H]]. apply bind_ok in H. destruct H as [[b4 c0] [H4 [= <- <- <- <- <-]]].
  unfold plot_I_vs_nu in H1. apply bind_ok in H1. destruct H1 as [r1 [D1 H1]]. apply bind_ok in H1. destruct H1 as [x1 [_ [= <-]]]. apply draws_cons in D1. destruct D1 as [e1 [f1 [E1 [_ ->]]]]. apply errorbar_ok in E1. destruct E1 as [-> _].
  unfold plot_pqu_vs_lamsq in H2. apply bind_ok in H2. destruct H2 as [p [_ H2]]. apply bind_ok in H2. destruct H2 as [dp [_ H2]]. apply bind_ok in H2. destruct H2 as [ar [Ha H]].
  apply bind_ok in H. destruct H as [xl [_ H]]. apply bind_ok in H. destruct H as [sp [_ H]]. apply bind_ok in H. destruct H as [sq [_ H]]. apply bind_ok in H. destruct H as [su [_ H]].
  apply bind_ok in H. destruct H as [g1 [_ H]]. apply bind_ok in H. destruct H as [g2 [_ H]]. apply bind_ok in H. destruct H as [g3 [_ H]].
  destruct g1 as [g1|]; [|discriminate H]. destruct g2 as [g2|]; [|discriminate H]. destruct g3 as [g3|]; [|discriminate H]. injection H as <-.
  apply draws_cons in Ha. destruct Ha as [w1 [v1 [W1 [Ha ->]]]]. apply draws_cons in Ha. destruct Ha as [w2 [v2 [W2 [Ha ->]]]]. apply draws_cons in Ha. destruct Ha as [w3 [v3 [W3 [_ ->]]]].
  apply errorbar_ok in W1. destruct W1 as [-> _]. apply errorbar_ok in W2. destruct W2 as [-> _]. apply errorbar_ok in W3. destruct W3 as [-> _].
  unfold plot_psi_vs_lamsq in H3. apply bind_ok in H3. destruct H3 as [psi [_ H3]]. apply bind_ok in H3. destruct H3 as [dpsi [_ H3]]. apply bind_ok in H3. destruct H3 as [ar3 [Ha3 H3]]. apply bind_ok in H3. destruct H3 as [x3 [_ [= <-]]].
  apply draws_cons in Ha3. destruct Ha3 as [y1 [z1 [Y1 [_ ->]]]]. apply errorbar_ok in Y1. destruct Y1 as [-> _].
  unfold plot_q_vs_u in H4. apply bind_ok in H4. destruct H4 as [ar4 [Ha4 H4]]. apply draws_cons in Ha4. destruct Ha4 as [y2 [z2 [Y2 [_ ->]]]]. apply errorbar_ok in Y2. destruct Y2 as [-> _].
  destruct (same_len (map lamsq freq) (Some q)); [|discriminate H4]. apply bind_ok in H4. destruct H4 as [x4 [_ H4]]. apply bind_ok in H4. destruct H4 as [x5 [_ [= <- <-]]].
  exists (ghz freq), (map lamsq freq), psi, p, dp, dpsi. cbn [drawn].
  split; [apply each_map; intros [f|]; simpl; auto; f_equal; lra|].
  split. { apply each_map. intros [f|]; simpl; auto. destruct (Req_EM_T f 0) as [->|n]; split; intros; auto; contradiction. }
  split; [simpl; auto|]. split; [simpl; auto|]. split; [simpl; auto|]. split; [simpl; auto|]. split; [simpl; auto|]. split; [simpl; auto|].
  split; [rewrite !map_length; reflexivity|]. intros i f Ef Hf.
  assert (Hi : (i < length freq)%nat). { destruct (Nat.lt_ge_cases i (length freq)) as [h|h]; auto. rewrite nth_overflow in Ef by exact h. discriminate Ef. }
  rewrite nth_opt_map by (rewrite map_length; exact Hi). rewrite nth_opt_map by exact Hi. rewrite Ef. simpl. destruct (Req_EM_T f 0) as [E|_]; [contradiction|].
  assert (P0 : 0 < Rabs f) by (apply Rabs_pos_lt, Hf).
  assert (Q : 0 < (299792458 / f) ^ 2). { rewrite <- Rsqr_pow2. apply Rsqr_pos_lt. unfold Rdiv. apply Rmult_integral_contrapositive. split; [lra|apply Rinv_neq_0_compat, Hf]. }
  unfold freq_of. change (299792458 / f * (299792458 / f * 1)) with ((299792458 / f) ^ 2). destruct (Rlt_dec 0 ((299792458 / f) ^ 2)) as [_|n]; [|contradiction].
  f_equal. rewrite <- Rsqr_pow2, sqrt_Rsqr_abs. unfold Rdiv. rewrite Rabs_mult, Rabs_inv, (Rabs_pos_eq 299792458) by lra. field. lra.
Qed.

(* ------------------------------------------------------------ depth spectra *)

Lemma hypot_parts : forall z : option C, hypot (oRe z) (oIm z) = oMod z.
Proof. intros [[x y]|]; reflexivity. Qed.
Lemma part_re : forall l, each (part Re) l (map oRe l).
Proof. intros. apply each_map. intros [z|]; reflexivity. Qed.
Lemma part_im : forall l, each (part Im) l (map oIm l).
Proof. intros. apply each_map. intros [z|]; reflexivity. Qed.
Lemma part_mod : forall l, each (part Cmod) l (map oMod l).
Proof. intros. apply each_map. intros [z|]; reflexivity. Qed.
Lemma part_hyp : forall l, each (part Cmod) l (map (fun z => hypot (oRe z) (oIm z)) l).
Proof. intros. apply each_map. intros z. rewrite hypot_parts. destruct z; reflexivity. Qed.

Lemma gauss_bell : forall a b w x, w <> 0 -> gauss_curve a b w x = Some (bell a b w x).
Proof.
  intros a b w x W. unfold gauss_curve, bell. assert (L2 : 0 < ln 2) by (rewrite <- ln_1; apply ln_increasing; lra).
  assert (Q : sqrt (2 * ln 2) ^ 2 = 2 * ln 2) by (rewrite <- Rsqr_pow2; apply Rsqr_sqrt; lra).
  assert (P : 0 < sqrt (2 * ln 2)) by (apply sqrt_lt_R0; lra).
  assert (E : 2 * (w / (2 * sqrt (2 * ln 2))) ^ 2 = w ^ 2 / (4 * ln 2)).
  { replace ((w / (2 * sqrt (2 * ln 2))) ^ 2) with (w ^ 2 / (4 * sqrt (2 * ln 2) ^ 2)) by (field; lra). rewrite Q. field. lra. }
  assert (W2 : 0 < w ^ 2) by (rewrite <- Rsqr_pow2; apply Rsqr_pos_lt; auto).
  assert (D : 0 < w ^ 2 / (4 * ln 2)) by (apply Rdiv_lt_0_compat; lra). rewrite E. destruct Req_EM_T as [q|_]; [lra|].
  f_equal. f_equal. f_equal. field. lra.
Qed.
Lemma peak_rel : forall a b w phi, w <> 0 -> each (fit_rel a b w) phi (map (fun x => gauss_at a b w (trunk b w x)) phi).
Proof.
  intros a b w phi W. apply each_map. intros [x|]; simpl; auto. split; intros H.
  - apply Rabs_le_between in H. destruct (Rle_dec (b - w / 3) x) as [_|n]; [|exfalso; apply n; lra]. destruct (Rle_dec x (b + w / 3)) as [_|n]; [|exfalso; apply n; lra].
    simpl. apply gauss_bell, W.
  - destruct (Rle_dec (b - w / 3) x) as [h1|_]; auto. destruct (Rle_dec x (b + w / 3)) as [h2|_]; auto. exfalso. assert (Rabs (x - b) <= w / 3) by (apply Rabs_le_between; lra). lra.
Qed.

Theorem dirty_content : forall phi FDF g vLine a, plot_dirtyFDF phi FDF g vLine = POk a ->
  margin (1 / 100) phi (xlim a) /\
  (exists re im p, each (part Re) FDF re /\ each (part Im) FDF im /\ each (part Cmod) FDF p /\
    In (Steps (s "Real") phi re) (drawn a) /\ In (Steps (s "Imaginary") phi im) (drawn a) /\ In (Steps (s "PI") phi p) (drawn a)) /\
  (forall h b w, g = [h; b; w] -> w <> 0 -> exists y, each (fit_rel h b w) phi y /\ In (Line (s "Peak Fit") phi y) (drawn a)) /\
  (forall v, vLine = Some (Some v) -> (v <> 0 <-> In (VLine (Some v)) (drawn a))).
Proof.
  intros phi FDF g vLine a H. unfold plot_dirtyFDF in H. apply bind_ok in H. destruct H as [ar [Ha H]]. apply bind_ok in H. destruct H as [xl [Hx [= <-]]]. cbn [xlim drawn].
  apply draws_cons in Ha. destruct Ha as [a1 [b1 [H1 [Ha ->]]]]. apply draws_cons in Ha. destruct Ha as [a2 [b2 [H2 [Ha ->]]]]. apply draws_cons in Ha. destruct Ha as [a3 [b3 [H3 [Ha ->]]]].
  apply draws_cons in Ha. destruct Ha as [a4 [b4 [H4 [Ha ->]]]]. apply draws_cons in Ha. destruct Ha as [a5 [b5 [H5 [Ha ->]]]]. apply draws_cons in Ha. destruct Ha as [a6 [b6 [H6 [Ha ->]]]]. apply draws_nil in Ha. subst b6.
  apply step_ok in H1. destruct H1 as [-> _]. apply step_ok in H2. destruct H2 as [-> _]. apply step_ok in H3. destruct H3 as [-> _]. injection H5 as <-. injection H6 as <-.
  split; [apply limits_ok, Hx|]. split; [|split].
  - eexists. eexists. eexists. split; [apply part_re|]. split; [apply part_im|]. split; [apply part_hyp|]. simpl. tauto.
  - intros h b w -> W. simpl in H4. apply plot_ok in H4. destruct H4 as [-> _]. eexists. split; [apply peak_rel, W|]. rewrite !in_app_iff; simpl; tauto.
  - intros v ->. unfold truthy. assert (N4 : forall y, ~ In (VLine y) a4).
    { unfold peak_fit in H4. destruct g as [|g0 [|g1 [|g2 [|g3 g]]]]; try (injection H4 as <-; intros y []). apply plot_ok in H4. destruct H4 as [-> _]. intros y [E|[]]. discriminate E. }
    destruct (Req_EM_T v 0) as [E|E]; simpl; rewrite ?in_app_iff; simpl; split; intros K; try contradiction; try tauto.
    exfalso. destruct K as [K|[K|[K|[K|[K|K]]]]]; try discriminate K; try contradiction. apply (N4 _ K).
Qed.
(** so a peak at depth zero has no line *)
Theorem peak_line_refuted : ~ (forall phi FDF g v a, plot_dirtyFDF phi FDF g (Some (Some v)) = POk a -> In (VLine (Some v)) (drawn a)).
Proof.
  intros H. destruct (plot_dirtyFDF [Some 0] [Some (1, 0)] [] (Some (Some 0))) as [a|] eqn:E.
  - pose proof (H _ _ _ _ _ E) as K. apply dirty_content in E. destruct E as [_ [_ [_ E]]]. apply (E 0 eq_refl) in K. lra.
  - unfold plot_dirtyFDF, step in E. simpl in E. discriminate E.
Qed.

Theorem rmsf_content : forall phi RMSF fwhm a, plot_RMSF phi RMSF fwhm = POk a ->
  margin (1 / 100) phi (xlim a) /\
  (exists re im p, each (part Re) RMSF re /\ each (part Im) RMSF im /\ each (part Cmod) RMSF p /\
    In (Steps (s "Real") phi re) (drawn a) /\ In (Steps (s "Imaginary") phi im) (drawn a) /\ In (Steps (s "PI") phi p) (drawn a)) /\
  (forall w, fwhm = Some w -> w <> 0 -> exists y, each (fun x y => match x with Some x => y = Some (bell 1 0 w x) | None => y = None end) phi y /\ In (Line (s "Gaussian") phi y) (drawn a)).
Proof.
  intros phi FDF g a H. unfold plot_RMSF in H. apply bind_ok in H. destruct H as [ar [Ha H]]. apply bind_ok in H. destruct H as [xl [Hx [= <-]]]. cbn [xlim drawn].
  apply draws_cons in Ha. destruct Ha as [a1 [b1 [H1 [Ha ->]]]]. apply draws_cons in Ha. destruct Ha as [a2 [b2 [H2 [Ha ->]]]]. apply draws_cons in Ha. destruct Ha as [a3 [b3 [H3 [Ha ->]]]].
  apply draws_cons in Ha. destruct Ha as [a4 [b4 [H4 [Ha ->]]]]. apply draws_cons in Ha. destruct Ha as [a5 [b5 [H5 [Ha ->]]]].
  apply step_ok in H1. destruct H1 as [-> _]. apply step_ok in H2. destruct H2 as [-> _]. apply step_ok in H3. destruct H3 as [-> _]. injection H4 as <-.
  split; [apply limits_ok, Hx|]. split.
  - eexists. eexists. eexists. split; [apply part_re|]. split; [apply part_im|]. split; [apply part_mod|]. simpl. tauto.
  - intros w -> W. apply plot_ok in H5. destruct H5 as [-> _]. eexists. split; [|rewrite !in_app_iff; simpl; tauto]. apply each_map. intros [x|]; simpl; auto. apply gauss_bell, W.
Qed.

(** the figure after cleaning: what is asked for and what is drawn *)
Theorem clean_fig : forall phi clean cc dirty resid g cutoff sc a1 a2, plot_cleanFDF_fig phi clean cc dirty resid g cutoff sc = POk (a1, a2) ->
  (exists p, each (part Cmod) clean p /\ In (Steps (s "PI") phi p) (drawn a1) /\ In (Steps (s "PI") phi p) (drawn a2)) /\
  (forall c, cc = Some c -> In (Steps (s "CC") phi c) (drawn a1) /\ In (Steps (s "CC") phi c) (drawn a2)) /\
  (forall d, dirty = Some d -> exists p, each (part Cmod) d p /\ In (Steps (s "Dirty") phi p) (drawn a1)) /\
  (forall r, resid = Some r -> exists p, each (part Cmod) r p /\ In (Steps (s "Dirty") phi p) (drawn a2)) /\
  (forall c, cutoff = Some c -> In (HLine c) (drawn a1) /\ In (HLine c) (drawn a2)) /\
  (forall x y, ~ In (Steps (s "Real") x y) (drawn a1) /\ ~ In (Steps (s "Real") x y) (drawn a2)).
Proof.
  intros phi clean cc dirty resid g cutoff sc a1 a2 H. unfold plot_cleanFDF_fig in H. apply bind_ok in H. destruct H as [c1 [H1 H]]. apply bind_ok in H. destruct H as [c2 [H2 [= <- <-]]].
  assert (G : forall d a, plot_cleanFDF phi (Some clean) cc d g cutoff false = POk a ->
    In (Steps (s "PI") phi (map oMod clean)) (drawn a) /\ (forall c, cc = Some c -> In (Steps (s "CC") phi c) (drawn a)) /\
    (forall x, d = Some x -> In (Steps (s "Dirty") phi (map (fun z => hypot (oRe z) (oIm z)) x)) (drawn a)) /\ (forall c, cutoff = Some c -> In (HLine c) (drawn a)) /\ (forall x y, ~ In (Steps (s "Real") x y) (drawn a))).
  { clear. intros d a H. unfold plot_cleanFDF in H. apply bind_ok in H. destruct H as [ar [Ha H]]. apply bind_ok in H. destruct H as [xl [Hx [= <-]]]. cbn [drawn].
    apply draws_cons in Ha. destruct Ha as [a1 [b1 [H1 [Ha ->]]]]. apply draws_cons in Ha. destruct Ha as [a2 [b2 [H2 [Ha ->]]]]. apply draws_cons in Ha. destruct Ha as [a3 [b3 [H3 [Ha ->]]]].
    apply draws_cons in Ha. destruct Ha as [a4 [b4 [H4 [Ha ->]]]]. apply draws_cons in Ha. destruct Ha as [a5 [b5 [H5 [Ha ->]]]]. apply draws_cons in Ha. destruct Ha as [a6 [b6 [H6 [Ha ->]]]]. apply draws_nil in Ha. subst b6.
    apply draws_cons in H2. destruct H2 as [c1 [d1 [C1 [H2 ->]]]]. apply step_ok in C1. destruct C1 as [-> _]. apply draws_cons in H2. destruct H2 as [c2 [d2 [C2 [H2 ->]]]]. injection C2 as <-. apply draws_nil in H2. subst d2.
    injection H5 as <-. injection H6 as <-.
    assert (A1 : (d = None /\ a1 = []) \/ exists x, d = Some x /\ a1 = [Steps (s "Dirty") phi (map (fun z => hypot (oRe z) (oIm z)) x)]).
    { destruct d as [x|]; [right; apply step_ok in H1; destruct H1 as [-> _]; eauto|left; injection H1 as <-; auto]. }
    assert (A3 : (cc = None /\ a3 = []) \/ exists x, cc = Some x /\ a3 = [Steps (s "CC") phi x]).
    { destruct cc as [x|]; [right; apply step_ok in H3; destruct H3 as [-> _]; eauto|left; injection H3 as <-; auto]. }
    assert (N4 : forall x y, ~ In (Steps (s "Real") x y) a4).
    { unfold peak_fit in H4. destruct g as [|g0 [|g1 [|g2 [|g3 g]]]]; try (injection H4 as <-; intros x y []). apply plot_ok in H4. destruct H4 as [-> _]. intros x y [E|[]]. discriminate E. }
    split; [rewrite !in_app_iff; simpl; tauto|]. split; [|split; [|split]].
    - intros c ->. destruct A3 as [[E _]|[x [[= <-] ->]]]; [discriminate E|]. rewrite !in_app_iff. simpl. tauto.
    - intros x ->. destruct A1 as [[E _]|[y [[= <-] ->]]]; [discriminate E|]. rewrite !in_app_iff. simpl. tauto.
    - intros c ->. rewrite !in_app_iff. simpl. tauto.
    - intros x y K.
      assert (N1 : ~ In (Steps (s "Real") x y) a1) by (destruct A1 as [[_ ->]|[z [_ ->]]]; [intros []|intros [h|[]]; discriminate h]).
      assert (N3 : ~ In (Steps (s "Real") x y) a3) by (destruct A3 as [[_ ->]|[z [_ ->]]]; [intros []|intros [h|[]]; discriminate h]).
      assert (N5 : ~ In (Steps (s "Real") x y) (match cutoff with Some c => [HLine c] | None => [] end)) by (destruct cutoff; [intros [h|[]]; discriminate h|intros []]).
      assert (N2 : ~ In (Steps (s "Real") x y) [Steps (s "PI") phi (map oMod clean)]) by (intros [h|[]]; discriminate h).
      assert (N6 : ~ In (Steps (s "Real") x y) [HLine 0]) by (intros [h|[]]; discriminate h).
      pose proof (N4 x y). rewrite !in_app_iff in K. simpl (In _ []) in K. tauto. }
  destruct (G _ _ H1) as [P1 [P2 [P3 [P4 P5]]]]. destruct (G _ _ H2) as [Q1 [Q2 [Q3 [Q4 Q5]]]].
  split; [exists (map oMod clean); split; [apply part_mod|auto]|]. split; [auto|]. split; [|split; [|split; auto]].
  - intros d E. eexists. split; [apply part_hyp|]. apply P3, E.
  - intros d E. eexists. split; [apply part_hyp|]. apply Q3, E.
Qed.
Theorem show_complex_refuted : ~ (forall phi clean cc dirty resid g cutoff a1 a2, plot_cleanFDF_fig phi clean cc dirty resid g cutoff true = POk (a1, a2) ->
  exists re, In (Steps (s "Real") phi re) (drawn a1)).
Proof.
  intros H. destruct (plot_cleanFDF_fig [Some 1] [Some (1, 1)] None None None [] None true) as [[a1 a2]|] eqn:E.
  - destruct (H _ _ _ _ _ _ _ _ _ E) as [re K]. apply clean_fig in E. destruct E as [_ [_ [_ [_ [_ E]]]]]. apply (proj1 (E _ _) K).
  - unfold plot_cleanFDF_fig, plot_cleanFDF, step in E. simpl in E. discriminate E.
Qed.

(* --------------------------------------------------------------- complexity *)

Theorem norm_points : forall cdf mean std n i, (i < n)%nat -> exists x, nth i (norm_cdf cdf mean std n) (0, 0) = (x, cdf mean std x) /\
  x = - (6) * std + 12 * std * (INR i / INR (n - 1)).
Proof.
  intros cdf mean std n i H. unfold norm_cdf. set (g := fun i : nat => _). rewrite (nth_indep _ (0, 0) (g 0%nat)) by (rewrite map_length, seq_length; exact H).
  rewrite map_nth, seq_nth by exact H. rewrite Nat.add_0_l. unfold g. cbv beta zeta. eexists. split; [reflexivity|]. unfold Rdiv. generalize (/ INR (n - 1)). intros r. ring.
Qed.
Theorem norm_range_refuted : ~ (forall cdf mean std n, 0 < std -> (2 <= n)%nat -> exists x y, In (x, y) (norm_cdf cdf mean std n) /\ x <= mean /\ exists x' y', In (x', y') (norm_cdf cdf mean std n) /\ mean <= x').
Proof.
  intros H. destruct (H (fun _ _ x => x) 100 1 2%nat ltac:(lra) ltac:(lia)) as [x [y [_ [_ [x' [y' [K L]]]]]]]. simpl in K.
  destruct K as [K|[K|[]]]; injection K as K1 K2; lra.
Qed.

Lemma count_below : forall v i, StronglySorted Rle v -> NoDup v -> (i < length v)%nat -> length (List.filter (fun y => if Rlt_dec y (nth i v 0) then true else false) v) = i.
Proof.
  induction v as [|x v IH]; intros i S0 N H; [simpl in H; lia|]. inversion S0 as [|? ? S1 F]; subst. inversion N as [|? ? N1 N2]; subst. rewrite Forall_forall in F.
  destruct i as [|i]; simpl nth.
  - assert (E : List.filter (fun y => if Rlt_dec y x then true else false) (x :: v) = []).
    { simpl. destruct (Rlt_dec x x) as [h|_]; [lra|]. assert (G : forall l, (forall y, In y l -> x <= y) -> List.filter (fun y => if Rlt_dec y x then true else false) l = []).
      { induction l as [|z l IHl]; intros K; simpl; auto. destruct (Rlt_dec z x) as [h|_]; [specialize (K z (or_introl eq_refl)); lra|]. apply IHl. intros y Hy. apply K. right; auto. }
      apply G. exact F. }
    rewrite E. reflexivity.
  - simpl in H. assert (Hi : (i < length v)%nat) by lia. simpl. assert (x <= nth i v 0) by (apply F, nth_In, Hi). assert (x <> nth i v 0) by (intros ->; apply N1, nth_In, Hi).
    destruct (Rlt_dec x (nth i v 0)) as [_|n]; [|exfalso; apply n; lra]. simpl. f_equal. apply IH; auto.
Qed.
Lemma filter_perm : forall (P : R -> bool) l m, Permutation l m -> length (List.filter P l) = length (List.filter P m).
Proof. intros P l m H. exact (count_perm P l m H). Qed.
(** the share of data below, for data all different; it never gets to one *)
Theorem ecdf_spec : forall l x y, NoDup l -> In (x, y) (ecdf l) -> In x l /\ y = INR (length (List.filter (fun z => if Rlt_dec z x then true else false) l)) / INR (length l) /\ 0 <= y < 1.
Proof.
  intros l x y N H. unfold ecdf in H. pose proof (rsort_perm l) as P. pose proof (rsort_sorted l) as Sv. set (v := rsort l) in *. pose proof (Permutation_length P) as L.
  destruct (In_nth _ _ (0, 0) H) as [i [Hi E]]. rewrite combine_length, map_length, seq_length in Hi. assert (Hv : (i < length v)%nat) by lia.
  rewrite combine_nth in E by (rewrite map_length, seq_length; lia). injection E as E1 E2.
  set (g := fun i : nat => INR i / INR (length l)) in E2. rewrite (nth_indep _ 0 (g 0%nat)) in E2 by (rewrite map_length, seq_length; lia). rewrite map_nth, seq_nth in E2 by lia. simpl in E2. unfold g in E2.
  assert (C0 : length (List.filter (fun z => if Rlt_dec z x then true else false) l) = i).
  { rewrite (filter_perm _ _ _ P), <- E1. apply count_below; auto. eapply Permutation_NoDup; eauto. }
  split; [apply (Permutation_in x (Permutation_sym P)); rewrite <- E1; apply nth_In, Hv|]. rewrite C0. split; [auto|]. subst y.
  assert (0 < INR (length l)) by (apply lt_0_INR; lia). assert (INR i < INR (length l)) by (apply lt_INR; lia). pose proof (pos_INR i). split.
  - apply Rmult_le_pos; [lra|left; apply Rinv_0_lt_compat; lra].
  - apply (Rmult_lt_reg_r (INR (length l))); [lra|]. unfold Rdiv. rewrite Rmult_assoc, Rinv_l by lra. lra.
Qed.
Theorem ecdf_refuted : ~ (forall l x y, NoDup l -> In (x, y) (ecdf l) -> y = INR (length (List.filter (fun z => if Rle_dec z x then true else false) l)) / INR (length l)).
Proof.
  intros H. assert (N : NoDup [1]) by (repeat constructor; intros []). assert (E : In (1, 0 / 1) (ecdf [1])) by (left; reflexivity).
  specialize (H [1] 1 (0 / 1) N E). simpl in H. destruct (Rle_dec 1 1) as [_|n]; [|apply n; lra]. simpl in H. lra.
Qed.

Theorem chi_same : forall sig cq cu, length sig = length cq -> length sig = length cu -> chi_curves sig cq sig cu = POk (combine sig cq, combine sig cu).
Proof. intros sig cq cu H1 H2. unfold chi_curves. rewrite (proj2 (Nat.eqb_eq _ _) H1), (proj2 (Nat.eqb_eq _ _) H2). reflexivity. Qed.
(** the curve of U is drawn over the numbers of Q *)
Theorem chi_refuted : ~ (forall sigq cq sigu cu a b, chi_curves sigq cq sigu cu = POk (a, b) -> map fst b = sigu).
Proof. intros H. specialize (H [1] [2] [3] [4] _ _ eq_refl). simpl in H. injection H. lra. Qed.

Lemma cumsum_nth : forall l acc i, (i < length l)%nat -> nth i (cumsum acc l) 0 = acc + rsum (firstn (S i) l).
Proof.
  induction l as [|x l IH]; intros acc i H; [simpl in H; lia|]. simpl in H. destruct i as [|i].
  - simpl. change (acc + x = acc + (x + 0)). ring.
  - change (nth (S i) (cumsum acc (x :: l)) 0) with (nth i (cumsum (acc + x) l) 0). rewrite IH by lia. change (rsum (firstn (S (S i)) (x :: l))) with (x + rsum (firstn (S i) l)). ring.
Qed.
Lemma cumsum_len : forall l acc, length (cumsum acc l) = length l.
Proof. induction l as [|x l IH]; intros acc; simpl; auto. Qed.
(** shares of a distribution: rising, and one at the end *)
Theorem cpdf_spec : forall sig prob, length sig = length prob -> (forall x, In x prob -> 0 <= x) -> 0 < rsum prob ->
  map fst (cpdf sig prob) = sig /\
  (forall i, (i < length prob)%nat -> snd (nth i (cpdf sig prob) (0, 0)) = rsum (firstn (S i) prob) / rsum prob) /\
  (forall i j, (i <= j < length prob)%nat -> 0 <= snd (nth i (cpdf sig prob) (0, 0)) <= snd (nth j (cpdf sig prob) (0, 0)) /\ snd (nth j (cpdf sig prob) (0, 0)) <= 1) /\
  snd (nth (length prob - 1) (cpdf sig prob) (0, 0)) = 1.
Proof.
  intros sig prob L P T. set (c := map (fun c => c / rsum prob) (cumsum 0 prob)).
  assert (Lc : length c = length prob) by (unfold c; rewrite map_length, cumsum_len; reflexivity).
  assert (A : map fst (cpdf sig prob) = sig).
  { unfold cpdf. fold c. assert (G : forall a b : list R, length a = length b -> map fst (combine a b) = a) by (induction a as [|x a IH]; intros [|y b] H; simpl in *; try lia; auto; f_equal; apply IH; lia). apply G. lia. }
  assert (B : forall i, (i < length prob)%nat -> snd (nth i (cpdf sig prob) (0, 0)) = rsum (firstn (S i) prob) / rsum prob).
  { intros i Hi. unfold cpdf. fold c. rewrite combine_nth by lia. simpl snd. unfold c. rewrite (nth_indep _ 0 ((fun c => c / rsum prob) 0)) by (rewrite map_length, cumsum_len; exact Hi).
    rewrite (map_nth (fun c => c / rsum prob)). rewrite cumsum_nth by exact Hi. f_equal. ring. }
  assert (Pos : forall l, (forall x, In x l -> 0 <= x) -> 0 <= rsum l).
  { induction l as [|x l IH]; intros K; [apply Rle_refl|]. change (0 <= x + rsum l). pose proof (K x (or_introl eq_refl)). assert (0 <= rsum l) by (apply IH; intros y Hy; apply K; right; auto). lra. }
  assert (App : forall a b, rsum (a ++ b)%list = rsum a + rsum b).
  { induction a as [|x a IH]; intros b; [change (rsum b = 0 + rsum b); ring|]. change (x + rsum (a ++ b)%list = x + rsum a + rsum b). rewrite IH. ring. }
  assert (Mono : forall i j, (i <= j)%nat -> rsum (firstn i prob) <= rsum (firstn j prob)).
  { intros i j H. replace (firstn i prob) with (firstn i (firstn j prob)) by (rewrite firstn_firstn; f_equal; lia).
    rewrite <- (firstn_skipn i (firstn j prob)) at 2. rewrite App. assert (0 <= rsum (skipn i (firstn j prob))); [|lra]. apply Pos. intros x Hx. apply P.
    assert (In x (firstn j prob)) by (rewrite <- (firstn_skipn i (firstn j prob)); apply in_or_app; right; exact Hx).
    rewrite <- (firstn_skipn j prob). apply in_or_app. left. auto. }
  split; [exact A|]. split; [exact B|].
  assert (I : 0 < / rsum prob) by (apply Rinv_0_lt_compat, T).
  split.
  - intros i j H. rewrite !B by lia. pose proof (Mono 0%nat (S i) ltac:(lia)) as M1. pose proof (Mono (S i) (S j) ltac:(lia)) as M2. pose proof (Mono (S j) (length prob) ltac:(lia)) as M3.
    rewrite firstn_all in M3. change (rsum (firstn 0 prob)) with 0 in M1. unfold Rdiv. split; [split|].
    + apply Rmult_le_pos; lra.
    + apply Rmult_le_compat_r; lra.
    + apply (Rmult_le_reg_r (rsum prob)); [lra|]. rewrite Rmult_assoc, Rinv_l by lra. lra.
  - assert (length prob <> 0)%nat. { intros E. destruct prob; [|discriminate E]. change (0 < 0) in T. lra. }
    rewrite B by lia. replace (S (length prob - 1)) with (length prob) by lia. rewrite firstn_all. field. lra.
Qed.

(** the zoomed figure holds both values and their errors *)
Theorem zoom_spec : forall sq pq mq su pu mu lo hi, 0 <= sq -> 0 <= su -> 0 <= pq -> 0 <= mq -> 0 <= pu -> 0 <= mu -> zoom (sq, pq, mq) (su, pu, mu) = (lo, hi) ->
  0 <= lo /\ lo <= sq <= hi /\ lo <= su <= hi /\ lo <= Rmax 0 (sq - mq) /\ lo <= Rmax 0 (su - mu) /\ sq + pq <= hi /\ su + pu <= hi.
Proof.
  intros sq pq mq su pu mu lo hi H1 H2 H3 H4 H5 H6 E. unfold zoom in E. injection E as <- <-.
  pose proof (Rmin_l (sq - mq * 4) (su - mu * 4)). pose proof (Rmin_r (sq - mq * 4) (su - mu * 4)). pose proof (Rmax_l (sq + pq * 4) (su + pu * 4)). pose proof (Rmax_r (sq + pq * 4) (su + pu * 4)).
  set (m := Rmin (sq - mq * 4) (su - mu * 4)) in *. assert (0 <= Rmax 0 m) by apply Rmax_l.
  assert (G : forall b, 0 <= b -> m <= b -> Rmax 0 m <= b) by (intros b B1 B2; apply Rmax_lub; auto).
  assert (Rmax 0 m <= sq) by (apply G; lra). assert (Rmax 0 m <= su) by (apply G; lra).
  repeat split; auto; try lra.
  - apply G; [apply Rmax_l|]. pose proof (Rmax_r 0 (sq - mq)). lra.
  - apply G; [apply Rmax_l|]. pose proof (Rmax_r 0 (su - mu)). lra.
Qed.
(** the curve over the histogram is a bell with the width printed *)
Theorem normal_bell : forall med noise x, 0 < noise -> normal_curve med noise x = bell (1 / (noise * sqrt (2 * PI))) med (noise * (2 * sqrt (2 * ln 2))) x.
Proof.
  intros med noise x H. unfold normal_curve, bell. pose proof PI_RGT_0 as P0. assert (L2 : 0 < ln 2) by (rewrite <- ln_1; apply ln_increasing; lra).
  assert (Q : sqrt (2 * ln 2) ^ 2 = 2 * ln 2) by (rewrite <- Rsqr_pow2; apply Rsqr_sqrt; lra). assert (P : 0 < sqrt (2 * ln 2)) by (apply sqrt_lt_R0; lra).
  rewrite sqrt_mult by (try apply pow2_ge_0; lra). rewrite sqrt_pow2 by lra. f_equal; [f_equal; ring|]. f_equal.
  replace ((noise * (2 * sqrt (2 * ln 2))) ^ 2) with (noise ^ 2 * 4 * (sqrt (2 * ln 2) ^ 2)) by ring. rewrite Q. field. lra.
Qed.

(** the browser: one channel with a negative q and there is no figure *)
Theorem pol_negative : forall freq I dI q u fh IM qm um Q rQ I0 rI m, In (Q, rQ, I0, rI, m) q -> Q < 0 -> 0 < m -> I0 <> 0 -> rQ <> 0 ->
  plotPolsummary freq I dI q u fh IM qm um = PErr.
Proof.
  intros freq I dI q u fh IM qm um Q rQ I0 rI m H HQ Hm HI Hr. unfold plotPolsummary.
  assert (E : pol_dq (Q, rQ, I0, rI, m) = Some (Q / m * sqrt ((rQ / Q) ^ 2 + (rI / I0) ^ 2))).
  { unfold pol_dq, pol_q. destruct (Req_EM_T m 0) as [h|_]; [lra|]. destruct (Req_EM_T Q 0) as [h|_]; [lra|]. destruct (Req_EM_T I0 0) as [h|_]; [contradiction|]. reflexivity. }
  apply (negative_error (map pol_dq q) [] (map pol_q q) (map pol_q u) None None (Some (map pol_dq u)) None qm um None (Q / m * sqrt ((rQ / Q) ^ 2 + (rI / I0) ^ 2))).
  - rewrite <- E. apply in_map, H.
  - assert (0 < sqrt ((rQ / Q) ^ 2 + (rI / I0) ^ 2)).
    { apply sqrt_lt_R0. pose proof (pow2_ge_0 (rI / I0)). assert (0 < (rQ / Q) ^ 2); [|lra]. rewrite <- Rsqr_pow2. apply Rsqr_pos_lt. unfold Rdiv. apply Rmult_integral_contrapositive. split; [exact Hr|apply Rinv_neq_0_compat; lra]. }
    assert (Q / m < 0). { unfold Rdiv. assert (0 < / m) by (apply Rinv_0_lt_compat, Hm). nra. } nra.
Qed.
