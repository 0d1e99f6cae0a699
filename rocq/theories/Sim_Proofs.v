(** Simulated spectra: what they are the spectra of. *)
From Coq Require Import Reals List Arith ZArith Bool String Lra Lia.
Set Warnings "-ambiguous-paths".
From Coquelicot Require Import Coquelicot.
From Verif Require Import CBase NdArray PyRes PyList PyList_Proofs PyStr PyStr_Proofs CleanTop_Model Synth_Spec Measure_Model Measure_Spec QU_Model QU_Spec QU_Proofs QU_Laws.
Import ListNotations.
Local Open Scope R_scope.

Lemma nth_map_err : forall {A B} (g : A -> B) l k x d, nth_error l k = Some x -> nth k (map g l) d = g x.
Proof. intros A B g l k x d H. apply nth_error_nth. rewrite nth_error_map, H. reflexivity. Qed.

Lemma split_spectra : forall freq z, spectra_of freq z (split_pqu (map (fun f => match lam_m f with None => None | Some lam => Some (z (lam ^ 2)) end) freq)).
Proof.
  intros freq z. unfold spectra_of, split_pqu. rewrite !map_length. repeat split. intros k f Hk.
  destruct f as [f|].
  - intros Hf. rewrite !map_map. rewrite !(nth_map_err _ _ _ (Some f)) by auto. unfold lam_m, odiv.
    destruct (Req_EM_T f 0); [contradiction|]. auto.
  - rewrite !map_map. rewrite !(nth_map_err _ _ _ None) by auto. auto.
Qed.

Lemma burn_eq : forall freq p psi RM sg, List.length psi = List.length p -> List.length RM = List.length p -> List.length sg = List.length p ->
  create_pqu_spectra_burn freq p psi RM (Some sg) = POk (split_pqu (map (fun f => match lam_m f with None => None | Some lam =>
    Some ((fun l2 => csum (map (fun k => (thin (nth k p 0) (rad (nth k psi 0)) (nth k RM 0) l2 * RtoC (exp (-2 * nth k sg 0 * l2 ^ 2)))%C) (seq 0 (List.length p)))) (lam ^ 2)) end) freq)).
Proof.
  intros freq p psi RM sg H1 H2 H3. unfold create_pqu_spectra_burn. rewrite H1, H2, H3, !Nat.eqb_refl. cbn [andb negb]. do 2 f_equal.
  apply map_ext. intros f. destruct (lam_m f) as [lam|]; [|reflexivity]. do 2 f_equal. apply map_ext. intros k.
  rewrite Cmult_assoc, e2j_thin. do 3 f_equal. ring.
Qed.

(** C33: the sum of Burn's law with sigma^2 = the given dispersion *)
Theorem sim_burn : forall freq p psi RM sg, List.length psi = List.length p -> List.length RM = List.length p -> List.length sg = List.length p ->
  (forall x, In x sg -> 0 <= x) ->
  exists x, create_pqu_spectra_burn freq p psi RM (Some sg) = POk x /\
    spectra_of freq (fun l2 => csum (map (fun k => burn (nth k p 0) (rad (nth k psi 0)) (nth k RM 0) (sqrt (nth k sg 0)) l2) (seq 0 (List.length p)))) x.
Proof.
  intros freq p psi RM sg H1 H2 H3 Hs. rewrite burn_eq by auto. eexists. split; [reflexivity|].
  match goal with |- spectra_of _ ?z (split_pqu (map ?g _)) => replace (map g freq) with (map (fun f => match lam_m f with None => None | Some lam => Some (z (lam ^ 2)) end) freq) end.
  { apply (split_spectra freq). }
  apply map_ext. intros f. destruct (lam_m f) as [lam|]; [|reflexivity]. do 2 f_equal. apply map_ext_in. intros k Hk. apply in_seq in Hk.
  unfold burn. do 3 f_equal. rewrite pow2_sqrt; [ring|]. apply Hs, nth_In. lia.
Qed.

Lemma nth_repeat0 : forall k n, nth k (repeat 0 n) 0 = 0.
Proof. induction k as [|k IH]; intros [|n]; cbn; auto. Qed.

(** C33: without dispersion the sum of thin components *)
Theorem sim_thin_sum : forall freq p psi RM, List.length psi = List.length p -> List.length RM = List.length p ->
  exists x, create_pqu_spectra_burn freq p psi RM None = POk x /\
    spectra_of freq (fun l2 => csum (map (fun k => thin (nth k p 0) (rad (nth k psi 0)) (nth k RM 0) l2) (seq 0 (List.length p)))) x.
Proof.
  intros freq p psi RM H1 H2.
  replace (create_pqu_spectra_burn freq p psi RM None) with (create_pqu_spectra_burn freq p psi RM (Some (repeat 0 (List.length p)))) by reflexivity.
  rewrite burn_eq by (auto; apply repeat_length). eexists. split; [reflexivity|].
  match goal with |- spectra_of _ ?z (split_pqu (map ?g _)) => replace (map g freq) with (map (fun f => match lam_m f with None => None | Some lam => Some (z (lam ^ 2)) end) freq) end.
  { apply (split_spectra freq). }
  apply map_ext. intros f. destruct (lam_m f) as [lam|]; [|reflexivity]. do 2 f_equal. apply map_ext. intros k.
  rewrite nth_repeat0, Rmult_0_r, Rmult_0_l, exp_0. ring.
Qed.

(** C33: it is the law of model 2 for the dispersions 0 and 1 only *)
Theorem sim_burn_refuted : forall f p psi RM sg, f <> 0 -> p <> 0 -> exists q u z,
  create_pqu_spectra_burn [Some f] [p] [psi] [RM] (Some [sg]) = POk ([Some (Cmod z)], [q], [u]) /\
  q = Some (fst z) /\ u = Some (snd z) /\
  (z = burn p (rad psi) RM sg (l2_of f) <-> sg = 0 \/ sg = 1).
Proof.
  intros f p psi RM sg Hf Hp. rewrite burn_eq by reflexivity. cbn [map List.length seq]. unfold lam_m, odiv. destruct (Req_EM_T f 0); [contradiction|].
  set (z := csum _). exists (Some (fst z)), (Some (snd z)), z. split; [reflexivity|]. split; [reflexivity|]. split; [reflexivity|].
  assert (L : 0 < l2_of f).
  { unfold l2_of. assert (299792458 <> 0) by lra. apply pow2_gt_0. unfold Rdiv. apply Rmult_integral_contrapositive. split; [auto|apply Rinv_neq_0_compat; auto]. }
  assert (E : z = (thin p (rad psi) RM (l2_of f) * RtoC (exp (-2 * sg * l2_of f ^ 2)))%C) by (unfold z; rewrite csum_cons, csum_nil; cbn [nth]; unfold c_light; fold (l2_of f); ring).
  rewrite E. unfold burn. assert (L2 : 0 < l2_of f ^ 2) by (apply pow_lt; auto). split.
  - intros H. assert (M : exp (-2 * sg * l2_of f ^ 2) = exp (-2 * sg ^ 2 * l2_of f ^ 2)).
    { apply (f_equal Cmod) in H. rewrite !Cmod_mult, !Cmod_R, thin_mod in H. rewrite (Rabs_pos_eq (exp (-2 * sg * _))), (Rabs_pos_eq (exp (-2 * sg ^ 2 * _))) in H by (left; apply exp_pos).
      assert (0 < Rabs p) by (apply Rabs_pos_lt; auto). apply Rmult_eq_reg_l with (Rabs p); lra. }
    apply exp_inv in M. assert (Q : sg * (1 - sg) = 0) by nra. apply Rmult_integral in Q. destruct Q; [left|right]; lra.
  - intros [-> | ->]; do 3 f_equal; ring.
Qed.

(** ** stacked slabs *)
Definition half_from (rm : list R) (i k : nat) : list R := map (fun j => if (j <? k)%nat then nth j rm 0 * / 2 else nth j rm 0) (seq 0 i).

Lemma rsum_skipn : forall l i, (i < List.length l)%nat -> rsum (skipn i l) = nth i l 0 + rsum (skipn (S i) l).
Proof.
  induction l as [|x l IH]; intros i Hi; cbn in Hi; [lia|]. destruct i as [|i]; [cbn; rewrite rsum_cons; reflexivity|].
  cbn [skipn nth]. apply IH. lia.
Qed.

Lemma diff_loop : forall psi rm p n k, List.length rm = n -> List.length p = n -> (k <= n)%nat ->
  fold_left (diff_step psi) (seq 0 k) (rm, p) =
  (map (fun j => if (j <? k)%nat then nth j rm 0 * / 2 else nth j rm 0) (seq 0 n),
   map (fun j => if (j <? k)%nat then (nth j p (RtoC 0) * e2j (nth j psi 0 + (nth j rm 0 / 2 + rsum (skipn (S j) rm))))%C else nth j p (RtoC 0)) (seq 0 n)).
Proof.
  intros psi rm p n. induction k as [|k IH]; intros H1 H2 Hk.
  - cbn [seq fold_left Nat.ltb Nat.leb]. f_equal.
    + apply nth_ext with 0 0; [rewrite map_length, seq_length; auto|]. intros i Hi. rewrite nth_map_seq by lia. cbn [Nat.add]. reflexivity.
    + apply nth_ext with (RtoC 0) (RtoC 0); [rewrite map_length, seq_length; auto|]. intros i Hi. rewrite nth_map_seq by lia. cbn [Nat.add]. reflexivity.
  - rewrite seq_S, fold_left_app, IH by lia. cbn [fold_left Nat.add]. unfold diff_step.
    set (rmk := map _ (seq 0 n)). set (pk := map _ (seq 0 n)).
    assert (U : upd rmk k (fun x => x * / 2) = map (fun j => if (j <? S k)%nat then nth j rm 0 * / 2 else nth j rm 0) (seq 0 n)).
    { apply nth_ext with 0 0; [rewrite length_upd; unfold rmk; rewrite !map_length; auto|]. intros i Hi. rewrite length_upd in Hi. unfold rmk in Hi. rewrite map_length, seq_length in Hi.
      rewrite nth_upd by (unfold rmk; rewrite map_length, seq_length; lia). rewrite nth_map_seq by lia. cbn [Nat.add]. unfold rmk. rewrite !nth_map_seq by lia. cbn [Nat.add].
      destruct (Nat.eqb_spec i k) as [->|N].
      - replace (k <? k)%nat with false by (symmetry; apply Nat.ltb_ge; lia). replace (k <? S k)%nat with true by (symmetry; apply Nat.ltb_lt; lia). reflexivity.
      - destruct (Nat.ltb_spec i k), (Nat.ltb_spec i (S k)); try lia; reflexivity. }
    rewrite U. f_equal. apply nth_ext with (RtoC 0) (RtoC 0); [rewrite length_upd; unfold pk; rewrite !map_length; auto|].
    intros i Hi. rewrite length_upd in Hi. unfold pk in Hi. rewrite map_length, seq_length in Hi.
    rewrite nth_upd by (unfold pk; rewrite map_length, seq_length; lia). rewrite nth_map_seq by lia. cbn [Nat.add]. unfold pk. rewrite !nth_map_seq by lia. cbn [Nat.add].
    destruct (Nat.eqb_spec i k) as [->|N].
    + replace (k <? k)%nat with false by (symmetry; apply Nat.ltb_ge; lia). replace (k <? S k)%nat with true by (symmetry; apply Nat.ltb_lt; lia).
      do 4 f_equal. rewrite rsum_skipn by (rewrite map_length, seq_length; lia). rewrite nth_map_seq by lia. cbn [Nat.add].
      replace (k <? S k)%nat with true by (symmetry; apply Nat.ltb_lt; lia). unfold Rdiv. do 2 f_equal.
      clear -H1. apply nth_ext with 0 0; [rewrite !skipn_length, map_length, seq_length; lia|].
      intros j Hj. rewrite skipn_length, map_length, seq_length in Hj. rewrite !nth_skipn_add. rewrite nth_map_seq by lia. cbn [Nat.add].
      destruct (Nat.ltb_spec (S (k + j)) (S k)); [lia|reflexivity].
    + destruct (Nat.ltb_spec i k), (Nat.ltb_spec i (S k)); try lia; reflexivity.
Qed.

(** a layer of the stack, seen through the layers after it *)
Lemma slab_average : forall p deg RM dRM l, is_average (fun t => thin p (rad deg) (RM + t * dRM) l)
  (RtoC (p * sinc1 (dRM * l)) * e2j (radians deg + (dRM * l / 2 + RM * l)))%C.
Proof.
  intros p deg RM dRM l. unfold sinc1. destruct (Req_EM_T (dRM * l) 0) as [Z|Z].
  - assert (E : forall t, thin p (rad deg) RM l = thin p (rad deg) (RM + t * dRM) l).
    { intros t. unfold thin. do 3 f_equal. replace ((RM + t * dRM) * l) with (RM * l + t * (dRM * l)) by ring. rewrite Z. ring. }
    rewrite Z, Rmult_1_r. replace (radians deg + (0 / 2 + RM * l)) with (radians deg + RM * l) by field. rewrite e2j_thin.
    eapply is_average_ext; [exact E|]. split.
    + pose proof (is_RInt_const (V := R_NormedModule) 0 1 (fst (thin p (rad deg) RM l))) as K. unfold scal in K; cbn in K; unfold mult in K; cbn in K. rewrite Rminus_0_r, Rmult_1_l in K. exact K.
    + pose proof (is_RInt_const (V := R_NormedModule) 0 1 (snd (thin p (rad deg) RM l))) as K. unfold scal in K; cbn in K; unfold mult in K; cbn in K. rewrite Rminus_0_r, Rmult_1_l in K. exact K.
  - assert (D : dRM <> 0) by (intros ->; apply Z; ring). assert (Hl : l <> 0) by (intros ->; apply Z; ring).
    set (d := [(s "fracPol", p); (s "deltaRM_radm2", dRM); (s "psi0_deg", deg); (s "RM_radm2", RM)]).
    destruct (m5_average d [l] p dRM deg RM 0) as (sp & z & H1 & H2 & H3); try reflexivity; auto.
    assert (E : m5 d [l] = POk [cdivr (RtoC p * e2j (radians deg + (/ 2 * dRM + RM) * l) * RtoC (sin (dRM * l)))%C (dRM * l)]) by reflexivity.
    rewrite E in H1. apply POk_inj' in H1. subst sp. cbn [nth] in *. unfold cdivr in H2. destruct (Req_EM_T (dRM * l) 0); [contradiction|]. injection H2 as <-.
    match goal with |- is_average _ ?w => match type of H3 with is_average _ ?z => replace w with z; [exact H3|] end end.
    replace (dRM * l / 2 + RM * l) with ((/ 2 * dRM + RM) * l) by field. unfold Cdiv. rewrite <- RtoC_inv by auto. unfold Rdiv. rewrite !RtoC_mult. ring.
Qed.

Lemma rsum_scale : forall l c, rsum (map (fun r => r * c) l) = rsum l * c.
Proof. induction l as [|x l IH]; intros c; cbn [map]; [rewrite rsum_nil; ring|]. rewrite !rsum_cons, IH. ring. Qed.

(** C33: every layer is the mean over its own depth of thin emission seen through itself and the layers after it *)
Theorem sim_diff : forall freq p psi RM, List.length psi = List.length p -> List.length RM = List.length p ->
  exists x z, create_pqu_spectra_diff true freq p psi RM = POk x /\
    spectra_of freq (fun l2 => csum (map (fun i => z i l2) (seq 0 (List.length p)))) x /\
    forall i l2, (i < List.length p)%nat ->
      is_average (fun t => thin (nth i p 0) (rad (nth i psi 0)) (layers_in_front RM i + t * nth i RM 0) l2) (z i l2).
Proof.
  intros freq p psi RM H1 H2. unfold create_pqu_spectra_diff. cbn [negb]. rewrite H1, H2, !Nat.eqb_refl. cbn [andb negb].
  exists (split_pqu (map (fun f => match lam_m f with None => None | Some lam => Some ((fun l2 => csum (map (fun i =>
     (fun i l2 => RtoC (nth i p 0 * sinc1 (nth i RM 0 * l2)) * e2j (radians (nth i psi 0) + (nth i RM 0 * l2 / 2 + layers_in_front RM i * l2)))%C i l2) (seq 0 (List.length p)))) (lam ^ 2)) end) freq)).
  exists (fun i l2 => RtoC (nth i p 0 * sinc1 (nth i RM 0 * l2)) * e2j (radians (nth i psi 0) + (nth i RM 0 * l2 / 2 + layers_in_front RM i * l2)))%C.
  split; [|split].
  - do 2 f_equal. apply map_ext. intros f. destruct (lam_m f) as [lam|]; [|reflexivity]. cbv zeta. f_equal.
    set (n := List.length p). set (rm := map (fun r => r * lam ^ 2) RM).
    rewrite (diff_loop _ _ _ n n) by (unfold rm; rewrite ?map_length, ?seq_length; auto). cbn [snd]. f_equal. apply map_ext_in. intros i Hi. apply in_seq in Hi.
    replace (i <? n)%nat with true by (symmetry; apply Nat.ltb_lt; lia). rewrite nth_map_seq by lia. cbn [Nat.add].
    assert (R1 : nth i rm 0 = nth i RM 0 * lam ^ 2). { unfold rm. rewrite (nth_indep _ 0 ((fun r => r * lam ^ 2) 0)) by (rewrite map_length; lia). rewrite (map_nth (fun r => r * lam ^ 2)). reflexivity. }
    assert (R2 : nth i (map radians psi) 0 = radians (nth i psi 0)). { rewrite (nth_indep _ 0 (radians 0)) by (rewrite map_length; lia). apply map_nth. }
    rewrite R1, R2. do 3 f_equal. unfold layers_in_front, rm. rewrite skipn_map, rsum_scale. reflexivity.
  - apply (split_spectra freq).
  - intros i l2 Hi. apply slab_average.
Qed.

(** C33: one layer is QU-fitting model 5 with no depth in front *)
Theorem sim_diff_m5 : forall freq p psi RM d, pget d (s "fracPol") = POk p -> pget d (s "psi0_deg") = POk psi -> pget d (s "deltaRM_radm2") = POk RM ->
  pget d (s "RM_radm2") = POk 0 -> RM <> 0 -> (forall f, In f freq -> f <> 0) ->
  exists P Q U sp, create_pqu_spectra_diff true (map Some freq) [p] [psi] [RM] = POk (P, Q, U) /\ m5 d (map l2_of freq) = POk sp /\
    Q = map re_of sp /\ U = map im_of sp.
Proof.
  intros freq p psi RM d D1 D2 D3 D4 HR Hf.
  assert (E : m5 d (map l2_of freq) = POk (map (fun l => cdivr (RtoC p * e2j (radians psi + (/ 2 * RM + 0) * l) * RtoC (sin (RM * l)))%C (RM * l)) (map l2_of freq))).
  { unfold m5. rewrite D1, D2, D3, D4. reflexivity. }
  rewrite E. unfold create_pqu_spectra_diff, split_pqu. cbn [negb andb List.length Nat.eqb]. eexists _, _, _, _. split; [reflexivity|]. split; [reflexivity|].
  match goal with |- map re_of ?a = map re_of ?b /\ _ => assert (A : a = b); [|rewrite A; auto] end.
  rewrite !map_map. apply map_ext_in. intros f Hi. specialize (Hf f Hi). unfold lam_m, odiv. destruct (Req_EM_T f 0); [contradiction|]. unfold c_light. fold (l2_of f).
  assert (L : l2_of f <> 0). { unfold l2_of. apply pow_nonzero. assert (299792458 <> 0) by lra. unfold Rdiv. apply Rmult_integral_contrapositive. split; [auto|apply Rinv_neq_0_compat; auto]. }
  cbn [map seq List.length nth fold_left diff_step upd skipn]. unfold cdivr, sinc1. assert (Z : RM * l2_of f <> 0) by (apply Rmult_integral_contrapositive; auto).
  destruct (Req_EM_T (RM * l2_of f) 0); [contradiction|]. f_equal. cbn [snd nth map upd fold_right skipn]. rewrite csum_cons, csum_nil, rsum_cons, rsum_nil.
  replace (RM * l2_of f * / 2 + 0) with ((/ 2 * RM + 0) * l2_of f) by field. unfold Cdiv. rewrite <- RtoC_inv by auto. unfold Rdiv. rewrite !RtoC_mult. ring.
Qed.

(** C33: the three lists of a layer may not be python lists *)
Theorem sim_diff_list_refuted : forall freq p psi RM, create_pqu_spectra_diff false freq p psi RM = PErr.
Proof. reflexivity. Qed.

(** C33: a thin source *)
Theorem sim_RMthin : forall freq p psi RM P Q U, create_pqu_spectra_RMthin freq p psi RM = (P, Q, U) ->
  P = map (fun _ => Some p) freq /\ exists P', spectra_of freq (thin p (rad psi) RM) (P', Q, U).
Proof.
  intros freq p psi RM P Q U H. unfold create_pqu_spectra_RMthin in H. injection H as <- <- <-. split; [reflexivity|].
  pose proof (split_spectra freq (thin p (rad psi) RM)) as S1. unfold split_pqu in S1. eexists. exact S1.
Qed.

(** C33: subtracting the source that made the data leaves nothing *)
Theorem sim_resid_self : forall freq p psi RM P Q U, create_pqu_spectra_RMthin (map Some freq) p psi RM = (P, Q, U) -> (forall f, In f freq -> f <> 0) ->
  create_pqu_resid_RMthin Q U (map Some freq) p psi RM = (map (fun _ => Some 0) freq, map (fun _ => Some 0) freq, map (fun _ => Some 0) freq).
Proof.
  intros freq p psi RM P Q U H Hf. unfold create_pqu_resid_RMthin. rewrite H. unfold create_pqu_spectra_RMthin in H. injection H as _ <- <-.
  assert (K : forall (A B : Type) (g h : A -> B) (l : list A), combine (map g l) (map h l) = map (fun x => (g x, h x)) l) by (intros A B g h; induction l as [|x l IH]; cbn; f_equal; auto).
  rewrite !map_map, !K, !map_map, !K, !map_map.
  assert (Z : forall (A : Type) (g : R -> A) (v : A), (forall f, f <> 0 -> g f = v) -> map g freq = map (fun _ => v) freq) by (intros A g v E; apply map_ext_in; auto).
  assert (Y : forall f, f <> 0 -> lam_m (Some f) = Some (c_light / f)) by (intros f N; unfold lam_m, odiv; destruct (Req_EM_T f 0); [contradiction|reflexivity]).
  assert (O : forall a, osub (Some a) (Some a) = Some 0) by (intros a; cbv; f_equal; apply Rplus_opp_r).
  f_equal; [f_equal|]; apply Z; intros f N; cbn [fst snd]; rewrite (Y f N); cbn [option_map]; unfold re_of, im_of; cbn [option_map]; rewrite ?O; [|reflexivity|reflexivity].
  f_equal. replace (0 ^ 2 + 0 ^ 2) with 0 by ring. apply sqrt_0.
Qed.

(** C33: absolute spectra are the fractional ones times a power law through fluxI at freq0 *)
Theorem sim_scaled : forall freq fluxI SI f0 x I Q U, scale_IQU freq fluxI SI f0 x = POk (I, Q, U) ->
  List.length (snd (fst x)) = List.length freq -> List.length (snd x) = List.length freq ->
  (forall f, In f freq -> exists v, f = Some v /\ 0 < v) -> (forall v, f0 = Some v -> 0 < v) ->
  exists r, (f0 = Some r \/ f0 = None /\ nth 0 freq None = Some r) /\
  forall k f, nth_error freq k = Some (Some f) ->
    exists i, nth k I None = Some i /\ i = fluxI * Rpower (f / r) SI /\
      (forall q, nth k (snd (fst x)) None = Some q -> nth k Q None = Some (i * q)) /\
      (forall u, nth k (snd x) None = Some u -> nth k U None = Some (i * u)) /\ (f = r -> i = fluxI).
Proof.
  intros freq fluxI SI f0 x I Q U H L1 L2 Hf H0. unfold scale_IQU in H.
  assert (R0 : exists r, (f0 = Some r \/ f0 = None /\ nth 0 freq None = Some r) /\ 0 < r /\
    POk (map (flux_at fluxI SI (Some r)) freq, map (fun ab => omul (fst ab) (snd ab)) (combine (map (flux_at fluxI SI (Some r)) freq) (snd (fst x))),
         map (fun ab => omul (fst ab) (snd ab)) (combine (map (flux_at fluxI SI (Some r)) freq) (snd x))) = POk (I, Q, U)).
  { destruct f0 as [r|].
    - exists r. auto.
    - destruct freq as [|f freq]; [discriminate|]. destruct (Hf f ltac:(left; auto)) as (v & -> & Hv). exists v. auto. }
  clear H. destruct R0 as (r & Hr & Pr & H). apply POk_inj' in H. injection H as <- <- <-. exists r. split; [exact Hr|].
  intros k f Hk. assert (In (Some f) freq) as Hi by (eapply nth_error_In; eauto). destruct (Hf _ Hi) as (v & Ev & Pv). injection Ev as <-.
  assert (F : flux_at fluxI SI (Some r) (Some f) = Some (fluxI * Rpower (f / r) SI)).
  { unfold flux_at, odiv. destruct (Req_EM_T r 0); [lra|]. destruct (Rlt_dec 0 (f / r)) as [|N]; [reflexivity|exfalso; apply N; apply Rdiv_lt_0_compat; auto]. }
  assert (Fk : nth k (map (flux_at fluxI SI (Some r)) freq) None = Some (fluxI * Rpower (f / r) SI)) by (rewrite (nth_map_err _ _ _ (Some f)) by auto; exact F).
  assert (Kl : (k < List.length freq)%nat) by (apply nth_error_Some; congruence).
  assert (C0 : forall y q, List.length y = List.length freq -> nth k y None = Some q ->
     nth k (map (fun ab => omul (fst ab) (snd ab)) (combine (map (flux_at fluxI SI (Some r)) freq) y)) None = Some (fluxI * Rpower (f / r) SI * q)).
  { intros y q Ly Hy. rewrite (nth_indep _ None ((fun ab => omul (fst ab) (snd ab)) (None, None))) by (rewrite map_length, combine_length, map_length; lia).
    rewrite (map_nth (fun ab => omul (fst ab) (snd ab))), combine_nth by (rewrite map_length; auto). rewrite Fk, Hy. reflexivity. }
  eexists. split; [exact Fk|]. split; [reflexivity|]. split; [intros; apply C0; auto|]. split; [intros; apply C0; auto|].
  intros ->. replace (r / r) with 1 by (field; lra). unfold Rpower. rewrite ln_1, Rmult_0_r, exp_0. ring.
Qed.


(** C33: the absolute forms follow from the fractional ones *)
Lemma scaled_of : forall freq fluxI SI f0 x z I Q U, spectra_of freq z x -> scale_IQU freq fluxI SI f0 x = POk (I, Q, U) ->
  (forall f, In f freq -> exists v, f = Some v /\ 0 < v) -> (forall v, f0 = Some v -> 0 < v) ->
  exists r, (f0 = Some r \/ f0 = None /\ nth 0 freq None = Some r) /\ scaled_spectra freq fluxI SI r z I Q U.
Proof.
  intros freq fluxI SI f0 [[p q] u] z I Q U (L0 & L1 & L2 & S) H Hf H0. cbn [fst snd] in *.
  destruct (sim_scaled freq fluxI SI f0 (p, q, u) I Q U H L1 L2 Hf H0) as (r & Hr & K). exists r. split; [exact Hr|].
  intros k f Hk. destruct (K k f Hk) as (i & Hi & Ei & HQ & HU & _). subst i. specialize (S k _ Hk). cbn in S.
  assert (Hi' : In (Some f) freq) by (eapply nth_error_In; eauto). destruct (Hf _ Hi') as (v & Ev & Pv). injection Ev as <-.
  destruct (S ltac:(lra)) as (_ & Sq & Su). split; [exact Hi|]. split; [apply HQ; exact Sq|apply HU; exact Su].
Qed.

Section Absolute.
  Variables (freq : list (option R)) (fluxI SI : R) (f0 : option R).
  Hypothesis Hf : forall f, In f freq -> exists v, f = Some v /\ 0 < v.
  Hypothesis H0 : forall v, f0 = Some v -> 0 < v.

  Theorem sim_IQU_burn : forall p psi RM sg I Q U, List.length psi = List.length p -> List.length RM = List.length p -> List.length sg = List.length p ->
    (forall x, In x sg -> 0 <= x) -> create_IQU_spectra_burn freq fluxI SI p psi RM (Some sg) f0 = POk (I, Q, U) ->
    exists r, (f0 = Some r \/ f0 = None /\ nth 0 freq None = Some r) /\
      scaled_spectra freq fluxI SI r (fun l2 => csum (map (fun k => burn (nth k p 0) (rad (nth k psi 0)) (nth k RM 0) (sqrt (nth k sg 0)) l2) (seq 0 (List.length p)))) I Q U.
  Proof.
    intros p psi RM sg I Q U H1 H2 H3 H4 H. destruct (sim_burn freq p psi RM sg H1 H2 H3 H4) as (x & Ex & Sx).
    unfold create_IQU_spectra_burn in H. rewrite Ex in H. exact (scaled_of _ _ _ _ _ _ _ _ _ Sx H Hf H0).
  Qed.

  Theorem sim_IQU_diff : forall p psi RM I Q U, List.length psi = List.length p -> List.length RM = List.length p ->
    create_IQU_spectra_diff true freq fluxI SI p psi RM f0 = POk (I, Q, U) ->
    exists r z, (f0 = Some r \/ f0 = None /\ nth 0 freq None = Some r) /\
      scaled_spectra freq fluxI SI r (fun l2 => csum (map (fun i => z i l2) (seq 0 (List.length p)))) I Q U /\
      forall i l2, (i < List.length p)%nat ->
        is_average (fun t => thin (nth i p 0) (rad (nth i psi 0)) (layers_in_front RM i + t * nth i RM 0) l2) (z i l2).
  Proof.
    intros p psi RM I Q U H1 H2 H. destruct (sim_diff freq p psi RM H1 H2) as (x & z & Ex & Sx & Sz).
    unfold create_IQU_spectra_diff in H. rewrite Ex in H. destruct (scaled_of _ _ _ _ _ _ _ _ _ Sx H Hf H0) as (r & Hr & K). eauto 6.
  Qed.

  Theorem sim_IQU_thin : forall p psi RM I Q U, create_IQU_spectra_RMthin freq fluxI SI p psi RM f0 = POk (I, Q, U) ->
    exists r, (f0 = Some r \/ f0 = None /\ nth 0 freq None = Some r) /\ scaled_spectra freq fluxI SI r (thin p (rad psi) RM) I Q U.
  Proof.
    intros p psi RM I Q U H. unfold create_IQU_spectra_RMthin in H.
    destruct (create_pqu_spectra_RMthin freq p psi RM) as [[P0 Q0] U0] eqn:E. destruct (sim_RMthin _ _ _ _ _ _ _ E) as (_ & P' & S).
    refine (scaled_of freq fluxI SI f0 (P', Q0, U0) _ _ _ _ S _ Hf H0). exact H.
  Qed.
End Absolute.
