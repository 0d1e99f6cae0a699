(** The 1-D tool: when a run ends. *)
From Coq Require Import Reals List Arith ZArith Bool Lra Lia Sorting.Sorted Permutation.
Set Warnings "-ambiguous-paths".
From Coquelicot Require Import Coquelicot.
From Verif Require Import CBase NdArray PyRes PyList PyList_Proofs Peak_Proofs Interp_Model Synth_Model Synth_Spec Synth_Proofs Synth_Laws Rmsf_Proofs CleanTop_Model
  Setup_Model Setup_Spec Setup_Proofs StokesI_Model StokesI_Spec StokesI_Proofs StokesI_Fit Measure_Model Measure_Spec Measure_Proofs Measure_Laws QU_Model Rmsf_Peak
  Clean_Grid Run1D_Model Run1D_Spec Run1D_Proofs Run1D_Laws.
Import ListNotations.
Local Open Scope R_scope.

(* ------------------------------------------------------- interpolation *)

Lemma pinsert_perm : forall p l, Permutation (pinsert p l) (p :: l).
Proof.
  intros p l. induction l as [|q t IH]; cbn; [constructor; constructor|]. destruct (Rlt_dec (fst q) (fst p)); [|reflexivity].
  rewrite IH. apply perm_swap.
Qed.
Lemma psort_perm : forall l, Permutation (psort l) l.
Proof. intros l. induction l as [|p l IH]; [reflexivity|]. cbn. rewrite pinsert_perm. now constructor. Qed.

Definition below (a b : R * R) : Prop := fst a <= fst b.
Lemma pinsert_sorted : forall p l, StronglySorted below l -> StronglySorted below (pinsert p l).
Proof.
  intros p l H. induction H as [|q t Hs IH Hq]; cbn; [constructor; constructor|]. destruct (Rlt_dec (fst q) (fst p)) as [L|L].
  - constructor; [exact IH|]. rewrite Forall_forall in *. intros x I. apply (Permutation_in _ (pinsert_perm p t)) in I. destruct I as [<-|I]; [unfold below; lra|auto].
  - constructor; [now constructor|]. constructor; [unfold below; lra|]. rewrite Forall_forall in *. intros x I. specialize (Hq x I). unfold below in *. lra.
Qed.
Lemma psort_sorted : forall l, StronglySorted below (psort l).
Proof. intros l. induction l as [|p l IH]; [constructor|]. now apply pinsert_sorted. Qed.

Lemma sorted_nth : forall l i j, StronglySorted below l -> (i <= j < length l)%nat -> fst (nth i l (0, 0)) <= fst (nth j l (0, 0)).
Proof.
  intros l i j H. revert i j. induction H as [|q t Hs IH Hq]; intros i j Hij; [cbn in Hij; lia|].
  destruct i as [|i], j as [|j]; cbn [nth] in *; try lia; [lra| |].
  - rewrite Forall_forall in Hq. apply Hq, nth_In. cbn in Hij. lia.
  - apply IH. cbn in Hij. lia.
Qed.

Lemma count_below : forall l x, StronglySorted below l -> forall k, (k < length l)%nat ->
  (fst (nth k l (0, 0)) < x <-> (k < length (filter (fun a : R * R => if Rlt_dec (fst a) x then true else false) l))%nat).
Proof.
  intros l x H. induction H as [|q t Hs IH Hq]; intros k Hk; [cbn in Hk; lia|]. cbn [filter].
  destruct (Rlt_dec (fst q) x) as [L|L].
  - destruct k as [|k]; cbn [nth length]; [split; [lia|auto]|]. rewrite IH by (cbn in Hk; lia). lia.
  - assert (E : filter (fun a : R * R => if Rlt_dec (fst a) x then true else false) t = []).
    { clear IH Hs Hk. induction Hq as [|r t Hr Ht IHt]; [reflexivity|]. cbn. destruct (Rlt_dec (fst r) x); [unfold below in Hr; lra|]. exact IHt. }
    rewrite E. cbn [length]. split; [|lia]. intros X. exfalso. destruct k as [|k]; cbn [nth] in X; [contradiction|].
    rewrite Forall_forall in Hq. assert (K : (k < length t)%nat) by (cbn in Hk; lia). specialize (Hq (nth k t (0, 0)) (nth_In t (0, 0) K)). unfold below in Hq. lra.
Qed.

Lemma nodup_fst : forall l : list (R * R), NoDup (map fst l) -> forall i j, (i < j < length l)%nat -> fst (nth i l (0, 0)) <> fst (nth j l (0, 0)).
Proof.
  intros l H i j Hij E. rewrite NoDup_nth with (d := 0) in H. assert (i = j); [|lia]. apply H; rewrite ?map_length; try lia.
  rewrite !(nth_map_lt _ _ _ _ (0, 0)) by lia. exact E.
Qed.

(** Linear interpolation between the neighbours of x. *)
Theorem interp1d_between : forall xs ys x, length ys = length xs -> (2 <= length xs)%nat -> NoDup xs ->
  (exists a, In a xs /\ a <= x) -> (exists b, In b xs /\ x <= b) ->
  exists i j, (i < length xs)%nat /\ (j < length xs)%nat /\ nth i xs 0 < nth j xs 0 /\ nth i xs 0 <= x <= nth j xs 0 /\
    (forall a, In a xs -> a <= nth i xs 0 \/ nth j xs 0 <= a) /\
    interp1d xs ys x = POk (Some (nth i ys 0 + (x - nth i xs 0) / (nth j xs 0 - nth i xs 0) * (nth j ys 0 - nth i ys 0))).
Proof.
  intros xs ys x L L2 ND (a & Ia & Ha) (b & Ib & Hb). unfold interp1d. rewrite L, Nat.eqb_refl. cbn [negb].
  set (p := psort (combine xs ys)). cbv zeta.
  assert (PP : Permutation p (combine xs ys)) by apply psort_perm. assert (PS : StronglySorted below p) by apply psort_sorted.
  assert (LP : length p = length xs) by (rewrite (Permutation_length PP), combine_length; lia).
  assert (FX : map fst (combine xs ys) = xs).
  { clear -L. revert ys L. induction xs as [|x xs IH]; intros [|y ys] L; cbn in *; try lia; [reflexivity|]. f_equal. apply IH. lia. }
  assert (PX : Permutation (map fst p) xs) by (rewrite (Permutation_map fst PP), FX; reflexivity).
  assert (NP : NoDup (map fst p)) by (apply (Permutation_NoDup (Permutation_sym PX)); auto).
  assert (IN : forall k, (k < length p)%nat -> exists i, (i < length xs)%nat /\ nth k p (0, 0) = (nth i xs 0, nth i ys 0)).
  { intros k Hk. assert (I : In (nth k p (0, 0)) (combine xs ys)) by (apply (Permutation_in _ PP), nth_In; auto).
    apply (In_nth _ _ (0, 0)) in I. destruct I as (i & Hi & E). rewrite combine_length in Hi. exists i. split; [lia|]. rewrite <- E. now rewrite combine_nth by auto. }
  assert (XI : forall c, In c xs -> exists k, (k < length p)%nat /\ fst (nth k p (0, 0)) = c).
  { intros c Ic. apply (Permutation_in _ (Permutation_sym PX)) in Ic. apply (In_nth _ _ 0) in Ic. destruct Ic as (k & Hk & E). rewrite map_length in Hk.
    exists k. split; auto. rewrite (nth_map_lt _ _ _ _ (0, 0)) in E by auto. exact E. }
  destruct (XI a Ia) as (ka & Ka & Ea). destruct (XI b Ib) as (kb & Kb & Eb).
  destruct p as [|p0 pt] eqn:EP; [cbn in LP; lia|]. rewrite <- EP in *. clear EP p0 pt.
  assert (A0 : ~ x < fst (nth 0 p (0, 0))) by (pose proof (sorted_nth p 0 ka PS ltac:(lia)); lra).
  assert (B0 : ~ fst (nth (length p - 1) p (0, 0)) < x) by (pose proof (sorted_nth p kb (length p - 1) PS ltac:(lia)); lra).
  destruct (Rlt_dec x _); [contradiction|]. destruct (Rlt_dec _ x); [contradiction|].
  pose proof (count_below p x PS) as CB. set (idx := length (filter _ p)) in *.
  set (hi := Nat.min (length p - 1) (Nat.max 1 idx)).
  assert (I1 : (idx <= length p - 1)%nat).
  { destruct (le_lt_dec idx (length p - 1)); auto. exfalso. apply B0. apply CB; lia. }
  assert (H1 : (1 <= hi <= length p - 1)%nat) by (unfold hi; lia).
  assert (B1 : fst (nth (hi - 1) p (0, 0)) <= x).
  { destruct (Nat.eq_dec idx 0) as [Z|Z]; [replace (hi - 1)%nat with 0%nat by (unfold hi; lia); lra|]. left. apply CB; unfold hi; lia. }
  assert (B2 : x <= fst (nth hi p (0, 0))).
  { destruct (Rle_dec x (fst (nth hi p (0, 0)))); auto. exfalso. assert (hi < idx)%nat by (apply CB; [lia|lra]). unfold hi in *. lia. }
  pose proof (sorted_nth p (hi - 1) hi PS ltac:(lia)) as S1. pose proof (nodup_fst p NP (hi - 1) hi ltac:(lia)) as S2.
  assert (S3 : forall c, In c xs -> c <= fst (nth (hi - 1) p (0, 0)) \/ fst (nth hi p (0, 0)) <= c).
  { intros c Ic. destruct (XI c Ic) as (k & Hk & <-). destruct (le_lt_dec k (hi - 1)); [left|right]; apply sorted_nth; auto; lia. }
  destruct (IN (hi - 1)%nat ltac:(lia)) as (i & Hi & Ei). destruct (IN hi ltac:(lia)) as (j & Hj & Ej).
  rewrite Ei, Ej in *. cbn [fst snd] in *. exists i, j. split; [auto|]. split; [auto|]. split; [lra|]. split; [lra|]. split; [exact S3|].
  unfold odiv, omul, oadd, o2. destruct (Req_EM_T (nth j xs 0 - nth i xs 0) 0); [lra|]. do 2 f_equal. field. lra.
Qed.

(** Outside the table the interpolation raises. *)
Theorem interp1d_outside : forall xs ys x, (forall a, In a xs -> x < a) \/ (forall a, In a xs -> a < x) -> interp1d xs ys x = PErr.
Proof.
  intros xs ys x H. unfold interp1d. destruct (Nat.eqb_spec (length xs) (length ys)) as [L|L]; cbn [negb]; [|reflexivity].
  set (p := psort (combine xs ys)). cbv zeta. assert (PP : Permutation p (combine xs ys)) by apply psort_perm.
  destruct p as [|p0 pt] eqn:EP; [reflexivity|]. rewrite <- EP in *.
  assert (IN : forall k, (k < length p)%nat -> In (fst (nth k p (0, 0))) xs).
  { intros k Hk. assert (I : In (nth k p (0, 0)) (combine xs ys)) by (apply (Permutation_in _ PP), nth_In; auto).
    destruct (nth k p (0, 0)) as [u v]. apply in_combine_l in I. exact I. }
  assert (LP : (0 < length p)%nat) by (rewrite EP; cbn; lia). clear EP p0 pt.
  destruct (Rlt_dec x _) as [|N]; [reflexivity|]. destruct (Rlt_dec _ x) as [|M]; [reflexivity|]. exfalso.
  destruct H as [H|H]; [apply N, H, IN; auto|apply M, H, IN; lia].
Qed.

(* --------------------------------------------------------------- parts *)

Lemma rmax_nonempty : forall l, l <> [] -> exists m, rmax_list l = Some m.
Proof. intros [|x l] H; [congruence|]. cbn. eauto. Qed.
Lemma rmin_nonempty : forall l, l <> [] -> exists m, rmin_list l = Some m.
Proof. intros [|x l] H; [congruence|]. cbn. eauto. Qed.

Lemma calc_sigma_total : forall n y dy med ns, (2 <= ns)%nat -> exists r, calc_sigma_add n y dy med ns = POk r.
Proof.
  intros n y dy med ns H. unfold calc_sigma_add. assert (E : (ns <? 2)%nat = false) by (apply Nat.ltb_ge; lia). rewrite E.
  destruct (rmax_list _); [|eauto]. destruct (rmin_list _); [|eauto]. destruct (Rle_dec _ 0); [eauto|].
  unfold linspace. assert (E2 : (Z.of_nat ns <? 0)%Z = false) by (apply Z.ltb_ge; lia). rewrite E2, Nat2Z.id. cbn [pybind].
  match goal with |- context [rmax_list (map ?f ?l)] => destruct (rmax_nonempty (map f l)) as [m ->] end; [|eauto].
  destruct ns as [|[|ns]]; [lia|lia|]. cbn [seq map]. discriminate.
Qed.

Lemma complexity_total : forall freq q u dq du p a r, exists x, measure_qu_complexity freq q u dq du p a r = POk x.
Proof.
  intros freq q u dq du p a r. unfold measure_qu_complexity.
  match goal with |- exists x, pybind ?e _ = _ => assert (E : exists t, e = POk t) end.
  { destruct p, a, r; eauto. unfold create_pqu_spectra_burn. cbn. eauto. }
  destruct E as ([[t1 t2] t3] & ->). cbn [pybind].
  repeat match goal with |- context [pybind (calc_sigma_add ?n ?y ?dy ?m ?ns)] =>
    let H := fresh in destruct (calc_sigma_total n y dy m ns) as [? H]; [apply Nat.leb_le; reflexivity|rewrite H; clear H; cbn [pybind]] end.
  eauto.
Qed.

Lemma inv_var_total : forall d, (forall j, nth j d None <> Some 0) -> exists w, inv_var d = POk w.
Proof.
  induction d as [|[x|] d IH]; intros H; cbn; [eauto| |].
  - pose proof (H 0%nat) as H0. cbn in H0. destruct (Req_EM_T x 0) as [Z|Z]; [congruence|]. destruct IH as [w ->]; [intros j; apply (H (S j))|]. cbn. eauto.
  - destruct IH as [w ->]; [intros j; apply (H (S j))|]. cbn. eauto.
Qed.

Lemma lsq_inj : forall f g, 0 < f -> 0 < g -> lsq f = lsq g -> f = g.
Proof.
  intros f g Hf Hg E. unfold lsq in E. assert (A : 0 < 299792458 / f) by (apply Rdiv_lt_0_compat; lra). assert (B : 0 < 299792458 / g) by (apply Rdiv_lt_0_compat; lra).
  assert (X : 299792458 / f = 299792458 / g) by (assert ((299792458 / f - 299792458 / g) * (299792458 / f + 299792458 / g) = 0) as M by lra; apply Rmult_integral in M; lra). apply (f_equal (fun t => 299792458 / t)) in X.
  replace (299792458 / (299792458 / f)) with f in X by (field; lra). replace (299792458 / (299792458 / g)) with g in X by (field; lra). exact X.
Qed.

Lemma classic_steps : forall l : list R, (forall j, (S j < length l)%nat -> nth (S j) l 0 = nth j l 0) \/ exists j, (S j < length l)%nat /\ nth (S j) l 0 <> nth j l 0.
Proof.
  intros l. induction l as [|x l IH]; [left; intros j H; cbn in H; lia|]. destruct IH as [IH|(j & Hj & N)]; [|right; exists (S j); split; [cbn; lia|exact N]].
  destruct l as [|y l]; [left; intros j H; cbn in H; lia|]. destruct (Req_EM_T y x) as [E|E].
  - left. intros [|j] H; [exact E|]. apply (IH j). cbn in *. lia.
  - right. exists 0%nat. split; [cbn; lia|exact E].
Qed.

Lemma all_equal_steps : forall l : list R, (forall j, (S j < length l)%nat -> nth (S j) l 0 = nth j l 0) -> forall i, (i < length l)%nat -> nth i l 0 = nth 0 l 0.
Proof. intros l H i. induction i as [|i IH]; intros Hi; [reflexivity|]. rewrite H by auto. apply IH. lia. Qed.

Lemma grid_total : forall o freq, (forall f, In f freq -> 0 < f) -> (exists f g, In f freq /\ In g freq /\ f <> g) ->
  exists dp, grid_params (map (fun f => (c_light / f) ^ 2) freq) (o_super o) (o_dPhi o) (o_phiMax o) (o_nSamples o) = POk dp.
Proof.
  intros o freq HP (f & g & If & Ig & N). change (map (fun f => (c_light / f) ^ 2) freq) with (map lsq freq). unfold grid_params.
  assert (N2 : lsq f <> lsq g) by (intros E; apply N, lsq_inj; auto).
  assert (I1 : In (lsq f) (map lsq freq)) by now apply in_map. assert (I2 : In (lsq g) (map lsq freq)) by now apply in_map.
  destruct (rmax_nonempty (map lsq freq)) as [mx E1]; [intros Z; rewrite Z in I1; destruct I1|]. rewrite E1.
  destruct (rmin_nonempty (map lsq freq)) as [mn E2]; [intros Z; rewrite Z in I1; destruct I1|]. rewrite E2.
  apply rmax_list_spec in E1. apply rmin_list_spec in E2. destruct E1 as [M1 M2]. destruct E2 as [M3 M4].
  assert (PL : forall x, In x (map lsq freq) -> 0 < x).
  { intros x I. apply in_map_iff in I. destruct I as (h & <- & I). apply pow_lt, Rdiv_lt_0_compat; [lra|auto]. }
  pose proof (PL mx M1). pose proof (PL mn M3). pose proof (M2 _ I1). pose proof (M2 _ I2). pose proof (M4 _ I1). pose proof (M4 _ I2).
  assert (X : mx - mn <> 0) by (intros Z; apply N2; lra).
  assert (G : exists gap, rmax_list (map Rabs (np_diff (map lsq freq))) = Some gap /\ gap <> 0).
  { rewrite np_diff_seq, map_map. set (l := map lsq freq) in *.
    assert (EX : exists j, (S j < length l)%nat /\ nth (S j) l 0 <> nth j l 0).
    { destruct (classic_steps l) as [E|E]; [|exact E]. exfalso. apply (In_nth _ _ 0) in I1, I2. destruct I1 as (i & Hi & E3). destruct I2 as (k & Hk & E4).
      rewrite (all_equal_steps l E i Hi) in E3. rewrite (all_equal_steps l E k Hk) in E4. congruence. }
    destruct EX as (j & Hj & Nj).
    match goal with |- context [rmax_list ?L] => destruct (rmax_nonempty L) as [gap EG] end.
    { intros Z. apply (f_equal (@length R)) in Z. rewrite map_length, seq_length in Z. cbn in Z. lia. }
    rewrite EG. exists gap. split; [reflexivity|]. apply rmax_list_spec in EG. destruct EG as [_ GM].
    specialize (GM (Rabs (nth (S j) l 0 - nth j l 0))). assert (0 < Rabs (nth (S j) l 0 - nth j l 0)) by (apply Rabs_pos_lt; lra).
    intros Z. rewrite Z in GM. assert (Rabs (nth (S j) l 0 - nth j l 0) <= 0); [|lra]. apply GM. apply in_map_iff. exists j. split; [reflexivity|]. apply in_seq. lia. }
  destruct G as (gap & -> & GN).
  destruct (o_super o); repeat match goal with |- context [Req_EM_T ?a 0] => destruct (Req_EM_T a 0); [lra|] end; destruct (o_dPhi o), (o_phiMax o); eauto.
Qed.

Lemma frac_first : forall mpfit o freq iA Q U dI dQ dU IM q u dq du fr fm,
  (0 < length freq)%nat -> length iA = length freq -> length dI = length freq -> (forall f, In f freq -> 0 < f) -> good_opts mpfit o (length freq) ->
  create_frac_spectra mpfit freq iA Q U dI dQ dU (o_polyOrd o) (o_fitfun o) (o_modStokesI o) = Some (IM, q, u, dq, du, fr) ->
  first_model mpfit o freq iA dI fm -> (exists cov, pcov fr = Some cov) /\ forall j, (j < length freq)%nat -> nth j IM 0 = fm j.
Proof.
  intros mpfit o freq iA Q U dI dQ dU IM q u dq du fr fm Hn LI LdI Hf (LP & E & Lm) H FM. unfold create_frac_spectra in H. unfold first_model in FM.
  match type of H with (if ?b then _ else _) = _ => destruct b; [discriminate|] end.
  match type of H with (let '(_, _) := ?e in _) = _ => destruct e as [M fr1] eqn:EM end.
  injection H as -> <- <- <- <- <-. destruct (o_modStokesI o) as [m|].
  - injection EM as <- <-. split; [eexists; reflexivity|]. intros j Hj. now rewrite FM.
  - destruct FM as [_ FM]. destruct (fit_StokesI_model mpfit freq iA dI (o_polyOrd o) (o_fitfun o)) as [fr0|] eqn:EF; cbn [pybind] in EM.
    + pose proof (fit_params_len _ _ _ _ _ _ _ LP EF) as L6. pose proof (fit_fun_kept _ _ _ _ _ _ _ EF) as FK. destruct FM as [PC FM].
      rewrite calc_spec in EM by (auto; congruence). cbn [pybind] in EM.
      destruct (map (model_at fr0) freq) as [|m0 mt] eqn:EMp; [apply (f_equal (@length R)) in EMp; rewrite map_length in EMp; cbn in EMp; lia|].
      rewrite <- EMp in EM. cbv zeta in EM. injection EM as <- <-. split; [destruct (existsb _ _); destruct (existsb _ _); exact PC|].
      intros j Hj. rewrite (nth_map_lt _ _ _ _ 0) by auto. now rewrite FM.
    + injection EM as <- <-. split; [eexists; reflexivity|]. intros j Hj. rewrite (nth_map_lt _ _ _ _ None) by lia. now rewrite FM.
Qed.

Lemma pos_term : forall chs, 0 < wsum chs -> exists c, In c chs /\ 0 < c_w c.
Proof.
  unfold wsum. induction chs as [|c l IH]; cbn [map]; rewrite ?rsum_nil, ?rsum_cons; intros H; [lra|].
  destruct (Rlt_dec 0 (c_w c)) as [P|P]; [exists c; split; [now left|auto]|]. destruct IH as (x & I & X); [lra|]. exists x. split; [now right|auto].
Qed.

Lemma used_ext : forall freq Q U m1 m2 w1 w2, (forall j, (j < length freq)%nat -> m1 j = m2 j) -> (forall j, (j < length freq)%nat -> nth j w1 0 = nth j w2 0) ->
  used_chans freq Q U m1 w1 = used_chans freq Q U m2 w2.
Proof. intros freq Q U m1 m2 w1 w2 H1 H2. unfold used_chans. apply flat_map_ext_in. intros j J. apply in_seq in J. rewrite H1, H2 by lia. reflexivity. Qed.

(** A run on good input with a signal ends. *)
Theorem run_succeeds : forall mpfit fit d o freq iA Q U dI dQ dU fm,
  good_input d (o_noStokesI o) freq iA Q U dI dQ dU -> good_opts mpfit o (length freq) ->
  first_model mpfit o freq iA dI fm -> run_ready o freq Q U dQ dU fm ->
  exists out, run_rmsynth mpfit fit d o = POk out /\ forall j, (j < length freq)%nat -> stokes_model o (r_fit out) freq j = fm j.
Proof.
  intros mpfit fit d o freq iA Q U dI dQ dU fm GI GO FM (TW & TB & VA & RR).
  assert (GI' := GI). destruct GI' as (IC & LI & LQ & LU & LdI & LdQ & LdU & Hf). assert (GO' := GO). destruct GO' as (LP & OF & LM).
  assert (Hn : (2 <= length freq)%nat).
  { destruct TW as (f & g & I1 & I2 & N). destruct freq as [|x [|y t]]; cbn in *; [contradiction| |lia]. destruct I1 as [<-|[]], I2 as [<-|[]]. congruence. }
  cbv zeta in RR. set (w1 := map _ (seq 0 (length freq))) in RR. destruct RR as (WP & GR).
  destruct (create_frac_spectra mpfit freq iA Q U dI dQ dU (o_polyOrd o) (o_fitfun o) (o_modStokesI o)) as [[[[[[IM q] u] dq] du] fr]|] eqn:EF.
  2: { exfalso. unfold first_model in FM. destruct (o_modStokesI o) as [m|] eqn:EM; [unfold create_frac_spectra in EF; discriminate|].
       apply (frac_spectra_nan mpfit freq iA Q U dI dQ dU _ _ ltac:(lia) LI LdI OF) in EF. destruct EF as [EF _].
       destruct FM as ((j & Hj & A & B) & _). destruct (EF j Hj); congruence. }
  destruct (frac_model mpfit freq iA Q U dI dQ dU _ _ _ _ _ _ _ _ _ ltac:(lia) LI LQ LU LdI LdQ LdU Hf LM OF LP EF) as (US & LIM & HIM & Lq & Lu & Ldq & Ldu & FR).
  destruct (frac_first mpfit o freq iA Q U dI dQ dU IM q u dq du fr fm ltac:(lia) LI LdI Hf GO EF FM) as (PCV & IMF).
  destruct (grid_total o freq Hf TW) as [dp EG]. pose proof (grid_choice o freq dp EG) as CG. destruct (GR _ _ CG) as (NZ & HP & z & Hz & FZ).
  destruct (depth_grid_1D_spec (snd dp) (fst dp) NZ) as (phi & h & EP & OC & OH).
  assert (SP : 0 < Rabs (fst dp)) by now apply Rabs_pos_lt.
  assert (HH : (1 <= h)%nat).
  { destruct h; [|lia]. simpl INR in OH. rewrite Rmult_0_l in OH. replace (0 - Rabs (snd dp)) with (- Rabs (snd dp)) in OH by ring. rewrite Rabs_Ropp, Rabs_Rabsolu in OH. lra. }
  assert (ZH : (Z.abs z <= Z.of_nat h)%Z).
  { apply Z.lt_succ_r, lt_IZR. rewrite succ_IZR, abs_IZR, <- INR_IZR_INZ. assert (Rabs (IZR z) <= INR h + 0).
    2:{ lra. } rewrite Rplus_0_r. apply (Rmult_le_reg_r (Rabs (fst dp))); auto. unfold Rabs in OH at 1. destruct (Rcase_abs _); lra. }
  pose proof (odd_centred_antisym _ _ _ OC) as AS. destruct OC as [OL ON].
  assert (EW : exists w, weights_1D (o_variance o) (length freq) (dqu_of dq du) = POk w).
  { unfold weights_1D. destruct (o_variance o) eqn:EV; [|eauto]. apply inv_var_total. intros j. rewrite (dqu_nth) by congruence.
    destruct (lt_dec j (length freq)) as [Hj|Hj]; [|rewrite nth_overflow by lia; discriminate].
    destruct (FR j Hj) as (_ & _ & F1 & F2). unfold fraction in F1, F2. destruct (nth j dq None) as [a|]; [|discriminate]. destruct (nth j du None) as [b|]; [|discriminate].
    destruct F1 as (A & EA & N1 & ->). destruct F2 as (B & EB & _ & ->). rewrite IMF in * by auto. specialize (VA eq_refl j A B EA EB N1). intros [= X].
    apply VA. assert (Y : Rabs (A / fm j + B / fm j) = 0) by lra. apply Rabs_eq_0 in Y. replace (A / fm j + B / fm j) with ((A + B) / fm j) in Y by (field; auto).
    apply (Rmult_eq_compat_r (fm j)) in Y. unfold Rdiv in Y. rewrite Rmult_assoc, Rinv_l, Rmult_1_r in Y by auto. lra. }
  destruct EW as [w EW].
  destruct (weights_spec (o_variance o) (length freq) dQ dU IM dq du w Ldq Ldu) as [Lw Hw]; [intros j Hj; destruct (FR j Hj) as (_ & _ & X); exact X|exact EW|].
  assert (WN : forall j, (j < length freq)%nat -> nth j (map nan0 w) 0 = nth j w1 0).
  { intros j Hj. rewrite Hw by auto. unfold w1. rewrite nth_map_seq by auto. now rewrite IMF. }
  set (l2 := map (fun f => (c_light / f) ^ 2) freq) in *. assert (Ll2 : length l2 = length freq) by (unfold l2; apply map_length).
  assert (V : valid_synth (mk_nd [length l2] q) (mk_nd [length l2] u) l2 (Some w)) by (repeat split; cbn; lia).
  destruct (synth_refines _ _ _ phi _ (if o_super o then Some 0 else None) V AS) as (r & ES & EL & EC).
  cbv zeta in EL, EC. change (npix (mk_nd [length l2] q)) with 1%nat in EL, EC. cbn [flat] in EL, EC.
  rewrite Ll2 in EL, EC. change (weights_of (length freq) (Some w)) with (map nan0 w) in EL, EC.
  destruct (live_one (length freq) q u l2 (map nan0 w)) as [LV1 LV2]. rewrite LV1, LV2 in EL.
  assert (PC : pixel_chans (length freq) 1 q u l2 (map nan0 w) 0 = used_chans freq Q U fm w1).
  { rewrite <- (used_ext freq Q U fm fm (map nan0 w) w1) by auto. apply (used_eq freq Q U fm IM); auto. intros j Hj. destruct (FR j Hj) as (X1 & X2 & _). auto. }
  set (chs := used_chans freq Q U fm w1) in *. rewrite PC in EL.
  assert (EL' : synth_lam0 r = if o_super o then 0 else mean_l2 chs).
  { rewrite EL. destruct (o_super o); [reflexivity|]. destruct (Req_EM_T (wsum chs) 0); [lra|reflexivity]. }
  assert (INC : forall c, In c chs -> exists j, (j < length freq)%nat /\ c_l2 c = lsq (nth j freq 0) /\ 0 <= c_w c /\ c_w c = nth j w1 0 /\ nth j Q None <> None /\ fm j <> 0).
  { intros c Ic. unfold chs, used_chans in Ic. apply in_flat_map in Ic. destruct Ic as (j & J & Ic). apply in_seq in J.
    destruct (nth j Q None) as [a|] eqn:Ea; [|destruct Ic]. destruct (nth j U None); [|destruct Ic]. destruct (Req_EM_T (fm j) 0); [destruct Ic|]. destruct Ic as [<-|[]].
    exists j. cbn [c_l2 c_w]. split; [lia|]. split; [reflexivity|]. split; [|split; [reflexivity|split; [congruence|auto]]].
    unfold w1. rewrite nth_map_seq by lia. cbn [Nat.add]. unfold chan_weight. destruct (o_variance o); [|lra]. destruct (nth j dQ None), (nth j dU None); try lra. apply pow2_ge_0. }
  assert (LSP : forall f, In f freq -> 0 < lsq f) by (intros f If; apply pow_lt, Rdiv_lt_0_compat; [lra|auto]).
  assert (MP : 0 < mean_l2 chs).
  { apply wsum_mean_pos; [|lra]. intros c Ic. destruct (INC c Ic) as (j & Hj & -> & W0 & _). split; auto. apply LSP, nth_In. auto. }
  assert (VAL : forall k, (k < length phi)%nat -> nth k (flat (FDFcube r)) None = Some (FDF_spec chs (synth_lam0 r) (nth k phi 0))).
  { intros k Hk. destruct (EC k 0%nat Hk ltac:(lia)) as [_ E1]. rewrite PC in E1. destruct (E1 ltac:(lra)) as [[E2 _] E3]. unfold at2 in E2, E3.
    replace (k * 1 + 0)%nat with k in E2, E3 by lia. destruct (nth k (flat (FDFcube r)) None) as [v|] eqn:Ev; [now rewrite (E3 v eq_refl)|].
    exfalso. apply FZ. rewrite <- EL'. apply (E2 eq_refl). set (i := Z.to_nat (z + Z.of_nat h)).
    replace (IZR z * fst dp) with (nth i phi 0); [apply nth_In; unfold i; lia|]. rewrite ON by (unfold i; lia). f_equal.
    rewrite !INR_IZR_INZ, <- minus_IZR. f_equal. unfold i. lia. }
  (* the spread function *)
  assert (HG : exists phi2, phi2_grid true phi = Some phi2) by (rewrite phi2_double by lia; eauto). destruct HG as [phi2 HG].
  assert (VR : valid_rmsf l2 (Some w) (mk_nd [length l2] (map is_none q))).
  { unfold valid_rmsf. cbn [shape flat]. repeat split; cbn; rewrite ?map_length; try lia. intros Z. apply (f_equal (@length R)) in Z. cbn in Z. lia. }
  destruct (rmsf_refines (fit (o_super o)) l2 phi (Some w) _ (Some (synth_lam0 r)) true (o_fitRMSF o || o_super o) phi2 VR HG) as (s & ER & _).
  (* the reference *)
  assert (EA : exists x, at_reference freq (o_modStokesI o) fr (synth_lam0 r) = POk x /\ (exists i, snd x = Some i)).
  { unfold at_reference. destruct US as (U1 & U2 & U3). destruct (o_super o) eqn:SR; rewrite EL'.
    - destruct (Req_EM_T 0 0) as [_|X]; [|congruence]. cbn [pybind]. destruct (o_modStokesI o) as [m|] eqn:EMI; [destruct (TB m eq_refl); discriminate|].
      rewrite calc_spec by auto. cbn [map pybind]. eexists. split; [reflexivity|]. eexists. reflexivity.
    - destruct (Req_EM_T (mean_l2 chs) 0) as [X|_]; [lra|]. destruct (Rlt_dec (mean_l2 chs) 0) as [X|_]; [lra|].
      change c_light with 299792458. set (f0 := 299792458 / sqrt (mean_l2 chs)). destruct (o_modStokesI o) as [m|] eqn:EMI.
      + cbn [pybind]. destruct (TB m eq_refl) as [ND _].
        destruct (rmin_nonempty freq) as [lo E1]; [destruct freq; [cbn in Hn; lia|discriminate]|]. apply rmin_list_spec in E1. destruct E1 as [I1 B1].
        destruct (rmax_nonempty freq) as [hi E2]; [destruct freq; [cbn in Hn; lia|discriminate]|]. apply rmax_list_spec in E2. destruct E2 as [I2 B2].
        assert (MB : lsq hi <= mean_l2 chs <= lsq lo).
        { apply mean_between; auto; [intros c Ic; destruct (INC c Ic) as (j & _ & _ & X & _); exact X|]. intros c Ic _. destruct (INC c Ic) as (j & Hj & -> & _).
          assert (Ij : In (nth j freq 0) freq) by (apply nth_In; auto). pose proof (Hf _ Ij). pose proof (Hf _ I1). pose proof (Hf _ I2). specialize (B1 _ Ij). specialize (B2 _ Ij).
          unfold lsq. split; apply pow_incr; split; try (left; apply Rdiv_lt_0_compat; lra); apply Rmult_le_compat_l; try lra; apply Rinv_le_contravar; lra. }
        assert (SQ : forall f, 0 < f -> sqrt (lsq f) = 299792458 / f) by (intros f Pf; unfold lsq; apply sqrt_pow2; left; apply Rdiv_lt_0_compat; lra).
        assert (S1 : 299792458 / hi <= sqrt (mean_l2 chs) <= 299792458 / lo) by (rewrite <- !SQ by auto; split; apply sqrt_le_1_alt; lra).
        assert (S0 : 0 < sqrt (mean_l2 chs)) by (now apply sqrt_lt_R0).
        pose proof (Hf _ I1) as P1. pose proof (Hf _ I2) as P2.
        assert (F1 : lo <= f0).
        { unfold f0. apply (Rmult_le_reg_r (sqrt (mean_l2 chs))); auto. replace (299792458 / sqrt (mean_l2 chs) * sqrt (mean_l2 chs)) with 299792458 by (field; lra).
          replace 299792458 with (lo * (299792458 / lo)) by (field; lra). apply Rmult_le_compat_l; lra. }
        assert (F2 : f0 <= hi).
        { unfold f0. apply (Rmult_le_reg_r (sqrt (mean_l2 chs))); auto. replace (299792458 / sqrt (mean_l2 chs) * sqrt (mean_l2 chs)) with 299792458 by (field; lra).
          replace 299792458 with (hi * (299792458 / hi)) at 1 by (field; lra). apply Rmult_le_compat_l; lra. }
        destruct (interp1d_between freq m f0 (LM m eq_refl) Hn ND (ex_intro _ lo (conj I1 F1)) (ex_intro _ hi (conj I2 F2))) as (i & j & _ & _ & _ & _ & _ & ->).
        cbn [map pybind]. eexists. split; [reflexivity|]. eexists. reflexivity.
      + assert (GF : good_fit fr) by (repeat split; auto). destruct (renorm_ok fr f0 GF) as (fr2 & R & L6 & EFF & ERF & _). rewrite R. cbn [pybind].
        rewrite calc_spec by (auto; congruence). cbn [map pybind]. eexists. split; [reflexivity|]. eexists. reflexivity. }
  destruct EA as ([[freq0 fr'] I0'] & EA & (i0 & EI)). cbn in EI. subst I0'.
  set (F := scale_FDF (Some i0) (flat (FDFcube r))).
  assert (LF : length F = length phi) by (unfold F, scale_FDF; rewrite map_length; eapply synth_len; exact ES).
  destruct (measure_defined F phi (nth 0 (flat (fwhmRMSFArr s)) None) (Some (dFDFth i0 w (dqu_of dq du))) l2 (synth_lam0 r) 5 LF) as [m EM].
  { exists 1%nat. eexists. split; [lia|]. unfold F. rewrite (scale_nth), VAL by lia. reflexivity. }
  destruct (complexity_total freq q u dq du (odiv (ampPeakPIfitEff m) (Some i0)) (polAngle0Fit_deg m) (phiPeakPIfit m)) as [sg EQ].
  assert (GN : good_freqs freq w q <> []).
  { destruct (pos_term chs) as (c & Ic & Pc); [lra|]. destruct (INC c Ic) as (j & Hj & _ & _ & E1 & E2 & E3). unfold good_freqs.
    rewrite (map_combine_seq freq w q _ 0 None None) by congruence. intros Z. apply map_eq_nil in Z.
    assert (I : In j (filter (fun j => (negb (if Req_EM_T (nan0 (fst (snd (nth j freq 0, (nth j w None, nth j q None))))) 0 then true else false) &&
       is_some (snd (snd (nth j freq 0, (nth j w None, nth j q None)))))%bool) (seq 0 (length freq)))).
    { apply filter_In. split; [apply in_seq; lia|]. cbn [fst snd]. specialize (WN j Hj). rewrite (nth_map_lt _ _ _ _ None) in WN by lia. rewrite WN, <- E1.
      destruct (Req_EM_T (c_w c) 0); [lra|]. cbn [negb andb]. destruct (FR j Hj) as (F1 & _). unfold fraction in F1. rewrite IMF in F1 by auto.
      destruct (nth j q None); [reflexivity|]. destruct F1; contradiction. }
    rewrite Z in I. destruct I. }
  assert (RUN : exists out, run_rmsynth mpfit fit d o = POk out /\ r_fit out = fr').
  { unfold run_rmsynth. assert (P : parse_data d (o_noStokesI o) = Some (freq, (iA, dI), (Q, U), (dQ, dU))).
    { destruct IC as [(I1 & dI1 & -> & X)|(-> & -> & ->)]; cbn; [destruct (o_noStokesI o); destruct X as [-> ->]; reflexivity|reflexivity]. }
    rewrite P, EF.
    assert (FST : match o_modStokesI o with
            | None => pybind (calculate_StokesI_model fr freq) (fun _ => POk tt)
            | Some mI => if Nat.eqb (length freq) (length mI) then POk tt else PErr end = POk tt).
    { destruct (o_modStokesI o) as [mI|]; [rewrite (LM mI eq_refl), Nat.eqb_refl; reflexivity|]. destruct US as (U1 & U2 & _). rewrite calc_spec by auto. reflexivity. }
    rewrite FST. cbn [pybind]. fold l2. rewrite EG. cbn [pybind]. rewrite EP. cbn [pybind]. rewrite EW. cbn [pybind].
    rewrite Lq, Lu, <- Ll2, ES, ER, EA. cbn [pybind]. fold F. rewrite EM. cbn [pybind].
    match goal with |- context [match ?g with [] => PErr | _ :: _ => _ end] => change g with (good_freqs freq w q) end.
    destruct (good_freqs freq w q) as [|g0 gt]; [congruence|]. rewrite EQ. cbn [pybind]. eexists. split; [reflexivity|]. reflexivity. }
  destruct RUN as (out & RUN & EO). exists out. split; [exact RUN|]. intros j Hj. unfold stokes_model.
  destruct (o_modStokesI o) as [m1|] eqn:EMI; [unfold first_model in FM; rewrite EMI in FM; symmetry; now apply FM|].
  rewrite EO. rewrite <- IMF, HIM by auto. assert (L0 : 0 <= synth_lam0 r) by (rewrite EL'; destruct (o_super o); lra).
  destruct (at_reference_spec freq _ fr _ _ _ _ US L0 EA) as (_ & _ & _ & A4 & _). apply A4, Hf, nth_In. auto.
Qed.

(* ---------------------------------------------------- a table of Stokes I *)

Section Table.
  Variables (mpfit : mpin -> pyres mpres) (fit : bool -> list R -> list (option C) -> option (Z * R)).

  (** The Stokes I value that scales the spectrum is interpolated between the
      channels next to the reference frequency. *)
  Theorem run_table_interpolates : forall d o freq iA Q U dI dQ dU out m,
    good_input d (o_noStokesI o) freq iA Q U dI dQ dU -> good_opts mpfit o (length freq) -> run_rmsynth mpfit fit d o = POk out ->
    o_modStokesI o = Some m -> NoDup freq ->
    exists i j, (i < length freq)%nat /\ (j < length freq)%nat /\ nth i freq 0 < nth j freq 0 /\ nth i freq 0 <= r_freq0 out <= nth j freq 0 /\
      (forall f, In f freq -> f <= nth i freq 0 \/ nth j freq 0 <= f) /\
      r_Ifreq0 out = Some (nth i m 0 + (r_freq0 out - nth i freq 0) / (nth j freq 0 - nth i freq 0) * (nth j m 0 - nth i m 0)).
  Proof.
    intros d o freq iA Q U dI dQ dU out m GI GO RUN EM ND.
    destruct (run_refines _ _ _ _ _ _ _ _ _ _ _ _ GI GO RUN) as (h & step & pm & I0 & (mx & mn & gap & _ & _ & [IG _] & _) & _ & _ & _ & _ & _ & _ & _ & _ & _ & _ & _ & EI & HI & _).
    rewrite EM in HI. destruct GO as (_ & _ & LM). specialize (LM m EM).
    assert (Hn : (2 <= length freq)%nat) by (apply in_map_iff in IG; destruct IG as (j & _ & J); apply in_seq in J; lia).
    assert (A : exists a, In a freq /\ a <= r_freq0 out).
    { destruct (rmin_nonempty freq) as [lo E]; [destruct freq; [cbn in Hn; lia|discriminate]|]. apply rmin_list_spec in E. destruct E as [I1 B1]. exists lo. split; [auto|].
      destruct (Rle_dec lo (r_freq0 out)); auto. exfalso. rewrite interp1d_outside in HI; [discriminate|]. left. intros a Ia. specialize (B1 a Ia). lra. }
    assert (B : exists b, In b freq /\ r_freq0 out <= b).
    { destruct (rmax_nonempty freq) as [hi E]; [destruct freq; [cbn in Hn; lia|discriminate]|]. apply rmax_list_spec in E. destruct E as [I1 B1]. exists hi. split; [auto|].
      destruct (Rle_dec (r_freq0 out) hi); auto. exfalso. rewrite interp1d_outside in HI; [discriminate|]. right. intros a Ia. specialize (B1 a Ia). lra. }
    destruct (interp1d_between freq m (r_freq0 out) LM Hn ND A B) as (i & j & Hi & Hj & L & BT & NB & E). rewrite E in HI. injection HI as <-. exists i, j. auto 10.
  Qed.

  (** With super-resolution and a Stokes I table no run on radio data ends. *)
  Theorem run_table_super : forall d o freq iA Q U dI dQ dU m,
    good_input d (o_noStokesI o) freq iA Q U dI dQ dU -> good_opts mpfit o (length freq) ->
    o_modStokesI o = Some m -> o_super o = true -> (forall f, In f freq -> 1 < f) -> run_rmsynth mpfit fit d o = PErr.
  Proof.
    intros d o freq iA Q U dI dQ dU m GI GO EM SR H1. destruct (run_rmsynth mpfit fit d o) as [out|] eqn:RUN; [exfalso|reflexivity].
    destruct GI as (IC & LI & LQ & LU & LdI & LdQ & LdU & Hf). destruct GO as (LP & OF & LM).
    destruct (run_raw mpfit fit d o freq iA Q U dI dQ dU out RUN IC) as (IM & q & u & dq & du & fr & dp & phi & w & r & s & freq0 & fr' & I0 & m' & sg & EF & _ & EG & EP & EW & ES & ER & EA & _).
    assert (Hn : (0 < length freq)%nat) by (apply grid_params_two in EG; rewrite map_length in EG; lia).
    destruct (frac_model mpfit freq iA Q U dI dQ dU _ _ _ _ _ _ _ _ _ Hn LI LQ LU LdI LdQ LdU Hf LM OF LP EF) as (US & _ & HIM & Lq & Lu & _).
    rewrite EM in *. destruct HIM as [_ RF].
    assert (L0 : synth_lam0 r = 0).
    { unfold do_rmsynth_planes in ES. repeat match type of ES with (if ?b then _ else _) = _ => destruct b; [discriminate|] end.
      injection ES as <-. cbn [synth_lam0]. rewrite SR. reflexivity. }
    destruct (at_reference_spec freq (Some m) fr (synth_lam0 r) freq0 fr' I0 US ltac:(lra) EA) as (E0 & _ & _ & EI).
    rewrite L0 in E0. destruct (Req_EM_T 0 0) as [_|X]; [|congruence]. rewrite RF in E0. subst freq0. rewrite interp1d_outside in EI by (left; auto). discriminate.
  Qed.
End Table.

(** Without Stokes I the I columns do not matter, and a five-column input is one without Stokes I. *)
Definition without_I (o : run_opts) : run_opts :=
  mk_opts (o_polyOrd o) (o_phiMax o) (o_dPhi o) (o_nSamples o) (o_variance o) (o_fitRMSF o) true (o_modStokesI o) (o_fitfun o) (o_super o).
Theorem run_no_stokes_I : forall mpfit fit freq iA Q U dI dQ dU o,
  run_rmsynth mpfit fit (Data7 freq iA Q U dI dQ dU) (without_I o) = run_rmsynth mpfit fit (Data5 freq Q U dQ dU) o.
Proof. reflexivity. Qed.

Lemma map_combine2 : forall {A B D} (f : A * B -> D) l1 l2 a b, length l2 = length l1 ->
  map f (combine l1 l2) = map (fun j => f (nth j l1 a, nth j l2 b)) (seq 0 (length l1)).
Proof.
  intros A B D f l1. induction l1 as [|x l1 IH]; intros l2 a b L; [reflexivity|]. destruct l2 as [|y l2]; [discriminate|]. cbn [combine map length seq]. f_equal.
  rewrite <- seq_shift, map_map. apply IH. cbn in L. lia.
Qed.

Section Noise.
  Variables (mpfit : mpin -> pyres mpres) (fit : bool -> list R -> list (option C) -> option (Z * R)).
  Variables (d : synth_data) (o : run_opts) (freq : list R) (iA Q U dI dQ dU : list (option R)) (out : synth_out).
  Hypothesis GI : good_input d (o_noStokesI o) freq iA Q U dI dQ dU.
  Hypothesis GO : good_opts mpfit o (length freq).
  Hypothesis RUN : run_rmsynth mpfit fit d o = POk out.

  Let mdl := stokes_model o (r_fit out) freq.
  Let s j := chan_noise (nth j dQ None) (nth j dU None) (mdl j).
  Let w j := nth j (r_weight out) 0.
  Let sum f := rsum (map f (seq 0 (length freq))).

  Lemma weight_sum_pos : 0 < sum w.
  Proof.
    destruct (run_refines _ _ _ _ _ _ _ _ _ _ _ _ GI GO RUN) as (h & step & pm & I0 & _ & _ & _ & _ & LW & W & WP & _). fold mdl in WP.
    eapply Rlt_le_trans; [exact WP|]. unfold wsum, used_chans, sum. rewrite rsum_flat_map. apply rsum_le. intros j J. apply in_seq in J.
    pose proof (weight_nonneg mpfit fit d o freq iA Q U dI dQ dU out GI GO RUN j ltac:(lia)) as NN. fold (w j) in *.
    destruct (nth j Q None); [|cbn [map]; rewrite rsum_nil; exact NN]. destruct (nth j U None); [|cbn [map]; rewrite rsum_nil; exact NN].
    destruct (Req_EM_T (mdl j) 0); [cbn [map]; rewrite rsum_nil; exact NN|]. cbn [map c_w]. rewrite rsum_cons, rsum_nil. unfold w. lra.
  Qed.

  (** The noise the run reports. *)
  Theorem run_noise : exists I0, r_Ifreq0 out = Some I0 /\ 0 < sum w /\
    r_dFDFth out = Some (Rabs I0 * sqrt (sum (fun j => (w j * s j) ^ 2)) / sum w) /\
    (o_variance o = true -> r_dFDFth out = Some (Rabs I0 / sqrt (sum w))).
  Proof.
    pose proof weight_sum_pos as SW.
    destruct (run_inv _ _ _ _ _ _ _ _ _ _ _ _ GI GO RUN) as (h & step & pm & I0 & _ & _ & _ & _ & LW & W & _ & _ & _ & _ & _ & _ & EI & _ & _ & _ &
      IM & q & u & dq & du & w0 & s0 & _ & _ & _ & Ldq & Ldu & Lw & HM & FR & EWT & EW & _ & _ & _ & _ & ED & _).
    fold mdl in W, HM. exists I0. split; [exact EI|]. split; [exact SW|].
    assert (WJ : forall j, (j < length freq)%nat -> nan0 (nth j w0 None) = w j) by (intros j Hj; unfold w; rewrite EWT, (nth_map_lt _ _ _ _ None) by lia; reflexivity).
    assert (DJ : forall j, (j < length freq)%nat -> nan0 (nth j (dqu_of dq du) None) = s j).
    { intros j Hj. rewrite dqu_nth by congruence. destruct (FR j Hj) as (_ & _ & F1 & F2). rewrite HM in F1, F2 by auto. unfold fraction in F1, F2. unfold s, chan_noise.
      destruct (nth j dq None) as [a|].
      - destruct F1 as (A & -> & N & ->). destruct (nth j du None) as [b|]; [|destruct F2 as [->|F2]; [reflexivity|contradiction]]. destruct F2 as (B & -> & _ & ->).
        destruct (Req_EM_T (mdl j) 0); [contradiction|]. cbn [nan0]. replace (A / mdl j + B / mdl j) with ((A + B) / mdl j) by (field; auto).
        unfold Rdiv at 1 2. rewrite Rabs_mult, Rabs_inv. field. now apply Rabs_no_R0.
      - destruct F1 as [->|Z]; [reflexivity|]. rewrite Z. destruct (nth j dQ None), (nth j dU None); try reflexivity. destruct (Req_EM_T 0 0); [reflexivity|congruence]. }
    assert (S1 : rsum (map nan0 w0) = sum w).
    { unfold sum. rewrite <- (map_ext_in (fun j => nan0 (nth j w0 None))); [|intros j J; apply in_seq in J; apply WJ; lia]. rewrite <- Lw.
      rewrite <- (map_map (fun j => nth j w0 None) nan0). do 2 f_equal. apply list_as_seq. }
    assert (S2 : rsum (map (fun ab => nan0 (fst ab) ^ 2 * nan0 (snd ab) ^ 2) (combine w0 (dqu_of dq du))) = sum (fun j => (w j * s j) ^ 2)).
    { rewrite (map_combine2 _ w0 (dqu_of dq du) None None) by (unfold dqu_of; rewrite map_length, combine_length; lia). rewrite Lw. unfold sum. apply rsum_map_ext. intros j J.
      apply in_seq in J. cbn [fst snd]. rewrite WJ, DJ by lia. ring. }
    assert (E : r_dFDFth out = Some (Rabs I0 * sqrt (sum (fun j => (w j * s j) ^ 2)) / sum w)).
    { rewrite ED. unfold dFDFth. rewrite S1, S2. destruct (Req_EM_T (sum w) 0); [lra|]. f_equal. rewrite sqrt_div_alt by (apply pow_lt; auto).
      rewrite sqrt_pow2 by lra. unfold Rdiv. ring. }
    split; [exact E|]. intros V. rewrite E. f_equal.
    replace (sum (fun j => (w j * s j) ^ 2)) with (sum w).
    - rewrite <- (sqrt_sqrt (sum w)) at 2 by lra. assert (0 < sqrt (sum w)) by now apply sqrt_lt_R0. field. lra.
    - assert (X : forall j a b, (j < length freq)%nat -> nth j dQ None = Some a -> nth j dU None = Some b -> mdl j <> 0 -> a + b <> 0).
      { intros j a b Hj Ea Eb N X. rewrite V in EW. cbn [weights_1D] in EW. destruct (inv_var_len _ _ EW) as [_ NZ]. destruct (NZ j) as [NZ' _]. apply NZ'.
        rewrite dqu_nth by congruence. destruct (FR j Hj) as (_ & _ & F1 & F2). rewrite HM in F1, F2 by lia. unfold fraction in F1, F2. rewrite Ea in F1. rewrite Eb in F2.
        destruct (nth j dq None) as [x|]; [|destruct F1; [discriminate|contradiction]]. destruct (nth j du None) as [y|]; [|destruct F2; [discriminate|contradiction]].
        destruct F1 as (A & [= <-] & _ & ->). destruct F2 as (B & [= <-] & _ & ->). replace (a / mdl j + b / mdl j) with ((a + b) / mdl j) by (field; auto).
        rewrite X. unfold Rdiv. rewrite Rmult_0_l, Rabs_R0. f_equal. ring. }
      unfold sum. apply rsum_map_ext. intros j J. apply in_seq in J. unfold w, s. rewrite W by lia. rewrite V. unfold chan_weight, chan_noise.
      specialize (X j). destruct (nth j dQ None) as [a|]; [|ring]. destruct (nth j dU None) as [b|]; [|ring]. specialize (X a b ltac:(lia) eq_refl eq_refl).
      destruct (Req_EM_T (mdl j) 0) as [Z|Z]; [rewrite Z; unfold Rdiv; ring|]. specialize (X Z).
      rewrite Rpow_mult_distr. replace ((Rabs (a + b) / (2 * Rabs (mdl j))) ^ 2) with ((a + b) ^ 2 / (4 * mdl j ^ 2)).
      + field. auto.
      + unfold Rdiv. rewrite Rpow_mult_distr, pow2_abs. f_equal. rewrite <- (pow2_abs (mdl j)). assert (Rabs (mdl j) <> 0) by (now apply Rabs_no_R0). field. auto.
  Qed.
End Noise.
