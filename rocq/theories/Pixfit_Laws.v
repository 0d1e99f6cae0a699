(** What the peak maps hold. *)
From Coq Require Import Reals List Arith ZArith Bool Ascii String Lra Lia.
Set Warnings "-ambiguous-paths".
From Coquelicot Require Import Coquelicot.
From Verif Require Import CBase PyRes PyStr PyStr_Proofs PyList PyList_Proofs NdArray NdIndex Synth_Model CleanTop_Model Setup_Model Setup_Spec Setup_Proofs Cube_Model Cube_Spec
  Measure_Model Measure_Proofs Measure_Laws Run1D_Spec Pixfit_Model Pixfit_Spec Pixfit_Proofs.
Import ListNotations.
Local Open Scope R_scope.

Lemma freqs_lsq : forall freq, (forall f, In f freq -> 0 < f) -> freqs_of (map lsq freq) = freq.
Proof.
  intros freq H. unfold freqs_of. rewrite map_map. rewrite <- (map_id freq) at 2. apply map_ext_in. intros f If. specialize (H f If). unfold lsq.
  change c_light with 299792458. rewrite sqrt_pow2 by (apply Rlt_le, Rdiv_lt_0_compat; lra). field. lra.
Qed.

Lemma np_diff_seq : forall l : list R, np_diff l = map (fun j => nth (S j) l 0 - nth j l 0) (seq 0 (List.length l - 1)).
Proof.
  induction l as [|a [|b l] IH]; [reflexivity|reflexivity|]. unfold np_diff in *. cbn [combine tl map]. cbn [tl] in IH.
  cbn [List.length] in *. replace (S (S (List.length l)) - 1)%nat with (S (S (List.length l) - 1)) by lia. cbn [seq map]. f_equal.
  transitivity (map (fun j => nth (S j) (b :: l) 0 - nth j (b :: l) 0) (seq 0 (S (List.length l) - 1))); [exact IH|]. rewrite <- seq_shift, map_map. reflexivity.
Qed.

Lemma dict_reports : forall freq lam0 p fw i0 dF P, (forall f, In f freq -> 0 < f) -> freq <> [] ->
  exists v, dget (m_dict p (map lsq freq) lam0 fw i0 dF) (s (product_name P)) = POk v /\ reports freq lam0 p fw i0 dF P v.
Proof.
  intros freq lam0 p fw i0 dF P Hf Hn. unfold m_dict. rewrite (freqs_lsq freq Hf).
  destruct P; (eexists; split; [lazy beta iota zeta delta [dget str_eqb ch_eqb s list_ascii_of_string product_name Ascii.eqb Bool.eqb andb]; reflexivity|]); cbn [reports]; try reflexivity.
  - intros H. unfold freq_ref. destruct (Rlt_dec 0 lam0); [reflexivity|contradiction].
  - destruct (ampPeakPIfit p) as [a|], i0 as [i|]; try reflexivity. intros H. cbn. destruct (Req_EM_T i 0); [contradiction|reflexivity].
  - destruct (rmin_list freq) as [f|] eqn:E; [|destruct freq; [now destruct Hn|discriminate]]. exists f. split; [|reflexivity]. now apply rmin_list_spec.
  - destruct (rmax_list freq) as [f|] eqn:E; [|destruct freq; [now destruct Hn|discriminate]]. exists f. split; [|reflexivity]. now apply rmax_list_spec.
  - rewrite map_length. reflexivity.
  - rewrite np_diff_seq. reflexivity.
Qed.

Lemma dict_known : forall p l2 lam0 fw i0 dF q v, dget (m_dict p l2 lam0 fw i0 dF) q = POk v -> exists P, q = s (product_name P).
Proof.
  intros p l2 lam0 fw i0 dF q v H. apply dget_In in H. unfold m_dict in H. cbn [In] in H.
  repeat (destruct H as [H|H]; [injection H as <- _|]); try destruct H.
  1: now exists Pcormad. 1: now exists Pphi. 1: now exists Pdphi. 1: now exists Pamp. 1: now exists Peff. 1: now exists Pdamp. 1: now exists Psnr. 1: now exists Pindx.
  1: now exists Pimag. 1: now exists Preal. 1: now exists Pangle. 1: now exists Pdangle. 1: now exists Pangle0. 1: now exists Pdangle0. 1: now exists Plam0.
  1: now exists Pfreq0. 1: now exists Pfwhm. 1: now exists PI0. 1: now exists Pfrac. 1: now exists Pmin. 1: now exists Pmax. 1: now exists Pchans. 1: now exists Pwidth. now exists Pnoise.
Qed.

(** ** Stokes I at the reference *)
Lemma plane_ok : forall cube n ny nx k, shape cube = [n; ny; nx] -> (k < n)%nat ->
  exists a, plane cube (Z.of_nat k) = POk a /\ shape a = [ny; nx] /\ wf_nd a /\
    forall x y, (x < ny)%nat -> (y < nx)%nat -> at_nd None a [x; y] = at_nd None cube [k; x; y].
Proof.
  intros cube n ny nx k S Hk. unfold plane. rewrite S. destruct (Z.ltb_spec (Z.of_nat k) 0); [lia|]. destruct (Z.ltb_spec (Z.of_nat k) 0); [lia|].
  destruct (Z.leb_spec (Z.of_nat n) (Z.of_nat k)); [lia|]. cbn [orb]. eexists. split; [reflexivity|]. rewrite Nat2Z.id. split; [reflexivity|]. split; [apply wf_tab_nd|].
  intros x y Hx Hy. rewrite at_tab_nd by (repeat constructor; auto). reflexivity.
Qed.

Lemma half_ok : forall a b ny nx x y, shape a = [ny; nx] -> (x < ny)%nat -> (y < nx)%nat ->
  at_nd None (half_way a b) [x; y] = match at_nd None a [x; y], at_nd None b [x; y] with Some u, Some v => Some ((u + v) / 2) | _, _ => None end.
Proof.
  intros a b ny nx x y S Hx Hy. unfold half_way. rewrite S, at_tab_nd by (repeat constructor; auto).
  destruct (at_nd None a [x; y]), (at_nd None b [x; y]); try reflexivity. cbn. f_equal. field.
Qed.

Lemma I_map_ok : forall freq lam0 I ny nx, (forall f, In f freq -> 0 < f) -> freq <> [] -> good_stokes freq lam0 I ny nx ->
  exists I0, I_map (map lsq freq) lam0 I ny nx = POk I0 /\ shape I0 = [ny; nx] /\
    forall x y, (x < ny)%nat -> (y < nx)%nat -> ref_at freq lam0 I x y (at_nd None I0 [x; y]).
Proof.
  intros freq lam0 I ny nx Hf Hn G. unfold I_map, ref_at. destruct I as [cube|].
  2:{ eexists. split; [reflexivity|]. split; [reflexivity|]. intros x y Hx Hy. rewrite at_tab_nd by (repeat constructor; auto). reflexivity. }
  destruct G as (S & A & L0 & B). rewrite (freqs_lsq freq Hf). destruct freq as [|f1 fr]; [now destruct Hn|]. set (freq := f1 :: fr) in *.
  unfold freq_ref. destruct (Rlt_dec 0 lam0); [|contradiction]. change c_light with 299792458. set (f0 := 299792458 / sqrt lam0) in *.
  destruct (argmin (map (fun f => Rabs (f - f0)) freq)) as [i|] eqn:E; [|discriminate].
  apply argmin_spec in E. rewrite map_length in E. destruct E as [Hi M].
  assert (M' : forall j, (j < List.length freq)%nat -> Rabs (nth i freq 0 - f0) <= Rabs (nth j freq 0 - f0)).
  { intros j Hj. specialize (M j Hj). rewrite !nth_indep with (d := 0) (d' := (fun f => Rabs (f - f0)) 0) in M by (rewrite map_length; auto).
    rewrite !(map_nth (fun f => Rabs (f - f0))) in M. exact M. }
  destruct (Rlt_dec (nth i freq 0) f0) as [Hl|Hl]; [|destruct (Rlt_dec f0 (nth i freq 0)) as [Hg|Hg]].
  - assert (Hi1 : (Datatypes.S i < List.length freq)%nat).
    { destruct (Nat.eq_dec (Datatypes.S i) (List.length freq)) as [e|]; [|lia]. replace (List.length freq - 1)%nat with i in B by lia. lra. }
    destruct (plane_ok cube _ ny nx i S Hi) as (a & Ea & Sa & _ & Va). replace (Z.of_nat i + 1)%Z with (Z.of_nat (Datatypes.S i)) by lia.
    destruct (plane_ok cube _ ny nx _ S Hi1) as (b & Eb & Sb & _ & Vb). rewrite Ea, Eb. cbn [pybind]. eexists. split; [reflexivity|]. split; [exact Sa|].
    intros x y Hx Hy. right. exists i. split; [exact Hi1|]. split; [|rewrite (half_ok a b ny nx x y Sa Hx Hy), Va, Vb by auto; reflexivity].
    split; auto. destruct (Rle_dec (nth (Datatypes.S i) freq 0) f0) as [Hc|]; [|lra].
    specialize (M' (Datatypes.S i) Hi1). assert (nth i freq 0 < nth (Datatypes.S i) freq 0) by (apply A; lia).
    rewrite !Rabs_left1 in M' by lra. lra.
  - destruct i as [|i]; [lra|]. replace (Z.of_nat (Datatypes.S i) - 1)%Z with (Z.of_nat i) by lia.
    destruct (plane_ok cube _ ny nx i S ltac:(lia)) as (a & Ea & Sa & _ & Va).
    destruct (plane_ok cube _ ny nx _ S Hi) as (b & Eb & Sb & _ & Vb). rewrite Ea, Eb. cbn [pybind]. eexists. split; [reflexivity|]. split; [exact Sa|].
    intros x y Hx Hy. right. exists i. split; [exact Hi|]. split; [|rewrite (half_ok a b ny nx x y Sa Hx Hy), Va, Vb by auto; reflexivity].
    split; auto. destruct (Rle_dec f0 (nth i freq 0)) as [Hc|]; [|lra].
    specialize (M' i ltac:(lia)). assert (nth i freq 0 < nth (Datatypes.S i) freq 0) by (apply A; lia).
    rewrite !Rabs_pos_eq in M' by lra. lra.
  - destruct (plane_ok cube _ ny nx i S Hi) as (a & Ea & Sa & _ & Va). exists a. split; [exact Ea|]. split; [exact Sa|].
    intros x y Hx Hy. left. exists i. split; [exact Hi|]. split; [lra|auto].
Qed.

(** ** Noise *)
Lemma combined_ok : forall (variance : bool) (ns : list (option R)), (forall v, In (Some v) ns -> 0 < v) -> (exists v, In (Some v) ns) ->
  let g := fun x : option R => match x with Some v => (if variance then 1 / v ^ 2 else 1, v) | None => (0, 0) end in
  osqrt (odiv (Some (rsum (map (fun a => fst a ^ 2 * snd a ^ 2) (map g ns)))) (Some (rsum (map fst (map g ns)) ^ 2))) =
  Some (propagated_noise (noise_weights variance ns)).
Proof.
  intros variance ns H1 H2 g. set (A := rsum (map (fun a => fst a ^ 2 * snd a ^ 2) (map g ns))). set (W := rsum (map fst (map g ns))).
  assert (E : A = rsum (map (fun x => (fst x * snd x) ^ 2) (noise_weights variance ns)) /\ W = rsum (map fst (noise_weights variance ns))).
  { unfold A, W. clear. induction ns as [|[v|] ns [IH1 IH2]]; [split; reflexivity| |].
    - unfold noise_weights in *. cbn [map flat_map app]. rewrite !rsum_cons. rewrite IH1, IH2. unfold g. cbn [fst snd].
      split; [f_equal; destruct variance; unfold Rdiv; rewrite ?Rmult_1_l; ring|f_equal; destruct variance; unfold Rdiv; ring].
    - unfold noise_weights in *. cbn [map flat_map app]. rewrite !rsum_cons. rewrite IH1, IH2. unfold g. cbn [fst snd]. split; ring. }
  assert (PW : 0 < W).
  { unfold W. clear E A W. destruct H2 as [v Iv]. assert (POS : forall x, In x ns -> 0 <= fst (g x) /\ (forall u, x = Some u -> 0 < fst (g x))).
    { intros [u|] Iu; cbn; [|split; [lra|discriminate]]. specialize (H1 u Iu). assert (0 < (if variance then 1 / (u * (u * 1)) else 1)).
      { destruct variance; [|lra]. apply Rdiv_lt_0_compat; [lra|]. repeat apply Rmult_lt_0_compat; lra. } split; [lra|auto]. }
    clear H1. induction ns as [|x ns IH]; [destruct Iv|]. cbn [map]. rewrite rsum_cons.
    assert (0 <= rsum (map fst (map g ns))). { apply rsum_nonneg. intros r Ir. apply in_map_iff in Ir. destruct Ir as (a & <- & Ia). apply in_map_iff in Ia. destruct Ia as (z & <- & Iz). apply POS. now right. }
    destruct Iv as [->|Iv].
    - pose proof (proj2 (POS (Some v) (or_introl eq_refl)) v eq_refl). lra.
    - pose proof (proj1 (POS x (or_introl eq_refl))). assert (0 < rsum (map fst (map g ns))) by (apply IH; auto; intros z Iz; apply POS; now right). lra. }
  assert (PA : 0 <= A). { unfold A. apply rsum_nonneg. intros r Ir. apply in_map_iff in Ir. destruct Ir as (a & <- & _). apply Rmult_le_pos; apply pow2_ge_0. }
  unfold odiv, osqrt. assert (W ^ 2 <> 0) by (apply pow_nonzero; lra). destruct (Req_EM_T (W ^ 2) 0); [contradiction|].
  assert (0 <= A / W ^ 2) by (apply Rdiv_le_0_compat; [auto|apply pow_lt; auto]). destruct (Rle_dec 0 (A / W ^ 2)); [|contradiction]. f_equal.
  unfold propagated_noise. destruct E as [<- <-]. rewrite sqrt_div by (auto; apply pow_lt; auto). f_equal. apply sqrt_pow2. lra.
Qed.

Lemma combine_tt : forall {A} (l : list A), map fst (combine l (repeat tt (List.length l))) = l.
Proof. induction l; cbn; congruence. Qed.

Lemma noise_factor_ok : forall n ns variance, good_noise n (Some ns) -> noise_factor n ns (Some variance) = POk (Some (propagated_noise (noise_weights variance ns))).
Proof.
  intros n ns variance (L & P & X). unfold noise_factor. pose proof (combined_ok variance ns P X) as E. cbv zeta in E. destruct variance.
  - replace (existsb _ ns) with false; [exact (f_equal _ E)|]. symmetry. apply not_true_is_false. intros T. apply existsb_exists in T. destruct T as ([v|] & I & T); [|discriminate].
    specialize (P v I). destruct (Req_EM_T v 0); [lra|discriminate].
  - unfold broadcast. rewrite repeat_length, L, Nat.eqb_refl. cbn [pybind]. rewrite <- L. rewrite <- (map_map fst (fun x => match x with Some v => (1, v) | None => (0, 0) end)), combine_tt.
    exact (f_equal _ E).
Qed.

(** ** The maps *)
Lemma pixels_in : forall ny nx x y, In (x, y) (flat_map (fun y => map (fun x => (x, y)) (seq 0 ny)) (seq 0 nx)) <-> (x < ny /\ y < nx)%nat.
Proof.
  intros. rewrite in_flat_map. split.
  - intros (y' & Iy & I). apply in_map_iff in I. destruct I as (x' & E & Ix). injection E as -> ->. apply in_seq in Ix, Iy. lia.
  - intros [Hx Hy]. exists y. split; [apply in_seq; lia|]. apply in_map_iff. exists x. split; [reflexivity|]. apply in_seq. lia.
Qed.

(** every run over well-shaped input ends, and its maps are the targets *)
Lemma pixelwise_targets : forall FDF phi fwhm freq lam0 ps noise I variance nphi ny nx,
  shape FDF = [nphi; ny; nx] -> shape fwhm = [ny; nx] -> freq <> [] -> (forall f, In f freq -> 0 < f) ->
  good_stokes freq lam0 I ny nx -> good_noise (List.length freq) noise ->
  exists m I0 dF, pixelwise_peak_fitting FDF phi fwhm (map lsq freq) lam0 ps noise I (Some variance) = POk m /\ maps_of ps ny nx m /\
    shape I0 = [ny; nx] /\ (forall x y, (x < ny)%nat -> (y < nx)%nat -> ref_at freq lam0 I x y (at_nd None I0 [x; y]) /\
       noise_at dF x y = noise_of variance noise (at_nd None I0 [x; y]) /\
       forall q, In q ps -> at_map m q x y = target FDF phi fwhm (map lsq freq) lam0 ps I0 dF nphi q x y).
Proof.
  intros FDF phi fwhm freq lam0 ps noise I variance nphi ny nx HF Hw Hn Hf GI GN. unfold pixelwise_peak_fitting. rewrite HF.
  destruct (I_map_ok freq lam0 I ny nx Hf Hn GI) as (I0 & EI & SI & VI). rewrite EI. cbn [pybind].
  set (dF := match noise with None => None | Some ns => Some (tab_nd (shape I0) (fun idx => omul (at_nd None I0 idx) (Some (propagated_noise (noise_weights variance ns))))) end).
  assert (ED : (match noise with None => POk None | Some ns => pybind (noise_factor (List.length (map lsq freq)) ns (Some variance))
      (fun f => POk (Some (tab_nd (shape I0) (fun idx => omul (at_nd None I0 idx) f)))) end) = POk dF).
  { unfold dF. destruct noise as [ns|]; [|reflexivity]. rewrite map_length, (noise_factor_ok _ ns variance GN). reflexivity. }
  rewrite ED. cbn [pybind].
  assert (Sd : match dF with None => True | Some a => shape a = [ny; nx] end) by (unfold dF; destruct noise; [exact SI|trivial]).
  assert (Nl : map lsq freq <> []) by (destruct freq; [now destruct Hn|discriminate]).
  destruct (loop_spec FDF phi fwhm (map lsq freq) lam0 ps I0 dF nphi ny nx HF Hw Sd Nl (flat_map (fun y => map (fun x => (x, y)) (seq 0 ny)) (seq 0 nx))
    (fold_left (fun m p => dset m p (tab_nd [ny; nx] (fun _ => Some 0))) ps [])) as (m & Em & Mm & Vm).
  { apply init_maps; [reflexivity|apply wf_tab_nd]. }
  { intros x y Ixy. now apply pixels_in in Ixy. }
  exists m, I0, dF. split; [exact Em|]. split; [exact Mm|]. split; [exact SI|]. intros x y Hx Hy. split; [apply VI; auto|]. split.
  - unfold dF, noise_at, noise_of. destruct noise as [ns|]; [|reflexivity]. f_equal. rewrite SI, at_tab_nd by (repeat constructor; auto). destruct (at_nd None I0 [x; y]); reflexivity.
  - intros q Iq. apply (Vm q x y Iq Hx Hy). apply pixels_in. auto.
Qed.

(** C46: every map is the 1-D measurement of every pixel *)
Theorem pixelwise_maps : forall FDF phi fwhm freq lam0 Ps noise I variance nphi ny nx,
  shape FDF = [nphi; ny; nx] -> shape fwhm = [ny; nx] -> freq <> [] -> (forall f, In f freq -> 0 < f) ->
  good_stokes freq lam0 I ny nx -> good_noise (List.length freq) noise ->
  exists m, pixelwise_peak_fitting FDF phi fwhm (map lsq freq) lam0 (names Ps) noise I (Some variance) = POk m /\ maps_of (names Ps) ny nx m /\
    forall x y, (x < ny)%nat -> (y < nx)%nat -> exists i0, ref_at freq lam0 I x y i0 /\
      let fw := at_nd None fwhm [x; y] in
      let dF := noise_of variance noise i0 in
      forall P a, In (s (product_name P), a) m ->
        match measure_FDF_parms (pixel_spectrum FDF nphi x y) phi fw dF (map lsq freq) lam0 5 with
        | POk p => reports freq lam0 p fw i0 dF P (at_nd None a [x; y])
        | PErr => at_nd None a [x; y] = None
        end.
Proof.
  intros FDF phi fwhm freq lam0 Ps noise I variance nphi ny nx HF Hw Hn Hf GI GN.
  destruct (pixelwise_targets FDF phi fwhm freq lam0 (names Ps) noise I variance nphi ny nx HF Hw Hn Hf GI GN) as (m & I0 & dF & Em & Mm & SI & V).
  exists m. split; [exact Em|]. split; [exact Mm|]. intros x y Hx Hy. destruct (V x y Hx Hy) as (V1 & V2 & V3). exists (at_nd None I0 [x; y]). split; [exact V1|]. cbv zeta.
  intros P a Ia. destruct Mm as (N & K & S). assert (Iq : In (s (product_name P)) (names Ps)) by (apply K, in_map_iff; exists (s (product_name P), a); auto).
  specialize (V3 _ Iq). unfold at_map in V3. rewrite (dget_nodup m _ a N Ia) in V3. rewrite V3. unfold target, complete, pixel_dict. change (spec_at FDF nphi x y) with (pixel_spectrum FDF nphi x y). rewrite V2, (get2_ok None I0 ny nx) by auto.
  destruct (measure_FDF_parms _ _ _ _ _ _ _) as [p|]; [|reflexivity]. cbn [pybind].
  assert (forallb (fun p0 => match dget (m_dict p (map lsq freq) lam0 (at_nd None fwhm [x; y]) (at_nd None I0 [x; y]) (noise_of variance noise (at_nd None I0 [x; y]))) p0 with POk _ => true | PErr => false end) (names Ps) = true) as ->.
  { apply forallb_forall. intros q Iq'. unfold names in Iq'. apply in_map_iff in Iq'. destruct Iq' as (P' & <- & _).
    destruct (dict_reports freq lam0 p (at_nd None fwhm [x; y]) (at_nd None I0 [x; y]) (noise_of variance noise (at_nd None I0 [x; y])) P' Hf Hn) as (v & -> & _). reflexivity. }
  destruct (dict_reports freq lam0 p (at_nd None fwhm [x; y]) (at_nd None I0 [x; y]) (noise_of variance noise (at_nd None I0 [x; y])) P Hf Hn) as (v & -> & R). exact R.
Qed.

(** finding: one unknown name blanks every map *)
Theorem pixelwise_unknown : forall FDF phi fwhm freq lam0 ps noise I variance nphi ny nx q,
  shape FDF = [nphi; ny; nx] -> shape fwhm = [ny; nx] -> freq <> [] -> (forall f, In f freq -> 0 < f) ->
  good_stokes freq lam0 I ny nx -> good_noise (List.length freq) noise ->
  In q ps -> (forall P, q <> s (product_name P)) ->
  exists m, pixelwise_peak_fitting FDF phi fwhm (map lsq freq) lam0 ps noise I (Some variance) = POk m /\ maps_of ps ny nx m /\
    forall n a x y, In (n, a) m -> (x < ny)%nat -> (y < nx)%nat -> at_nd None a [x; y] = None.
Proof.
  intros FDF phi fwhm freq lam0 ps noise I variance nphi ny nx q HF Hw Hn Hf GI GN Iq U.
  destruct (pixelwise_targets FDF phi fwhm freq lam0 ps noise I variance nphi ny nx HF Hw Hn Hf GI GN) as (m & I0 & dF & Em & Mm & SI & V).
  exists m. split; [exact Em|]. split; [exact Mm|]. intros n a x y Ia Hx Hy. destruct (V x y Hx Hy) as (_ & _ & V3). destruct Mm as (N & K & S).
  assert (In0 : In n ps) by (apply K, in_map_iff; exists (n, a); auto). specialize (V3 n In0). unfold at_map in V3. rewrite (dget_nodup m _ a N Ia) in V3. rewrite V3.
  unfold target. assert (complete FDF phi fwhm (map lsq freq) lam0 ps I0 dF nphi x y = false) as ->; [|reflexivity].
  apply not_true_is_false. intros T. unfold complete in T. destruct (pixel_dict _ _ _ _ _ _ _ _ _ _) as [D|] eqn:ED; [|discriminate].
  rewrite forallb_forall in T. specialize (T q Iq). destruct (dget D q) as [v|] eqn:Eq; [|discriminate].
  unfold pixel_dict in ED. destruct (measure_FDF_parms _ _ _ _ _ _ _) as [p|]; [|discriminate]. cbn [pybind] in ED. rewrite (get2_ok None I0 ny nx) in ED by auto. injection ED as <-. apply dict_known in Eq. destruct Eq as [P E]. exact (U P E).
Qed.
