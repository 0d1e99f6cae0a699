(** The Stokes I cube tools: what does not hold, and examples. *)
From Coq Require Import Reals List Arith ZArith Bool Ascii String Lia Lra Permutation Sorted.
Set Warnings "-ambiguous-paths".
From Coquelicot Require Import Coquelicot.
From Verif Require Import CBase PyRes PyStr PyStr_Proofs PyList NdArray NdIndex Interp_Model Synth_Model Setup_Model Measure_Model Median_Proofs
  StokesI_Model StokesI_Spec StokesI_Proofs StokesI_Fit Cube_Model Cube_Spec Cube_Proofs Icube_Model Icube_Spec Icube_Proofs Icube_Fit Icube_Rescale Icube_Maps.
Import ListNotations.
Local Open Scope R_scope.

(** ** Channels without structure have no noise *)
Lemma median_const : forall l c, l <> [] -> (forall v, In v l -> v = c) -> median l = Some c.
Proof.
  intros l c N H. destruct (median l) as [m|] eqn:E.
  - assert (c <= m <= c) by (apply (median_bounds l m c c E); intros x I; rewrite (H x I); lra). f_equal. lra.
  - destruct l; [congruence|discriminate].
Qed.

Lemma somes_map : forall l : list R, somes (map Some l) = l.
Proof. induction l as [|a l IH]; [reflexivity|]. change (a :: somes (map Some l) = a :: l). now rewrite IH. Qed.

Lemma MAD_const : forall l c, l <> [] -> (forall v, In v l -> v = c) -> MAD (map Some l) = Some 0.
Proof.
  intros l c N H. unfold MAD. rewrite somes_map, (median_const l c N H). apply median_const; [destruct l; [congruence|discriminate]|].
  intros v I. apply in_map_iff in I. destruct I as (u & <- & I). rewrite (H u I). replace (c - c) with 0 by ring. rewrite Rabs_R0. unfold Rdiv. ring.
Qed.

Theorem flat_channel : forall f k thr j c, (forall v, In v (channel_values f k j) -> v = c) -> channel_noise f k thr j = None /\ (thr <= 0 -> detection_level f k thr j = None).
Proof.
  intros f k thr j c H. assert (E : sky_values thr (channel_values f k j) = []).
  { unfold sky_values. cbv zeta. set (first := if Rlt_dec 0 thr then _ else _).
    assert (HF : forall v, In v first -> v = c).
    { intros v I. apply H. unfold first, below in I. destruct (Rlt_dec 0 thr); apply filter_In in I; exact (proj1 I). }
    destruct first as [|a l] eqn:EF; [reflexivity|]. rewrite <- EF in HF. assert (NF : first <> []) by congruence. rewrite <- EF.
    rewrite (median_const _ c NF HF), (MAD_const _ c NF HF). unfold below. apply filter_none. intros x I. rewrite (H x I). destruct (Rlt_dec c (c + 3 * 0)); [lra|reflexivity]. }
  assert (E2 : channel_noise f k thr j = None) by (unfold channel_noise; now rewrite E). split; [exact E2|].
  intros Ht. unfold detection_level. rewrite E, E2. destruct (Rlt_dec 0 thr); [lra|reflexivity].
Qed.

(** In a cube whose channels have each one value, as a model has without noise,
    no pixel is fitted. *)
Theorem flat_cube : forall mpfit f k bunit history freq ord thr name ff am w,
  sky_cube f k -> six mpfit -> known_name name ff -> fitIcube mpfit f bunit history freq ord thr name am = POk w ->
  (forall j, (j < len (i_naxis f) k)%nat -> exists c, forall v, In v (channel_values f k j) -> v = c) ->
  forall j y x, (y < len (i_naxis f) 2)%nat -> (x < len (i_naxis f) 1)%nat -> (j < len (i_naxis f) k)%nat -> model_sample w j y x = None.
Proof.
  intros mpfit f k bunit history freq ord thr name ff am w Hc H6 Hf H HC j y x Hy Hx Hj.
  destruct (fit_cube _ _ _ _ _ _ _ _ _ _ _ _ Hc H6 Hf H) as (_ & _ & _ & _ & _ & _ & PX). destruct (PX y x Hy Hx) as (P1 & P2 & _ & P4 & P5). cbv beta in P1, P2, P4, P5.
  assert (NF : ~ fittable (spectrum f k y x) (map (channel_noise f k thr) (seq 0 (len (i_naxis f) k)))).
  { intros (i & v & e & _ & Ee). destruct (Nat.lt_ge_cases i (len (i_naxis f) k)) as [L|L].
    - rewrite nth_map_seq in Ee by exact L. rewrite Nat.add_0_l in Ee. destruct (HC i L) as (c & Hcc). rewrite (proj1 (flat_channel f k thr i c Hcc)) in Ee. discriminate.
    - rewrite nth_overflow in Ee by (rewrite map_length, seq_length; exact L). discriminate. }
  destruct (at_nd None (w_mask w) [y; x]) eqn:EM.
  - assert (C : ~ ~ (am = true -> detected f k thr y x)) by (intros N; discriminate (P2 N)).
    destruct (model_sample w j y x) as [u|] eqn:EU; [|reflexivity]. exfalso. apply C. intros C'. destruct (P4 C' NF) as (_ & M & _). rewrite (M j Hj) in EU. discriminate.
  - assert (C : ~ (am = true -> detected f k thr y x)) by (intros N; discriminate (P1 N)). exact (proj1 (proj2 (P5 C)) j Hj).
Qed.

(** ** Cubes of eight voxels *)
Definition z_cube (ctype : list (option str)) (g : nat -> nat -> nat -> option R) : image (option R) :=
  mk_image [2; 2; 2]%nat ctype (tab_nd [2; 2; 2]%nat (fun i => g (nth 0 i 0%nat) (nth 1 i 0%nat) (nth 2 i 0%nat))).
Definition z_ctype : list (option str) := [Some (s "RA---SIN"); Some (s "DEC--SIN"); Some (s "FREQ")].
Definition z_sky (j y x : nat) : option R := Some (INR (1 + 2 * y + x)).
(** the free parameters are one, the others zero; unit covariance *)
Definition z_mpfit (q : mpin) : pyres mpres :=
  POk (mk_mp (map (fun i => if nth i (in_fixed q) false then 0 else 1) (seq 0 6)) 1 0 (Some (fun a b => if (a =? b)%nat then 1 else 0)) None).

Lemma z_six : six z_mpfit.
Proof. intros q r E. injection E as <-. split; [reflexivity|]. intros e N. discriminate. Qed.
Lemma z_keeps : keeps_fixed z_mpfit.
Proof.
  intros q r i E F. injection E as <-. do 6 (destruct i as [|i]; [cbn in F |- *; now rewrite F|]). destruct i; reflexivity.
Qed.
Lemma z_total : forall q, exists r, z_mpfit q = POk r.
Proof. intros; eexists; reflexivity. Qed.
Lemma z_wf : forall ctype g, List.length ctype = 3%nat -> wf_image (z_cube ctype g).
Proof. intros ctype g L. split; [reflexivity|]. split; [apply wf_tab_nd|exact L]. Qed.
Lemma z_axis : spectral_axis (s "FREQ") z_ctype 3.
Proof. split; [cbn; lia|]. split; [intros j Hj; cbn in Hj; lia|]. left. apply hit_iff; [apply caps_FREQ|reflexivity]. Qed.
Lemma z_sky_cube : forall g, sky_cube (z_cube z_ctype g) 3.
Proof.
  intros g. split; [apply z_wf; reflexivity|]. split; [apply z_axis|]. split; [lia|]. split; [cbn; lia|]. split; [cbn; lia|]. split; [cbn; lia|].
  intros a Ha Hn. cbn in Ha. lia.
Qed.
Lemma z_sample : forall g j y x, (j < 2)%nat -> (y < 2)%nat -> (x < 2)%nat -> sample (z_cube z_ctype g) 3 j y x = g j y x.
Proof.
  intros g j y x Hj Hy Hx. unfold sample, vox. cbn [i_naxis z_cube List.length seq rev app map Nat.eqb i_data].
  rewrite at_tab_nd by (repeat (constructor; auto)). reflexivity.
Qed.
Lemma four_vals : [INR 1; INR 2; INR 3; INR 4] = [1; 2; 3; 4].
Proof. replace (INR 1) with 1 by (cbn; ring). replace (INR 2) with 2 by (cbn; ring). replace (INR 3) with 3 by (cbn; ring). replace (INR 4) with 4 by (cbn; ring). reflexivity. Qed.
Lemma z_values : forall j, (j < 2)%nat -> channel_values (z_cube z_ctype z_sky) 3 j = [1; 2; 3; 4].
Proof.
  intros j Hj. unfold channel_values. change (len (i_naxis (z_cube z_ctype z_sky)) 1) with 2%nat. change (len (i_naxis (z_cube z_ctype z_sky)) 2) with 2%nat.
  cbn [seq flat_map]. rewrite !z_sample by lia. cbn [z_sky app Nat.mul Nat.add].
  rewrite four_vals. reflexivity.
Qed.
Lemma four_noise : exists sg, MAD (map Some (sky_values (-3) [1; 2; 3; 4])) = Some sg.
Proof.
  assert (N : sky_values (-3) [1; 2; 3; 4] <> []).
  { unfold sky_values. destruct (Rlt_dec 0 (-3)); [lra|]. cbn [filter]. repeat (destruct (Req_EM_T _ 0); [lra|]).
    assert (Em : median [1; 2; 3; 4] = Some (5 / 2)).
    { rewrite (median_of_sorted _ [1; 2; 3; 4]); [|discriminate|reflexivity|].
      - f_equal. unfold mid. cbn. field.
      - repeat (constructor; [|repeat (constructor; [lra|]); constructor]). constructor. }
    rewrite Em. destruct (proj1 (MAD_nonneg (map Some [1; 2; 3; 4])) ltac:(discriminate)) as (sg & -> & P).
    unfold below. cbn [filter]. destruct (Rlt_dec 1 (5 / 2 + 3 * sg)); [discriminate|lra]. }
  destruct (proj1 (MAD_nonneg (map Some (sky_values (-3) [1; 2; 3; 4])))) as (sg & E & _); [rewrite somes_map; exact N|eauto].
Qed.
Lemma z_noise : forall j, (j < 2)%nat -> exists sg, channel_noise (z_cube z_ctype z_sky) 3 (-3) j = Some sg.
Proof. intros j Hj. unfold channel_noise. rewrite z_values by exact Hj. exact four_noise. Qed.
Lemma z_fittable : forall y x, (y < 2)%nat -> (x < 2)%nat ->
  fittable (spectrum (z_cube z_ctype z_sky) 3 y x) (map (channel_noise (z_cube z_ctype z_sky) 3 (-3)) (seq 0 2)).
Proof.
  intros y x Hy Hx. destruct (z_noise 0 ltac:(lia)) as (sg & E). exists 0%nat, (INR (1 + 2 * y + x)), sg. split; [|exact E].
  unfold spectrum. rewrite nth_map_seq by (cbn; lia). rewrite z_sample by lia. reflexivity.
Qed.
Lemma z_known : known_name (s "linear") Linear.
Proof. left; auto. Qed.
Lemma z_runs : exists w, fitIcube z_mpfit (z_cube z_ctype z_sky) true [] [1; 2] 1 (-3) (s "linear") false = POk w.
Proof.
  apply (fit_cube_runs z_mpfit _ 3 true [] [1; 2] 1 (-3) _ Linear false (z_sky_cube _) z_six z_known z_total).
  split; [reflexivity|]. split; [lia|]. split; [reflexivity|]. intros _ y x Hy Hx _. exact (z_fittable y x Hy Hx).
Qed.

(** ** A pixel without data *)
Definition z_hole (j y x : nat) : option R := if ((y =? 1) && (x =? 1))%nat then None else z_sky j y x.
Lemma z_hole_runs : exists w, fitIcube z_mpfit (z_cube z_ctype z_hole) true [] [1; 2] 0 (-3) (s "linear") false = POk w.
Proof.
  apply (fit_cube_runs z_mpfit _ 3 true [] [1; 2] 0 (-3) _ Linear false (z_sky_cube _) z_six z_known z_total).
  split; [reflexivity|]. split; [lia|]. split; [reflexivity|]. intros E. exfalso. cbn in E. lia.
Qed.
(** Its model is blank, its error maps say zero. *)
Theorem hole_has_zero_error : ~ forall mpfit f k bunit history freq ord thr name ff am w y x,
  sky_cube f k -> six mpfit -> known_name name ff -> fitIcube mpfit f bunit history freq ord thr name am = POk w ->
  (y < len (i_naxis f) 2)%nat -> (x < len (i_naxis f) 1)%nat -> (forall j, sample f k j y x = None) -> err_at w 0 y x = None.
Proof.
  intros F. destruct z_hole_runs as (w & E). assert (Hs : forall j, sample (z_cube z_ctype z_hole) 3 j 1 1 = None).
  { intros j. destruct (Nat.lt_ge_cases j 2) as [L|L]; [rewrite z_sample by lia; reflexivity|].
    unfold sample, vox, at_nd. cbn [i_naxis z_cube List.length seq rev app map Nat.eqb i_data]. apply nth_overflow.
    pose proof (wf_tab_nd [2; 2; 2]%nat (fun i => z_hole (nth 0 i 0%nat) (nth 1 i 0%nat) (nth 2 i 0%nat))) as W. unfold wf_nd in W. rewrite W. cbn. lia. }
  specialize (F _ _ 3%nat _ _ _ _ _ _ Linear _ w 1%nat 1%nat (z_sky_cube _) z_six z_known E ltac:(cbn; lia) ltac:(cbn; lia) Hs).
  destruct (fit_cube _ _ 3 _ _ _ _ _ _ Linear _ w (z_sky_cube _) z_six z_known E) as (_ & _ & L & _ & _ & _ & PX).
  destruct (PX 1%nat 1%nat ltac:(cbn; lia) ltac:(cbn; lia)) as (_ & _ & _ & P & _).
  destruct P as (_ & _ & P & _); [discriminate| |].
  - intros (j & v & e & Ev & _). unfold spectrum in Ev. destruct (Nat.lt_ge_cases j 2) as [Lj|Lj].
    + rewrite nth_map_seq in Ev by exact Lj. rewrite Hs in Ev. discriminate.
    + rewrite nth_overflow in Ev by (rewrite map_length, seq_length; exact Lj). discriminate.
  - destruct (P 0%nat ltac:(rewrite L; lia)) as [_ P0]. rewrite P0 in F. discriminate.
Qed.

(** ** The frequency of the FDF *)
Theorem fdf_frequency : forall w l v, rescale w (FromFDF l) = POk v -> v_ref v <> 299792458 / sqrt l.
Proof.
  intros w l v H E. unfold rescale in H. destruct (shape (w_ref w)) as [|ny [|nx [|]]]; try discriminate. destruct (w_coeff w); [discriminate|]. cbv zeta in H.
  destruct (history_function _); [|discriminate]. cbn [pybind] in H. destruct (rescale_I_model_3D _ _ _ _ _); [|discriminate]. cbn [pybind] in H.
  unfold new_frequency in H. destruct (Rlt_dec 0 l) as [P|]; [|discriminate]. injection H as <-. cbn [v_ref] in E.
  assert (0 < sqrt l) by (apply sqrt_lt_R0; exact P). apply (f_equal (fun r => r * sqrt l)) in E. unfold Rdiv in E. rewrite !Rmult_assoc in E.
  rewrite Rinv_l in E by lra. lra.
Qed.

(** ** A file of zeros before a file of coefficients *)
Definition g_map (v : R) : nd (option R) := tab_nd [2; 2]%nat (fun _ => Some v).
Definition g_files : fit_files :=
  mk_fit_files (g_map 1) [(g_map 1, g_map 1); (g_map 0, g_map 1); (g_map 1, g_map 1)] (g_map 1)
    (tab_nd [6; 6; 2; 2]%nat (fun _ => Some 1)) (z_cube z_ctype z_sky) [] [s "Fit model is 2-order linear-polynomial"].
Lemma g_size : maps_of_size g_files 2 2.
Proof.
  split; [reflexivity|]. split; [apply wf_tab_nd|]. split; [reflexivity|]. split; [apply wf_tab_nd|]. split; [cbn; lia|].
  intros p I. repeat destruct I as [<-|I]; try (split; [reflexivity|apply wf_tab_nd]). destruct I.
Qed.
Lemma g_fitted : fitted_with g_files (s "linear").
Proof. exists [], (s "Fit model is 2-order linear-polynomial"), []. split; [reflexivity|]. split; [|intros l []]. exists (s "2"). split; [reflexivity|]. left. reflexivity. Qed.
Lemma g_at : forall v y x, (y < 2)%nat -> (x < 2)%nat -> at_nd None (g_map v) [y; x] = Some v.
Proof. intros. unfold g_map. rewrite at_tab_nd by (repeat (constructor; auto)). reflexivity. Qed.
Lemma g_coeffs : forall y x, (y < 2)%nat -> (x < 2)%nat -> pixel_coeffs g_files y x [0; 0; 0; 1; 0; 1].
Proof.
  intros y x Hy Hx. split; [reflexivity|]. intros i Hi. cbn [g_files w_coeff List.length].
  do 6 (destruct i as [|i]; [split; [intros L; try (exfalso; cbn in L; lia); unfold coeff_at; cbn [w_coeff g_files nth fst Nat.sub]; apply g_at; auto|intros L; try reflexivity; exfalso; cbn in L; lia]|]). lia.
Qed.
Lemma g_runs : exists v, rescale g_files (Given 1) = POk v.
Proof. apply (rescale_runs g_files (Given 1) 2 2 _ Linear g_size z_known g_fitted). exact Logic.I. Qed.

(** Three files say 1 + (f/f0)^2; the rescaled ones, at the same frequency, say 1. *)
Theorem gap_loses_order : ~ forall w how v ny nx name ff y x p r,
  maps_of_size w ny nx -> known_name name ff -> fitted_with w name -> rescale w how = POk v -> (y < ny)%nat -> (x < nx)%nat ->
  ref_at w y x = Some r -> 0 < r -> 0 < v_ref v -> pixel_coeffs w y x p ->
  forall p', List.length p' = 6%nat -> (forall i, (i < 6)%nat -> Some (nth (5 - i) p' 0) = if (i <? List.length (v_coeff v))%nat then new_coeff v i y x else Some 0) ->
  forall f, 0 < f -> I_spectrum ff p' (v_ref v) f = I_spectrum ff p r f.
Proof.
  intros F. destruct g_runs as (v & E). assert (E' := E).
  assert (EF : v_ref v = 1) by exact (proj1 (rescale_spectra _ _ _ _ _ _ _ g_size z_known g_fitted E)).
  destruct (rescale_view g_files (Given 1) v 2 2 _ Linear g_size z_known g_fitted E) as (ce & S1 & PX & Ef & Ln & NA).
  assert (AT : forall y x m, (y < 2)%nat -> (x < 2)%nat -> (m < 6)%nat -> at_nd None (fst ce) [m; y; x] = Some (nth m [0; 0; 0; 1; 0; 1] 0)).
  { intros y x m Hy Hx Hm. destruct (PX y x Hy Hx) as (c & q & e & _ & Eq & AT). rewrite (proj1 (AT m Hm)).
    rewrite (read_good g_files 2 2 y x _ g_size Hy Hx (g_coeffs y x Hy Hx)) in Eq.
    rewrite (linear_coeff c _ _ _ q e m Eq); [|reflexivity|exact Hm].
    replace (ref_at g_files y x) with (Some 1) by (symmetry; apply g_at; auto). rewrite EF. cbn [finite is_none negb val].
    do 6 (destruct m as [|m]; [cbn; f_equal; field|]). lia. }
  assert (GP : forall m, (m < 6)%nat -> good_plane (map_plane None (fst ce) m) = ((m =? 3) || (m =? 5))%nat).
  { intros m Hm. pose proof (good_plane_spec (fst ce) 2 2 m S1) as GS. destruct (good_plane (map_plane None (fst ce) m)) eqn:EG.
    - destruct (proj1 GS) as (y & x & Hy & Hx & (u & Eu & Nu)); [reflexivity|]. rewrite AT in Eu by auto. injection Eu as <-.
      do 6 (destruct m as [|m]; [cbn in Nu; try (exfalso; apply Nu; reflexivity); reflexivity|]). lia.
    - destruct ((m =? 3) || (m =? 5))%nat eqn:EM; [|reflexivity]. exfalso. assert (T : false = true); [|discriminate T]. apply GS. exists 0%nat, 0%nat. split; [lia|]. split; [lia|].
      exists 1. split; [|lra]. rewrite AT by lia. apply orb_true_iff in EM. destruct EM as [EM|EM]; apply Nat.eqb_eq in EM; subst m; reflexivity. }
  assert (L2 : List.length (v_coeff v) = 2%nat).
  { rewrite Ln. cbn [seq filter]. rewrite !GP by lia. reflexivity. }
  assert (NC : forall i, (i < 2)%nat -> new_coeff v i 0 0 = Some (nth (5 - i) [0; 0; 0; 1; 0; 1] 0)).
  { intros i Hi. rewrite (proj1 (NA i 0%nat 0%nat ltac:(lia) ltac:(lia) ltac:(lia))). apply AT; lia. }
  assert (R1 : ref_at g_files 0 0 = Some 1) by (apply g_at; lia).
  specialize (F g_files (Given 1) v 2%nat 2%nat (s "linear") Linear 0%nat 0%nat [0; 0; 0; 1; 0; 1] 1 g_size z_known g_fitted E ltac:(lia) ltac:(lia) R1 ltac:(lra) ltac:(lra) (g_coeffs 0%nat 0%nat ltac:(lia) ltac:(lia)) [0; 0; 0; 0; 0; 1] eq_refl).
  assert (Q := F). specialize (Q ltac:(intros i Hi; rewrite L2; do 6 (destruct i as [|i]; [cbn [Nat.ltb Nat.leb]; try (rewrite NC by lia); reflexivity|]); lia) 1 ltac:(lra)).
  rewrite EF in Q. unfold I_spectrum, lin_model in Q. replace (1 / 1) with 1 in Q by field. cbn in Q. unfold rsum in Q. cbn in Q.
  lra.
Qed.

(** ** The spectral axis is not the third *)
Definition s_image : image (option R) :=
  mk_image [2; 2; 1; 2]%nat [Some (s "RA---SIN"); Some (s "DEC--SIN"); Some (s "STOKES"); Some (s "FREQ")]
    (tab_nd [2; 1; 2; 2]%nat (fun i => Some (INR (1 + 2 * nth 2 i 0 + nth 3 i 0)%nat))).
Lemma s_sky : sky_cube s_image 4.
Proof.
  split; [split; [reflexivity|split; [apply wf_tab_nd|reflexivity]]|]. split.
  - split; [cbn; lia|]. split; [intros j Hj; cbn in Hj; lia|]. left. apply hit_iff; [apply caps_FREQ|reflexivity].
  - split; [lia|]. split; [cbn; lia|]. split; [cbn; lia|]. split; [cbn; lia|]. intros a Ha Hn. cbn in Ha. assert (a = 3)%nat as -> by lia. reflexivity.
Qed.
Theorem label_lost : ~ forall mpfit f k bunit history freq ord thr name ff am w,
  sky_cube f k -> six mpfit -> known_name name ff -> fitIcube mpfit f bunit history freq ord thr name am = POk w ->
  mentions (s "FREQ") (nth (k - 1) (i_ctype f) None) -> mentions (s "FREQ") (nth 2 (i_ctype (w_model w)) None).
Proof.
  intros F. assert (R : exists w, fitIcube z_mpfit s_image true [] [1; 2] 0 (-3) (s "linear") false = POk w).
  { apply (fit_cube_runs z_mpfit _ 4 true [] [1; 2] 0 (-3) _ Linear false s_sky z_six z_known z_total).
    split; [reflexivity|]. split; [lia|]. split; [reflexivity|]. intros E. exfalso. cbn in E. lia. }
  destruct R as (w & E). specialize (F _ _ 4%nat _ _ _ _ _ _ Linear _ w s_sky z_six z_known E). rewrite (proj1 (fit_cube_labels _ _ 4 _ _ _ _ _ _ Linear _ w s_sky z_six z_known E)) in F.
  assert (M : mentions (s "FREQ") (Some (s "STOKES"))) by (apply F; apply hit_iff; [apply caps_FREQ|reflexivity]).
  apply hit_iff in M; [discriminate|apply caps_FREQ].
Qed.

(** Frequency on the first axis, three axes of one length: the model is written
    with the channels on the axis named DEC. *)
Definition t_ctype : list (option str) := [Some (s "FREQ"); Some (s "RA---SIN"); Some (s "DEC--SIN")].
Definition t_sky (d r c : nat) : option R := Some (INR (1 + 2 * d + r)).
Lemma t_axis : spectral_axis (s "FREQ") t_ctype 1.
Proof.
  split; [cbn; lia|]. split; [|left; apply hit_iff; [apply caps_FREQ|reflexivity]].
  intros j Hj M. cbn in Hj. apply hit_iff in M; [|apply caps_FREQ]. assert (j = 2 \/ j = 3)%nat as [-> | ->] by lia; discriminate.
Qed.
(** pixel and channel of a voxel, by the names of the axes *)
Definition t_vox (f : image (option R)) (j ra dec : nat) : option R := vox None f (fun a => if (a =? 1)%nat then j else if (a =? 2)%nat then ra else dec).
Theorem first_axis_transposed : exists w,
  fitIcube z_mpfit (z_cube t_ctype t_sky) true [] [1; 2] 1 (-3) (s "linear") false = POk w /\
  i_ctype (w_model w) = t_ctype /\ i_naxis (w_model w) = [2; 2; 2]%nat /\
  exists r, 0 < r /\ forall j ra dec, (j < 2)%nat -> (ra < 2)%nat -> (dec < 2)%nat -> t_vox (w_model w) j ra dec = Some (1 + nth dec [1; 2] 0 / r).
Proof.
  set (f := z_cube t_ctype t_sky). pose proof (read_cube (None : option R) f 1 (z_wf t_ctype t_sky eq_refl) t_axis) as [RC _].
  change (i_naxis f) with [2; 2; 2]%nat in RC. cbn [List.length Nat.leb others seq filter Nat.eqb negb rev app] in RC. cbv zeta in RC.
  destruct (RC ltac:(cbn; lia)) as (cube & Er & Wc & Sc & Vc). change (shape cube = [2; 2; 2]%nat) in Sc.
  assert (AT : forall j y x, (j < 2)%nat -> (y < 2)%nat -> (x < 2)%nat -> at_nd None cube [j; y; x] = t_sky y x j).
  { intros j y x Hj Hy Hx. etransitivity; [exact (Vc (fun a => if (a =? 1)%nat then j else if (a =? 2)%nat then x else y) ltac:(intros a Ha; cbn in Ha; assert (a = 1 \/ a = 2 \/ a = 3)%nat as [-> |[-> | ->]] by lia; cbn; lia))|].
    unfold vox. cbn [f i_naxis z_cube List.length seq rev app map Nat.eqb i_data]. rewrite at_tab_nd by (repeat (constructor; auto)). reflexivity. }
  assert (NZ : exists sg, forall j, (j < 2)%nat -> snd (plane_noise (-3) (chan_plane cube j)) = Some sg).
  { destruct four_noise as (sg & E). exists sg. intros j Hj. rewrite plane_noise_spec. cbn [snd]. rewrite <- E. f_equal.
    unfold chan_plane. rewrite Sc. cbn [indices flat_map seq map app]. rewrite !AT by lia. cbn [t_sky Nat.mul Nat.add].
    change (map Some (sky_values (-3) [INR 1; INR 2; INR 3; INR 4]) = map Some (sky_values (-3) [1; 2; 3; 4])). now rewrite four_vals. }
  destruct NZ as (sg & NZ). set (noise := map (fun j => snd (plane_noise (-3) (chan_plane cube j))) (seq 0 2)).
  assert (EN : noise = [Some sg; Some sg]) by (unfold noise; cbn [seq map]; rewrite !NZ by lia; reflexivity).
  assert (ES : forall y x, (y < 2)%nat -> (x < 2)%nat -> map (fun j => at_nd None cube [j; y; x]) (seq 0 2) = [t_sky y x 0; t_sky y x 1]).
  { intros y x Hy Hx. cbn [seq map]. rewrite !AT by lia. reflexivity. }
  assert (FT : forall y x, (y < 2)%nat -> (x < 2)%nat -> fittable (map (fun j => at_nd None cube [j; y; x]) (seq 0 2)) noise).
  { intros y x Hy Hx. rewrite ES, EN by auto. exists 0%nat. eexists. exists sg. split; reflexivity. }
  assert (FI : fitIcube z_mpfit f true [] [1; 2] 1 (-3) (s "linear") false = make_model_I z_mpfit cube 2 2 true [] t_ctype [1; 2] 1 (-3) (s "linear") false).
  { unfold fitIcube. rewrite Er. cbn [pybind]. rewrite Sc. reflexivity. }
  destruct (make_total z_mpfit cube 2 2 2 true [] t_ctype [1; 2] 1 (-3) (s "linear") false Sc Wc ltac:(lia) ltac:(lia) ltac:(lia) ltac:(lia) eq_refl Linear z_known z_six eq_refl ltac:(lia) z_total) as (w & H).
  { right. intros y x Hy Hx _. exact (FT y x Hy Hx). }
  exists w. rewrite FI. split; [exact H|].
  destruct (make_pixels z_mpfit cube 2 2 2 true [] t_ctype [1; 2] 1 (-3) (s "linear") false Sc Wc ltac:(lia) ltac:(lia) ltac:(lia) ltac:(lia) eq_refl Linear z_known z_six w H) as (_ & _ & _ & _ & _ & En & Ec & Sm & _ & _ & _ & _ & PX).
  split; [exact Ec|]. split; [exact En|]. exists (1 / sqrt (mean [1 / 1 ^ 2; 1 / 2 ^ 2])). split.
  { apply Rdiv_lt_0_compat; [lra|]. apply sqrt_lt_R0. unfold mean, rsum. cbn. apply Rdiv_lt_0_compat; lra. }
  intros j ra dec Hj Hr Hd.
  assert (IM : in_mask cube 2 2 2 (-3) false ra j) by (unfold in_mask; cbn; lia).
  destruct (PX ra j Hr Hj) as (_ & P & _). destruct (P IM (FT ra j Hr Hj)) as (fr & EF & PS).
  change ((fun xy : list nat => map (fun i => at_nd None cube (i :: xy)) (seq 0 2)) [ra; j]) with (map (fun i => at_nd None cube [i; ra; j]) (seq 0 2)) in EF.
  fold noise in EF. rewrite ES, EN in EF by auto.
  destruct (fit_order_selection z_mpfit [1; 2] [t_sky ra j 0; t_sky ra j 1] [Some sg; Some sg] 1%Z Linear fr eq_refl eq_refl ltac:(discriminate) EF) as (mp & Em & Ep & _ & _ & _ & _ & Erf & Eff & Po & _).
  injection Em as <-. cbn [mp_params] in Ep. rewrite (Po ltac:(lia)) in Ep.
  assert (EV : t_vox (w_model w) j ra dec = model_sample w dec ra j) by (unfold t_vox, vox, model_sample; rewrite En; reflexivity).
  rewrite EV. rewrite (proj1 (proj2 PS) dec ltac:(exact Hd)). f_equal. unfold model_at. rewrite Eff, Ep, Erf.
  change (fit_ref (finite_chans [1; 2] [t_sky ra j 0; t_sky ra j 1] [Some sg; Some sg])) with (1 / sqrt (mean [1 / 1 ^ 2; 1 / 2 ^ 2])).
  set (r := 1 / sqrt _). unfold lin_model, fit_question, rsum. cbn. ring.
Qed.
