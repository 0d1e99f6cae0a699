(** rescale_I_model_3D from maps to maps, and after do_fitIcube (C43). *)
From Coq Require Import Reals List Arith ZArith Bool Ascii String Lia Lra Permutation.
Set Warnings "-ambiguous-paths".
From Coquelicot Require Import Coquelicot.
From Verif Require Import CBase PyRes PyStr PyStr_Proofs PyList NdArray NdIndex Interp_Model Synth_Model Setup_Model Measure_Model Median_Proofs
  StokesI_Model StokesI_Spec StokesI_Proofs StokesI_Fit Cube_Model Cube_Spec Cube_Proofs Icube_Model Icube_Spec Icube_Proofs Icube_Fit Icube_Rescale.
From Verif Require Run1D_Proofs.
Import ListNotations.
Local Open Scope nat_scope.

(** ** Reading the maps *)
Lemma read_at : forall w ny nx m y x, maps_of_size w ny nx -> m < 6 -> y < ny -> x < nx ->
  at_nd None (read_coeffs ny nx (map fst (w_coeff w))) [m; y; x] = if 5 - m <? List.length (w_coeff w) then coeff_at w (5 - m) y x else Some 0%R.
Proof.
  intros w ny nx m y x M Hm Hy Hx. unfold read_coeffs. rewrite at_tab_nd by (repeat (constructor; auto)). cbn [nth tl].
  destruct (Nat.ltb_spec (5 - m) (List.length (w_coeff w))) as [L|L].
  - rewrite (nth_error_nth' _ (mk_nd [] [])) by (rewrite map_length; exact L). unfold coeff_at. rewrite <- (map_nth fst). reflexivity.
  - rewrite (proj2 (nth_error_None _ _)) by (rewrite map_length; exact L). reflexivity.
Qed.

Lemma read_good : forall w ny nx y x p, maps_of_size w ny nx -> y < ny -> x < nx -> pixel_coeffs w y x p ->
  map (fun m => at_nd None (read_coeffs ny nx (map fst (w_coeff w))) [m; y; x]) (seq 0 6) = map Some p.
Proof.
  intros w ny nx y x p M Hy Hx (L6 & HP). apply nth_ext with (d := None) (d' := None); [rewrite !map_length, seq_length; auto|]. intros m Hm. rewrite map_length, seq_length in Hm.
  rewrite nth_map_seq by exact Hm. rewrite Nat.add_0_l. rewrite read_at by auto. rewrite (nth_map_in Some p m None 0%R) by lia. destruct (HP (5 - m) ltac:(lia)) as [P1 P2].
  replace (5 - (5 - m)) with m in P1, P2 by lia. destruct (Nat.ltb_spec (5 - m) (List.length (w_coeff w))) as [L|L]; [apply P1, L|rewrite P2 by exact L; reflexivity].
Qed.

Lemma good_plane_spec : forall (a : nd (option R)) ny nx i, shape a = [6; ny; nx] ->
  (good_plane (map_plane None a i) = true <-> exists y x, y < ny /\ x < nx /\ says (at_nd None a [i; y; x])).
Proof.
  intros a ny nx i S. unfold good_plane, map_plane. rewrite S. cbn [tl flat tab_nd]. rewrite existsb_exists. split.
  - intros (v & I & H). apply in_map_iff in I. destruct I as (xy & <- & I). apply in_indices in I. destruct (valid2 _ _ _ I) as (y & x & -> & Hy & Hx). exists y, x. split; [auto|]. split; [auto|].
    destruct (at_nd None a [i; y; x]) as [v|]; [|discriminate]. exists v. split; [reflexivity|]. destruct (Req_EM_T v 0); [discriminate|auto].
  - intros (y & x & Hy & Hx & (v & E & N)). exists (at_nd None a [i; y; x]). split; [apply in_map_iff; exists [y; x]; split; [reflexivity|]; apply in_indices; repeat (constructor; auto)|].
    rewrite E. destruct (Req_EM_T v 0); [contradiction|reflexivity].
Qed.

Lemma flat_is : forall (a : nd (option R)) ny nx, shape a = [ny; nx] -> wf_nd a -> flat a = flat_map (fun y => map (fun x => at_nd None a [y; x]) (seq 0 nx)) (seq 0 ny).
Proof.
  intros a ny nx S W. assert (E : flat a = map (at_nd None a) (indices [ny; nx])).
  { apply nth_ext with (d := None) (d' := None); [rewrite map_length, length_indices; unfold wf_nd in W; rewrite W, S; reflexivity|].
    intros i Hi. unfold wf_nd in W. rewrite W, S in Hi. destruct (unravel_valid [ny; nx] i Hi) as [V E]. rewrite <- E.
    rewrite (nth_map_in _ _ _ None []) by (rewrite length_indices; apply ravel_lt; exact V). rewrite nth_indices by exact V. unfold at_nd. now rewrite S. }
  rewrite E. cbn [indices]. rewrite flat_map_concat_map, concat_map, map_map, <- flat_map_concat_map. apply flat_map_ext. intros y.
  rewrite map_map. rewrite flat_map_concat_map, concat_map, map_map. cbn [map]. induction (seq 0 nx) as [|x l IH]; [reflexivity|]. cbn. now rewrite IH.
Qed.

Lemma ref_somes : forall w ny nx, maps_of_size w ny nx -> somes (flat (w_ref w)) = ref_values w ny nx.
Proof.
  intros w ny nx (Sr & Wr & _). rewrite (flat_is _ _ _ Sr Wr), somes_flat_map. unfold ref_values. apply flat_map_ext. intros y.
  induction (seq 0 nx) as [|x l IH]; [reflexivity|]. cbn [map flat_map]. rewrite somes_cons, IH. reflexivity.
Qed.

Lemma new_frequency_spec : forall w how ny nx f0, maps_of_size w ny nx -> (new_frequency how (w_ref w) = Some f0 <-> new_freq_is w how ny nx f0).
Proof.
  intros w how ny nx f0 M. unfold new_frequency, new_freq_is. destruct how as [l|f|].
  - destruct (Rlt_dec 0 l); split; [intros [= <-]; auto|intros [_ ->]; reflexivity|discriminate|intros [? _]; contradiction].
  - split; [intros [= <-]; reflexivity|intros ->; reflexivity].
  - rewrite (ref_somes w ny nx M). destruct (ref_values w ny nx) as [|v l]; split; [discriminate|intros [? _]; congruence|intros [= <-]; split; [discriminate|reflexivity]|intros [_ ->]; reflexivity].
Qed.

Lemma known_not_other : forall name ff, known_name name ff -> fun_of name = ff /\ ff <> OtherFun.
Proof. intros name ff [[-> ->]|[-> ->]]; split; try reflexivity; discriminate. Qed.

(** what is in the files, in terms of the six planes *)
Lemma rescale_planes : forall w how ny nx name ff, maps_of_size w ny nx -> known_name name ff -> fitted_with w name ->
  exists ce : nd (option R) * nd (option R), shape (fst ce) = [6; ny; nx] /\ shape (snd ce) = [6; ny; nx] /\
    (forall y x, y < ny -> x < nx -> exists c p e, (forall a b, a < 6 -> b < 6 -> c a b = cov_at w a b y x) /\
      rescale_I_pixel ff c (map (fun m => at_nd None (read_coeffs ny nx (map fst (w_coeff w))) [m; y; x]) (seq 0 6)) (ref_at w y x) (new_frequency how (w_ref w)) = POk (p, e) /\
      forall m, m < 6 -> at_nd None (fst ce) [m; y; x] = nth m p None /\ at_nd None (snd ce) [m; y; x] = nth m e None) /\
    let n := List.length (filter (fun i => good_plane (map_plane None (fst ce) i)) (seq 0 6)) in
    rescale w how = match new_frequency how (w_ref w) with
                    | None => PErr
                    | Some f0 => POk (mk_new_files f0 (map (fun i => (map_plane None (fst ce) (5 - i), map_plane None (snd ce) (5 - i))) (seq 0 n)))
                    end.
Proof.
  intros w how ny nx name ff M Hn FW. destruct (known_not_other _ _ Hn) as [Ef Nf]. assert (M' := M). destruct M' as (Sr & Wr & Sv & Wv & (C0 & C6) & HC).
  destruct (rescale_pixels (w_cov w) (w_ref w) (read_coeffs ny nx (map fst (w_coeff w))) (new_frequency how (w_ref w)) ff ny nx Nf Sr Wr eq_refl (wf_tab_nd _ _)) as (ce & E & S1 & S2 & _ & _ & PX).
  exists ce. split; [exact S1|]. split; [exact S2|]. split; [exact PX|]. cbv zeta. unfold rescale. rewrite Sr. destruct (w_coeff w) as [|pl0 pls] eqn:EC; [cbn in C0; lia|].
  rewrite (history_names_function w name ff Hn FW). cbn [pybind]. rewrite Ef. rewrite E. cbn [pybind]. reflexivity.
Qed.

Lemma filter_seq_le : forall (g : nat -> bool) n, List.length (filter g (seq 0 n)) <= n.
Proof. intros. rewrite <- (seq_length n 0) at 2. generalize (seq 0 n). induction l; cbn; [lia|]. destruct (g a); cbn; lia. Qed.

(** n of the numbers below 6 are good and the largest n are: no other is *)
Lemma count_contiguous : forall (g : nat -> bool) n, n = List.length (filter g (seq 0 6)) -> (forall i, i < n -> g (5 - i) = true) -> forall i, n <= i < 6 -> g (5 - i) = false.
Proof.
  intros g n En H i Hi. cbn [seq filter] in En.
  destruct (g 0) eqn:E0, (g 1) eqn:E1, (g 2) eqn:E2, (g 3) eqn:E3, (g 4) eqn:E4, (g 5) eqn:E5; cbn in En; subst n;
    do 6 (destruct i as [|i]; [try lia; cbn; auto; exfalso;
      repeat match goal with H : forall i, i < ?n -> _ |- _ =>
        first [pose proof (H 0 ltac:(lia)) as Q0; cbn in Q0; congruence | pose proof (H 1 ltac:(lia)) as Q1; cbn in Q1; congruence | pose proof (H 2 ltac:(lia)) as Q2; cbn in Q2; congruence
             | pose proof (H 3 ltac:(lia)) as Q3; cbn in Q3; congruence | pose proof (H 4 ltac:(lia)) as Q4; cbn in Q4; congruence | pose proof (H 5 ltac:(lia)) as Q5; cbn in Q5; congruence] end|]); lia.
Qed.

Lemma new_at : forall (c e : nd (option R)) f0 n ny nx i y x, shape c = [6; ny; nx] -> shape e = [6; ny; nx] -> i < n -> y < ny -> x < nx ->
  new_coeff (mk_new_files f0 (map (fun i => (map_plane None c (5 - i), map_plane None e (5 - i))) (seq 0 n))) i y x = at_nd None c [5 - i; y; x] /\
  new_err (mk_new_files f0 (map (fun i => (map_plane None c (5 - i), map_plane None e (5 - i))) (seq 0 n))) i y x = at_nd None e [5 - i; y; x].
Proof.
  intros c e f0 n ny nx i y x Sc Se Hi Hy Hx. unfold new_coeff, new_err. cbn [v_coeff]. rewrite nth_map_seq by exact Hi. rewrite Nat.add_0_l. cbn [fst snd]. unfold map_plane. rewrite Sc, Se. cbn [tl].
  rewrite !at_tab_nd by (repeat (constructor; auto)). split; reflexivity.
Qed.

Lemma rescale_view : forall w how v ny nx name ff, maps_of_size w ny nx -> known_name name ff -> fitted_with w name -> rescale w how = POk v ->
  exists ce : nd (option R) * nd (option R), shape (fst ce) = [6; ny; nx] /\
    (forall y x, y < ny -> x < nx -> exists c p e, (forall a b, a < 6 -> b < 6 -> c a b = cov_at w a b y x) /\
      rescale_I_pixel ff c (map (fun m => at_nd None (read_coeffs ny nx (map fst (w_coeff w))) [m; y; x]) (seq 0 6)) (ref_at w y x) (Some (v_ref v)) = POk (p, e) /\
      forall m, m < 6 -> at_nd None (fst ce) [m; y; x] = nth m p None /\ at_nd None (snd ce) [m; y; x] = nth m e None) /\
    new_frequency how (w_ref w) = Some (v_ref v) /\
    List.length (v_coeff v) = List.length (filter (fun i => good_plane (map_plane None (fst ce) i)) (seq 0 6)) /\
    forall i y x, i < List.length (v_coeff v) -> y < ny -> x < nx -> new_coeff v i y x = at_nd None (fst ce) [5 - i; y; x] /\ new_err v i y x = at_nd None (snd ce) [5 - i; y; x].
Proof.
  intros w how v ny nx name ff M Hn FW H. destruct (rescale_planes w how ny nx name ff M Hn FW) as (ce & S1 & S2 & PX & E). cbv zeta in E. rewrite E in H.
  destruct (new_frequency how (w_ref w)) as [f0|] eqn:Ef; [|discriminate].
  set (n := List.length (filter _ _)) in *. assert (Ev : v = mk_new_files f0 (map (fun i => (map_plane None (fst ce) (5 - i), map_plane None (snd ce) (5 - i))) (seq 0 n))) by congruence.
  assert (Lv : List.length (v_coeff v) = n) by (rewrite Ev; cbn [v_coeff]; now rewrite map_length, seq_length).
  assert (Er : v_ref v = f0) by (rewrite Ev; reflexivity). rewrite Lv, Er.
  exists ce. split; [exact S1|]. split; [exact PX|]. split; [reflexivity|]. split; [reflexivity|].
  intros i y x Hi Hy Hx. rewrite Ev. apply (new_at _ _ f0 n ny nx); auto.
Qed.

(** The new maps stand for the same spectra, about the new frequency. *)
Theorem rescale_spectra : forall w how v ny nx name ff, maps_of_size w ny nx -> known_name name ff -> fitted_with w name -> rescale w how = POk v ->
  new_freq_is w how ny nx (v_ref v) /\ List.length (v_coeff v) <= 6 /\
  forall y x p r, y < ny -> x < nx -> ref_at w y x = Some r -> (0 < r)%R -> (0 < v_ref v)%R -> pixel_coeffs w y x p ->
    exists p', List.length p' = 6 /\ (forall i, i < List.length (v_coeff v) -> new_coeff v i y x = Some (nth (5 - i) p' 0%R)) /\
      (forall f, (0 < f)%R -> I_spectrum ff p' (v_ref v) f = I_spectrum ff p r f) /\
      ((forall i, i < List.length (v_coeff v) -> exists y' x', y' < ny /\ x' < nx /\ says (new_coeff v i y' x')) ->
       forall i, List.length (v_coeff v) <= i < 6 -> nth (5 - i) p' 0%R = 0%R).
Proof.
  intros w how v ny nx name ff M Hn FW H. destruct (rescale_view w how v ny nx name ff M Hn FW H) as (ce & S1 & PX & Ef & Ln & NA).
  split; [apply (new_frequency_spec w how ny nx _ M); exact Ef|]. split; [rewrite Ln; apply filter_seq_le|]. intros y x p r Hy Hx Er Hr H0 HP.
  destruct (PX y x Hy Hx) as (c & q & e & _ & Eq & AT). rewrite (read_good w ny nx y x p M Hy Hx HP), Er in Eq.
  destruct (pixel_rescaled ff c p r (v_ref v) (proj2 (known_not_other _ _ Hn)) (proj1 HP) Hr H0) as (p' & e' & Ep & L' & Sp). rewrite Ep in Eq. injection Eq as <- <-.
  assert (AT' : forall m, m < 6 -> at_nd None (fst ce) [m; y; x] = Some (nth m p' 0%R)).
  { intros m Hm. rewrite (proj1 (AT m Hm)). apply (nth_map_in Some p' m None 0%R). lia. }
  assert (N6 : List.length (v_coeff v) <= 6) by (rewrite Ln; apply filter_seq_le).
  exists p'. split; [exact L'|]. split; [|split; [exact Sp|]].
  - intros i Hi. rewrite (proj1 (NA i y x Hi Hy Hx)). apply AT'. lia.
  - intros NG i Hi. pose proof (count_contiguous (fun i => good_plane (map_plane None (fst ce) i)) _ Ln) as CC. cbv beta in CC.
    assert (G : good_plane (map_plane None (fst ce) (5 - i)) = false).
    { apply CC; [|exact Hi]. intros k Hk. apply (good_plane_spec _ ny nx _ S1). destruct (NG k Hk) as (y' & x' & Hy' & Hx' & Sy). exists y', x'. split; [auto|]. split; [auto|].
      rewrite (proj1 (NA k y' x' Hk Hy' Hx')) in Sy. exact Sy. }
    destruct (Req_EM_T (nth (5 - i) p' 0%R) 0) as [Z|Z]; [exact Z|]. exfalso.
    assert (GT : good_plane (map_plane None (fst ce) (5 - i)) = true).
    { apply (good_plane_spec _ ny nx _ S1). exists y, x. split; [auto|]. split; [auto|]. exists (nth (5 - i) p' 0%R). split; [apply AT'; lia|exact Z]. }
    congruence.
Qed.

(** Pixel by pixel the tool is renormalize_StokesI_model, coefficients and errors. *)
Theorem rescale_is_renormalize : forall w how v ny nx name ff, maps_of_size w ny nx -> known_name name ff -> fitted_with w name -> rescale w how = POk v ->
  forall y x fr, y < ny -> x < nx -> stands_for w ff y x fr ->
    exists r, renormalize_StokesI_model fr (v_ref v) = POk r /\
      forall i, i < List.length (v_coeff v) -> new_coeff v i y x = Some (nth (5 - i) (params r) 0%R) /\ new_err v i y x = nth (5 - i) (perror r) None.
Proof.
  intros w how v ny nx name ff M Hn FW H y x fr Hy Hx (Eff & Er & Hr & HP & (cv & Ecv & Hcv)). destruct (rescale_view w how v ny nx name ff M Hn FW H) as (ce & S1 & PX & Ef & Ln & NA).
  set (f0 := v_ref v) in *. assert (N6 : List.length (v_coeff v) <= 6) by (rewrite Ln; apply filter_seq_le).
  destruct (PX y x Hy Hx) as (c & q & e & HC & Eq & AT). rewrite (read_good w ny nx y x _ M Hy Hx HP), Er in Eq.
  assert (Nf := proj2 (known_not_other _ _ Hn)).
  assert (L6 := proj1 HP). destruct (len6 _ L6) as (a1 & a2 & a3 & a4 & a5 & a6 & Hp).
  assert (HC' : forall a b, a < 6 -> b < 6 -> c a b = Some (cv a b)) by (intros a b Ha Hb; rewrite HC by auto; apply Hcv; auto).
  unfold rescale_I_pixel in Eq. cbv zeta in Eq. cbn [finite is_none negb andb val] in Eq.
  assert (EV : map val (map Some (params fr)) = params fr) by (rewrite map_map; cbn; apply map_id). rewrite EV in Eq.
  assert (G : exists r r', renormalize_StokesI_model fr f0 = POk r /\ renormalize_StokesI_model (mk_fit (params fr) 0 0 None 0 5 (ref_freq fr) 0 (Some (fun i j => val (c i j))) [] ff) f0 = POk r' /\ params r' = params r /\ perror r' = perror r /\ List.length (params r) = 6).
  { unfold renormalize_StokesI_model. cbn [params fit_function pcov ref_freq]. rewrite Hp, Eff, Ecv. destruct ff; [| |congruence]; cbv zeta.
    - eexists _, _. split; [reflexivity|]. split; [reflexivity|]. cbn [params perror]. rewrite !HC' by lia. cbn [val]. split; [reflexivity|]. split; reflexivity.
    - eexists _, _. split; [reflexivity|]. split; [reflexivity|]. cbn [params perror]. rewrite !HC' by lia. cbn [val]. split; [reflexivity|]. split; reflexivity. }
  destruct G as (r & r' & Er1 & Er2 & EP & EE & LP). exists r. split; [exact Er1|]. rewrite Er2 in Eq. cbn [pybind] in Eq. injection Eq as <- <-.
  intros i Hi. destruct (NA i y x Hi Hy Hx) as [-> ->].
  destruct (AT (5 - i) ltac:(lia)) as [-> ->]. rewrite EP, EE. 
  change (nth (5 - i) (map (fun i => if known_p ff (fun i => nth i (map Some (params fr)) None) true i then Some (nth i (params r) 0%R) else None) (seq 0 6)) None = Some (nth (5 - i) (params r) 0%R) /\
          nth (5 - i) (map (fun i => if known_e ff (fun i => nth i (map Some (params fr)) None) c true i then nth i (perror r) None else None) (seq 0 6)) None = nth (5 - i) (perror r) None).
  rewrite !nth_map_seq by lia. rewrite !Nat.add_0_l. rewrite known_all by (auto; lia).
  assert (KE : known_e ff (fun i => nth i (map Some (params fr)) None) c true (5 - i) = true).
  { rewrite Hp. unfold known_e. assert (H5 : 5 - i < 6) by lia. revert H5. generalize (5 - i). intros m Hm.
    assert (FC : forall a b, a < 6 -> b < 6 -> finite (c a b) = true) by (intros a b Ha Hb; rewrite HC' by auto; reflexivity).
    destruct ff; [rewrite FC by auto; reflexivity| |congruence]. cbv zeta. cbn [orb andb].
    assert (U : forall n0, n0 < 6 -> forallb (fun a => forallb (fun b => (b <? a) || finite (c a b)) (seq 0 (S n0))) (seq 0 (S n0)) = true).
    { intros n0 H0. apply forallb_forall. intros a Ia. apply forallb_forall. intros b Ib. apply in_seq in Ia. apply in_seq in Ib. rewrite FC by lia. apply orb_true_r. }
    destruct (Nat.ltb_spec m 4); [apply U; lia|]. destruct (Nat.eqb_spec m 4).
    - rewrite (FC 0 5) by lia. rewrite andb_true_r. apply forallb_forall. intros a Ia. apply forallb_forall. intros b Ib. apply in_seq in Ia. apply in_seq in Ib. rewrite FC by lia. apply orb_true_r.
    - rewrite U by lia. reflexivity. }
  rewrite KE. split; reflexivity.
Qed.

(** A pixel without a model stays without one. *)
Theorem rescale_blank : forall w how v ny nx name ff, maps_of_size w ny nx -> known_name name ff -> fitted_with w name -> rescale w how = POk v ->
  forall y x, y < ny -> x < nx -> ref_at w y x = None -> (forall i, i < List.length (w_coeff w) -> coeff_at w i y x = None) ->
    forall i, i < List.length (v_coeff v) -> i < List.length (w_coeff w) -> new_coeff v i y x = None.
Proof.
  intros w how v ny nx name ff M Hn FW H y x Hy Hx Er HP i Hi Hw. destruct (rescale_view w how v ny nx name ff M Hn FW H) as (ce & S1 & PX & Ef & Ln & NA).
  set (f0 := v_ref v) in *. 
  assert (H6 := M). destruct H6 as (_ & _ & _ & _ & (_ & H6) & _).
  rewrite (proj1 (NA i y x Hi Hy Hx)).
  destruct (PX y x Hy Hx) as (c & q & e & HC & Eq & AT). rewrite (proj1 (AT (5 - i) ltac:(lia))). rewrite Er in Eq.
  unfold rescale_I_pixel in Eq. cbv zeta in Eq. destruct (renormalize_StokesI_model _ _) as [r|]; [|discriminate]. cbn [pybind] in Eq. injection Eq as <- <-.
  set (cl := map (fun m => at_nd None (read_coeffs ny nx (map fst (w_coeff w))) [m; y; x]) (seq 0 6)) in *.
  change (nth (5 - i) (map (fun i => if known_p ff (fun i => nth i cl None) (finite None && finite (Some f0)) i then Some (nth i (params r) 0%R) else None) (seq 0 6)) None = None).
  rewrite nth_map_seq by lia. rewrite Nat.add_0_l.
  assert (CN : nth (5 - i) cl None = None).
  { unfold cl. rewrite nth_map_seq by lia. rewrite Nat.add_0_l. rewrite read_at by (auto; lia). replace (5 - (5 - i)) with i by lia. destruct (Nat.ltb_spec i (List.length (w_coeff w))); [apply HP; auto|lia]. }
  assert (KP : known_p ff (fun i => nth i cl None) (finite None && finite (Some f0)) (5 - i) = false).
  { unfold known_p. destruct ff; try (rewrite CN; reflexivity). apply andb_false_iff. left. apply not_true_is_false. intros F. rewrite forallb_forall in F. specialize (F (5 - i)). rewrite CN in F.
    cut (finite None = true); [discriminate|]. apply F. apply in_seq. lia. }
  rewrite KP. reflexivity.
Qed.

(** When the tool runs *)
Theorem rescale_runs : forall w how ny nx name ff, maps_of_size w ny nx -> known_name name ff -> fitted_with w name ->
  ((exists v, rescale w how = POk v) <-> match how with FromFDF l => (0 < l)%R | Given _ => True | Common => exists y x, y < ny /\ x < nx /\ ref_at w y x <> None end).
Proof.
  intros w how ny nx name ff M Hn FW. destruct (rescale_planes w how ny nx name ff M Hn FW) as (ce & _ & _ & _ & E). cbv zeta in E.
  assert (A : (exists v, rescale w how = POk v) <-> exists f0, new_frequency how (w_ref w) = Some f0).
  { rewrite E. destruct (new_frequency how (w_ref w)) as [f0|]; split; intros [z Hz]; try discriminate; eauto. }
  rewrite A. split.
  - intros (f0 & Hf). apply (new_frequency_spec w how ny nx f0 M) in Hf. destruct how; [exact (proj1 Hf)|exact Logic.I|]. destruct Hf as [N _].
    destruct (ref_values w ny nx) as [|r l] eqn:ER; [congruence|]. assert (I : In r (ref_values w ny nx)) by (rewrite ER; now left).
    apply in_flat_map in I. destruct I as (y & Iy & I). apply in_flat_map in I. destruct I as (x & Ix & I). apply in_seq in Iy. apply in_seq in Ix. exists y, x. split; [lia|]. split; [lia|]. destruct (ref_at w y x); [discriminate|destruct I].
  - intros H. destruct how as [l|f|].
    + eexists. apply (new_frequency_spec w _ ny nx _ M). split; [exact H|reflexivity].
    + eexists. reflexivity.
    + destruct H as (y & x & Hy & Hx & N). eexists. apply (new_frequency_spec w _ ny nx _ M). split; [|reflexivity]. intros Z.
      destruct (ref_at w y x) as [r|] eqn:ER; [|congruence]. assert (I : In r (ref_values w ny nx)); [|rewrite Z in I; destruct I].
      apply in_flat_map. exists y. split; [apply in_seq; lia|]. apply in_flat_map. exists x. split; [apply in_seq; lia|]. rewrite ER. now left.
Qed.

(** ** The polynomial in frequency: nothing is lost when each file says something *)
Lemma linear_coeff : forall c cl old new p e i, rescale_I_pixel Linear c cl old new = POk (p, e) -> List.length cl = 6 -> i < 6 ->
  nth i p None = if finite (nth i cl None) && ((finite old && finite new) || (i =? 5)) then Some (val (nth i cl None) * (val new / val old) ^ (5 - i))%R else None.
Proof.
  intros c cl old new p e i H L Hi. destruct cl as [|a0 [|a1 [|a2 [|a3 [|a4 [|a5 [|]]]]]]]; try discriminate.
  unfold rescale_I_pixel in H. cbv zeta in H. unfold renormalize_StokesI_model in H. cbn [params fit_function pcov ref_freq map] in H. cbn [pybind] in H.
  injection H as <- _. cbn [params]. 
  change (nth i (map (fun i0 => if known_p Linear (fun i => nth i [a0; a1; a2; a3; a4; a5] None) (finite old && finite new) i0 then Some (nth i0 [(val a0 * (val new / val old) ^ 5)%R; (val a1 * (val new / val old) ^ 4)%R; (val a2 * (val new / val old) ^ 3)%R; (val a3 * (val new / val old) ^ 2)%R; (val a4 * (val new / val old))%R; val a5] 0%R) else None) (seq 0 6)) None = if finite (nth i [a0; a1; a2; a3; a4; a5] None) && ((finite old && finite new) || (i =? 5)) then Some (val (nth i [a0; a1; a2; a3; a4; a5] None) * (val new / val old) ^ (5 - i))%R else None).
  rewrite nth_map_seq by exact Hi. rewrite Nat.add_0_l. unfold known_p.
  destruct (finite (nth i [a0; a1; a2; a3; a4; a5] None) && ((finite old && finite new) || (i =? 5))); [|reflexivity]. f_equal.
  do 6 (destruct i as [|i]; [cbn [nth Nat.sub]; cbn [pow]; ring|]). lia.
Qed.

Theorem rescale_linear_complete : forall w how v ny nx, maps_of_size w ny nx -> fitted_with w (s "linear") -> rescale w how = POk v -> (0 < v_ref v)%R ->
  (forall i, i < List.length (w_coeff w) -> exists y x r, y < ny /\ x < nx /\ ref_at w y x = Some r /\ (0 < r)%R /\ says (coeff_at w i y x)) ->
  List.length (v_coeff v) = List.length (w_coeff w) /\
  forall y x p r, y < ny -> x < nx -> ref_at w y x = Some r -> (0 < r)%R -> pixel_coeffs w y x p ->
    forall i, i < List.length (v_coeff v) -> new_coeff v i y x = Some (nth (5 - i) p 0%R * (v_ref v / r) ^ i)%R.
Proof.
  intros w how v ny nx M FW H H0 NG. assert (Hn : known_name (s "linear") Linear) by (left; auto).
  destruct (rescale_view w how v ny nx _ Linear M Hn FW H) as (ce & S1 & PX & Ef & Ln & NA). set (f0 := v_ref v) in *. set (n := List.length (v_coeff v)) in *.
  assert (H6 := M). destruct H6 as (_ & _ & _ & _ & (_ & H6) & _).
  set (cl := fun y x => map (fun m => at_nd None (read_coeffs ny nx (map fst (w_coeff w))) [m; y; x]) (seq 0 6)) in *.
  assert (AT : forall y x m, y < ny -> x < nx -> m < 6 -> at_nd None (fst ce) [m; y; x] =
    let c := if 5 - m <? List.length (w_coeff w) then coeff_at w (5 - m) y x else Some 0%R in
    if finite c && (finite (ref_at w y x) || (m =? 5)) then Some (val c * (f0 / val (ref_at w y x)) ^ (5 - m))%R else None).
  { intros y x m Hy Hx Hm. destruct (PX y x Hy Hx) as (c & q & e & _ & Eq & AT). rewrite (proj1 (AT m Hm)). rewrite (linear_coeff c _ _ _ q e m Eq) by (auto; rewrite map_length, seq_length; auto).
    rewrite nth_map_seq by exact Hm. rewrite Nat.add_0_l. rewrite read_at by auto. cbn [finite is_none negb val]. rewrite andb_true_r. reflexivity. }
  assert (GP : forall m, m < 6 -> good_plane (map_plane None (fst ce) m) = (5 - m <? List.length (w_coeff w))).
  { intros m Hm. destruct (Nat.ltb_spec (5 - m) (List.length (w_coeff w))) as [L|L].
    - apply (good_plane_spec _ ny nx _ S1). destruct (NG (5 - m) L) as (y & x & r & Hy & Hx & Er & Hr & (u & Eu & Nu)). exists y, x. split; [auto|]. split; [auto|].
      rewrite AT by auto. cbv zeta. destruct (Nat.ltb_spec (5 - m) (List.length (w_coeff w))); [|lia]. rewrite Eu, Er. cbn. eexists. split; [reflexivity|].
      apply Rmult_integral_contrapositive_currified; [exact Nu|]. apply pow_nonzero. apply Rgt_not_eq. apply Rdiv_lt_0_compat; auto.
    - destruct (good_plane _) eqn:G; [|reflexivity]. exfalso. apply (good_plane_spec _ ny nx _ S1) in G. destruct G as (y & x & Hy & Hx & (u & Eu & Nu)).
      rewrite AT in Eu by auto. cbv zeta in Eu. destruct (Nat.ltb_spec (5 - m) (List.length (w_coeff w))); [lia|]. cbn [finite is_none negb andb val] in Eu.
      destruct (finite (ref_at w y x) || (m =? 5)); [|discriminate Eu]. injection Eu as <-. apply Nu. ring. }
  assert (En : n = List.length (w_coeff w)).
  { rewrite Ln. assert (EF : filter (fun i => good_plane (map_plane None (fst ce) i)) (seq 0 6) = filter (fun i => 5 - i <? List.length (w_coeff w)) (seq 0 6)) by (apply filter_ext_in; intros m I; apply in_seq in I; apply GP; lia).
    rewrite EF. destruct M as (_ & _ & _ & _ & (Hpos & _) & _). clear - H6 Hpos. revert H6 Hpos. generalize (List.length (w_coeff w)). intros k H6 Hpos.
    do 7 (destruct k as [|k]; [try lia; reflexivity|]). lia. }
  split; [exact En|]. intros y x p r Hy Hx Er Hr HP i Hi.
  rewrite (proj1 (NA i y x Hi Hy Hx)). rewrite AT by (auto; lia). cbv zeta. replace (5 - (5 - i)) with i by lia.
  destruct (Nat.ltb_spec i (List.length (w_coeff w))); [|lia]. rewrite (proj1 (proj2 HP i ltac:(lia))) by auto. rewrite Er. reflexivity.
Qed.

(** ** Fit, then rescale *)
Lemma fit_high_zero : forall mpfit freq I dI ord ff fr i, keeps_fixed mpfit -> List.length I = List.length freq -> List.length dI = List.length freq -> ff <> OtherFun ->
  fit_StokesI_model mpfit freq I dI ord ff = POk fr -> i < 6 -> (Z.abs ord < Z.of_nat i)%Z -> nth (5 - i) (params fr) 0%R = 0%R.
Proof.
  intros mpfit freq I dI ord ff fr i KF LI LD Nf EF Hi Ho. destruct (fit_order_selection mpfit freq I dI ord ff fr LI LD Nf EF) as (mp & E & -> & _ & _ & _ & _ & _ & _ & P1 & P2).
  apply (KF _ mp (5 - i) E). unfold fit_question. cbn [in_fixed]. rewrite nth_map_seq by lia. rewrite Nat.add_0_l.
  assert (B : (polyOrd fr < Z.of_nat i)%Z) by (destruct (Z.neg_nonneg_cases ord) as [Hn|Hn]; [destruct (P2 Hn) as (B & _); lia|rewrite (P1 Hn); lia]).
  apply negb_true_iff. apply Z.leb_gt. lia.
Qed.

Lemma fit_files_fitted : forall mpfit f k bunit history freq ord thr name ff am w, sky_cube f k -> six mpfit -> known_name name ff ->
  fitIcube mpfit f bunit history freq ord thr name am = POk w -> fitted_with w name.
Proof.
  intros mpfit f k bunit history freq ord thr name ff am w Hc H6 Hf H. destruct (fit_cube_history _ _ _ _ _ _ _ _ _ _ _ _ Hc H6 Hf H) as (l & Eh & E1 & E2).
  exists (history ++ [s "Stokes I model fitted by RM-Tools"]), l, []. split; [rewrite <- app_assoc; exact Eh|]. split; [|intros l' []].
  destruct (Z.neg_nonneg_cases ord) as [Hn|Hn].
  - exists (str_of_nat (Z.to_nat (- ord))). split; [apply digits_of|]. right. apply E2, Hn.
  - exists (str_of_nat (Z.to_nat ord)). split; [apply digits_of|]. left. apply E1, Hn.
Qed.

Theorem fit_then_rescale : forall mpfit f k bunit history freq ord thr name ff am w how v,
  sky_cube f k -> six mpfit -> keeps_fixed mpfit -> known_name name ff -> (forall q, In q freq -> (0 < q)%R) ->
  fitIcube mpfit f bunit history freq ord thr name am = POk w -> rescale w how = POk v -> (0 < v_ref v)%R ->
  forall y x, y < len (i_naxis f) 2 -> x < len (i_naxis f) 1 -> (am = true -> detected f k thr y x) ->
    fittable (spectrum f k y x) (map (channel_noise f k thr) (seq 0 (len (i_naxis f) k))) ->
    exists fr p', pixel_says w freq y x fr /\ List.length p' = 6 /\
      (forall i, i < List.length (v_coeff v) -> new_coeff v i y x = Some (nth (5 - i) p' 0%R)) /\
      (forall q, (0 < q)%R -> I_spectrum ff p' (v_ref v) q = model_at fr q) /\
      (forall j, j < List.length freq -> model_sample w j y x = Some (I_spectrum ff p' (v_ref v) (nth j freq 0%R))) /\
      (pcov fr <> None -> exists r, renormalize_StokesI_model fr (v_ref v) = POk r /\ forall i, i < List.length (v_coeff v) -> new_err v i y x = nth (5 - i) (perror r) None).
Proof.
  intros mpfit f k bunit history freq ord thr name ff am w how v Hc H6 KF Hf PF H HR H0 y x Hy Hx C F.
  destruct (known_not_other _ _ Hf) as [_ Nf].
  pose proof (fit_files_fitted _ _ _ _ _ _ _ _ _ _ _ _ Hc H6 Hf H) as FW.
  destruct (fit_cube _ _ _ _ _ _ _ _ _ _ _ _ Hc H6 Hf H) as (Lf & _ & Lw & Mw & _ & _ & PX). destruct (PX y x Hy Hx) as (_ & _ & P & _). destruct (P C F) as (fr & EF & PS). clear P PX.
  assert (LS : List.length (spectrum f k y x) = List.length freq) by (unfold spectrum; rewrite map_length, seq_length; auto).
  assert (LN : List.length (map (channel_noise f k thr) (seq 0 (len (i_naxis f) k))) = List.length freq) by (rewrite map_length, seq_length; auto).
  assert (L6 : List.length (params fr) = 6) by (refine (fit_params_len mpfit _ _ _ _ _ _ _ EF); intros q r0 Q; exact (proj1 (H6 q r0 Q))).
  assert (Eff : fit_function fr = ff) by exact (fit_fun_kept _ _ _ _ _ _ _ EF).
  assert (Hr : (0 < ref_freq fr)%R).
  { destruct (fit_order_selection mpfit freq _ _ ord ff fr LS LN Nf EF) as (mp & _ & _ & _ & _ & _ & _ & -> & _). apply Run1D_Proofs.fit_ref_pos; [|now apply Run1D_Proofs.finite_chans_pos].
    rewrite <- good_chans_spec by auto. intros Z. unfold fit_StokesI_model in EF. rewrite Z in EF. discriminate. }
  assert (HP : pixel_coeffs w y x (params fr)).
  { split; [exact L6|]. intros i Hi. destruct PS as (_ & _ & PC & _). split; [intros Hw; exact (proj1 (PC i Hw))|]. intros Hw. rewrite Lw in Hw. rewrite Zabs2Nat.abs_nat_spec in Hw. apply (fit_high_zero mpfit freq _ _ ord ff fr i KF LS LN Nf EF Hi). lia. }
  destruct (rescale_spectra w how v _ _ name ff Mw Hf FW HR) as (_ & _ & RS). destruct (RS y x (params fr) (ref_freq fr) Hy Hx (proj1 PS) Hr H0 HP) as (p' & L' & Nc & Sp & _).
  assert (MA : forall q, (0 < q)%R -> I_spectrum ff p' (v_ref v) q = model_at fr q).
  { intros q Hq. rewrite Sp by exact Hq. unfold model_at, I_spectrum. rewrite Eff. reflexivity. }
  exists fr, p'. split; [exact PS|]. split; [exact L'|]. split; [exact Nc|]. split; [exact MA|]. split.
  - intros j Hj. rewrite MA by (apply PF, nth_In; exact Hj). destruct PS as (_ & PM & _). apply PM. exact Hj.
  - intros NC. destruct (pcov fr) as [c|] eqn:Ec; [|congruence].
    assert (SF : stands_for w ff y x fr).
    { split; [exact Eff|]. split; [exact (proj1 PS)|]. split; [exact Hr|]. split; [exact HP|]. exists c. split; [exact Ec|]. intros a b Ha Hb. destruct PS as (_ & _ & _ & PV). rewrite PV by auto. rewrite Ec. reflexivity. }
    destruct (rescale_is_renormalize w how v _ _ name ff Mw Hf FW HR y x fr Hy Hx SF) as (r & Er & RI). exists r. split; [exact Er|]. intros i Hi. exact (proj2 (RI i Hi)).
Qed.
