(** Proofs about do_fitIcube from its input image to its files (C44). *)
From Coq Require Import Reals List Arith ZArith Bool Ascii String Lia Lra.
Set Warnings "-ambiguous-paths".
From Coquelicot Require Import Coquelicot.
From Verif Require Import CBase PyRes PyStr PyList NdArray NdIndex Interp_Model Synth_Model Setup_Model Measure_Model Median_Proofs
  StokesI_Model StokesI_Spec StokesI_Proofs StokesI_Fit Cube_Model Cube_Spec Cube_Proofs Icube_Model Icube_Spec Icube_Proofs.
Import ListNotations.
Local Open Scope nat_scope.

(** ** Reading *)
Lemma others_tail : forall k N, 3 <= k <= N -> others k N = [1; 2] ++ filter (fun a => negb (a =? k)) (seq 3 (N - 2)).
Proof.
  intros k N H. unfold others. replace N with (2 + (N - 2)) at 1 by lia. rewrite seq_app, filter_app. cbn [seq filter Nat.add].
  destruct (Nat.eqb_spec 1 k); [lia|]. destruct (Nat.eqb_spec 2 k); [lia|]. reflexivity.
Qed.

Lemma filter_none : forall {A} (g : A -> bool) l, (forall x, In x l -> g x = false) -> filter g l = [].
Proof. induction l as [|x l IH]; intros H; [reflexivity|]. cbn. rewrite (H x (or_introl eq_refl)). apply IH. intros; apply H; now right. Qed.

Lemma sky_read : forall f k, sky_cube f k ->
  exists cube, readFitsCube None f = POk cube /\ shape cube = [len (i_naxis f) k; len (i_naxis f) 2; len (i_naxis f) 1] /\ wf_nd cube /\
    forall j y x, j < len (i_naxis f) k -> y < len (i_naxis f) 2 -> x < len (i_naxis f) 1 -> at_nd None cube [j; y; x] = sample f k j y x.
Proof.
  intros f k (Wf & Hk & K3 & N1 & N2 & Nk & One). assert (KN : 3 <= k <= List.length (i_naxis f)) by (destruct Hk as ((? & ?) & _); destruct Wf as (_ & _ & <-); lia).
  set (N := List.length (i_naxis f)) in *. pose proof (read_cube (None : option R) f k Wf Hk) as [RC _]. fold N in RC. cbv zeta in RC.
  assert (EK : (if 4 <=? N then long_axes (i_naxis f) (k :: rev (others k N)) else k :: rev (others k N)) = [k; 2; 1]).
  { rewrite (others_tail k N KN), rev_app_distr. cbn [rev app]. destruct (Nat.leb_spec 4 N).
    - unfold long_axes. cbn [filter]. destruct (Nat.eqb_spec (len (i_naxis f) k) 1); [lia|]. cbn [negb]. rewrite filter_app.
      rewrite (filter_none _ (rev _)).
      + cbn [filter app]. destruct (Nat.eqb_spec (len (i_naxis f) 1) 1); [lia|]. destruct (Nat.eqb_spec (len (i_naxis f) 2) 1); [lia|]. reflexivity.
      + intros a Ia. apply in_rev in Ia. apply filter_In in Ia. destruct Ia as [Ia Na]. apply in_seq in Ia. destruct (Nat.eqb_spec a k); [discriminate|]. rewrite One by lia. reflexivity.
    - assert (N = 3) by lia. assert (k = 3) by lia. subst k. replace (N - 2) with 1 by lia. reflexivity. }
  rewrite EK in RC. destruct (RC ltac:(cbn; lia)) as (cube & Er & Wc & Sc & Vc). exists cube. split; [exact Er|]. split; [exact Sc|]. split; [exact Wc|].
  intros j y x Hj Hy Hx. set (p := fun a => if a =? 1 then x else if a =? 2 then y else if a =? k then j else 0).
  assert (Ep : map p [k; 2; 1] = [j; y; x]).
  { unfold p. cbn [map]. rewrite Nat.eqb_refl. destruct (Nat.eqb_spec k 1); [lia|]. destruct (Nat.eqb_spec k 2); [lia|]. reflexivity. }
  rewrite <- Ep. rewrite Vc; [reflexivity|]. intros a Ha. fold N in Ha. unfold p. destruct (Nat.eqb_spec a 1); [subst; auto|]. destruct (Nat.eqb_spec a 2); [subst; auto|].
  destruct (Nat.eqb_spec a k); [subst; auto|]. rewrite One by lia. lia.
Qed.

(** ** Noise *)
Lemma somes_cons : forall (x : option R) l, somes (x :: l) = (match x with Some v => [v] | None => [] end) ++ somes l.
Proof. intros [v|] l; reflexivity. Qed.

Lemma somes_below : forall p t, somes (filter (fun x => ltb_nan x (Some t)) p) = below t (somes p).
Proof.
  induction p as [|[v|] p IH]; intros t; [reflexivity| |cbn; apply IH]. cbn [filter ltb_nan]. rewrite !somes_cons. cbn [app]. unfold below. cbn [filter]. fold (below t (somes p)).
  unfold Rltb. destruct (Rlt_dec v t); [rewrite somes_cons; cbn [app]; now rewrite IH|apply IH].
Qed.

Lemma somes_nonzero : forall p, somes (filter nonzero p) = filter (fun v => if Req_EM_T v 0 then false else true) (somes p).
Proof.
  induction p as [|[v|] p IH]; [reflexivity| |cbn; apply IH]. cbn [filter nonzero]. rewrite !somes_cons. cbn [app filter].
  destruct (Req_EM_T v 0); [apply IH|rewrite somes_cons; cbn [app]; now rewrite IH].
Qed.

Lemma all_none_somes : forall p : list (option R), forallb is_none p = true <-> somes p = [].
Proof. induction p as [|[v|] p IH]; cbn; [tauto| |exact IH]. split; discriminate. Qed.

Lemma sky_values_nil : forall thr, sky_values thr [] = [].
Proof. intros. unfold sky_values. destruct (Rlt_dec 0 thr); reflexivity. Qed.

Lemma plane_noise_spec : forall thr p, plane_noise thr p = (median (sky_values thr (somes p)), MAD (map Some (sky_values thr (somes p)))).
Proof.
  intros thr p. unfold plane_noise. destruct (forallb is_none p) eqn:E.
  - apply all_none_somes in E. rewrite E, sky_values_nil. reflexivity.
  - cbv zeta. set (sky1 := filter (fun x => if Rlt_dec 0 thr then ltb_nan x (Some thr) else nonzero x) p).
    set (first := if Rlt_dec 0 thr then below thr (somes p) else filter (fun v => if Req_EM_T v 0 then false else true) (somes p)).
    assert (E1 : somes sky1 = first) by (unfold sky1, first; destruct (Rlt_dec 0 thr); [apply somes_below|apply somes_nonzero]).
    unfold sky_values. fold first. cbv zeta. assert (E2 : nanmedian sky1 = median first) by (unfold nanmedian; now rewrite E1). rewrite E2. rewrite (MAD_ignores_nan sky1), E1.
    destruct (median first) as [m|] eqn:Em; [destruct (MAD (map Some first)) as [sg|] eqn:Es|].
    + unfold oadd, omul, o2. replace (m + sg * 3)%R with (m + 3 * sg)%R by ring. unfold nanmedian.
      rewrite MAD_ignores_nan.
      rewrite somes_below. reflexivity.
    + unfold oadd, omul, o2. rewrite (filter_none _ p) by (intros [x|] _; reflexivity). reflexivity.
    + unfold oadd, omul, o2. rewrite (filter_none _ p) by (intros [x|] _; reflexivity). reflexivity.
Qed.

Section Tool.
  Variables (f : image (option R)) (k : nat).
  Hypothesis Hc : sky_cube f k.
  Notation n := (len (i_naxis f) k).
  Notation ny := (len (i_naxis f) 2).
  Notation nx := (len (i_naxis f) 1).
  Variable cube : nd (option R).
  Hypothesis Sc : shape cube = [n; ny; nx].
  Hypothesis Vc : forall j y x, j < n -> y < ny -> x < nx -> at_nd None cube [j; y; x] = sample f k j y x.

  Lemma somes_flat_map : forall {A} (g : A -> list (option R)) l, somes (flat_map g l) = flat_map (fun a => somes (g a)) l.
  Proof.
    intros A g. assert (SA : forall u v : list (option R), somes (u ++ v) = somes u ++ somes v) by (induction u as [|a u IH]; intros v; [reflexivity|]; cbn [app]; rewrite !somes_cons, IH, app_assoc; reflexivity).
    induction l as [|a l IH]; [reflexivity|]. cbn [flat_map]. now rewrite SA, IH.
  Qed.

  Lemma flat_map_ext_in : forall {A B} (g h : A -> list B) l, (forall a, In a l -> g a = h a) -> flat_map g l = flat_map h l.
  Proof. induction l as [|a l IH]; intros H; [reflexivity|]. cbn. rewrite (H a (or_introl eq_refl)), IH by (intros; apply H; now right). reflexivity. Qed.

  Lemma plane_values : forall j, j < n -> somes (chan_plane cube j) = channel_values f k j.
  Proof.
    intros j Hj. unfold chan_plane. rewrite Sc. cbn [indices]. unfold channel_values.
    rewrite flat_map_concat_map, concat_map, map_map, <- flat_map_concat_map, somes_flat_map. apply flat_map_ext_in. intros y Iy. apply in_seq in Iy.
    rewrite map_map. rewrite flat_map_concat_map, concat_map, map_map, <- flat_map_concat_map, somes_flat_map. apply flat_map_ext_in. intros x Ix. apply in_seq in Ix.
    cbn [map]. rewrite Vc by lia. destruct (sample f k j y x); reflexivity.
  Qed.

  Lemma rms_spec : forall thr, map (fun j => snd (plane_noise thr (chan_plane cube j))) (seq 0 n) = map (channel_noise f k thr) (seq 0 n).
  Proof.
    intros thr. apply map_ext_in. intros j Ij. apply in_seq in Ij. rewrite plane_noise_spec. cbn [snd]. rewrite plane_values by lia. reflexivity.
  Qed.

  Lemma plane_nth : forall j y x, j < n -> y < ny -> x < nx -> nth (ravel [ny; nx] [y; x]) (chan_plane cube j) None = sample f k j y x.
  Proof.
    intros j y x Hj Hy Hx. unfold chan_plane. rewrite Sc. assert (V : valid [ny; nx] [y; x]) by (repeat (constructor; auto)).
    rewrite (nth_map_in _ _ _ None []) by (rewrite length_indices; apply ravel_lt; exact V). rewrite nth_indices by exact V. apply Vc; auto.
  Qed.

  Lemma is_source_spec : forall thr j y x, j < n -> y < ny -> x < nx ->
    (is_source thr (chan_plane cube j) (sample f k j y x) = true <-> exists v c, sample f k j y x = Some v /\ detection_level f k thr j = Some c /\ (c < v)%R).
  Proof.
    intros thr j y x Hj Hy Hx. unfold is_source. destruct (forallb is_none (chan_plane cube j)) eqn:E.
    - split; [discriminate|]. intros (v & c & Ev & _). exfalso. rewrite forallb_forall in E. specialize (E (sample f k j y x)). rewrite Ev in E.
      cut (is_none (Some v) = true); [discriminate|]. apply E. rewrite <- Ev, <- (plane_nth j y x Hj Hy Hx). apply nth_In.
      unfold chan_plane. rewrite Sc, map_length, length_indices. apply ravel_lt. repeat (constructor; auto).
    - rewrite plane_noise_spec. rewrite plane_values by exact Hj. unfold detection_level, channel_noise.
      destruct (Rlt_dec 0 thr).
      + destruct (sample f k j y x) as [v|]; cbn [ltb_nan]; [|split; [discriminate|intros (v & c & ? & _); discriminate]].
        unfold Rltb. destruct (Rlt_dec thr v) as [L|L]; (split; [intros Q; try discriminate Q; eauto|intros (v' & c & [= <-] & [= <-] & Q); first [reflexivity|contradiction]]).
      + destruct (median _) as [m|]; [|cbn; split; [destruct (sample f k j y x); discriminate|intros (v & c & _ & ? & _); discriminate]].
        destruct (MAD _) as [sg|]; [|cbn; split; [destruct (sample f k j y x); discriminate|intros (v & c & _ & ? & _); discriminate]].
        unfold osub, omul, o2. destruct (sample f k j y x) as [v|]; cbn [ltb_nan]; [|split; [discriminate|intros (v & c & ? & _); discriminate]].
        unfold Rltb. replace (m - thr * sg)%R with (m - sg * thr)%R by ring.
        destruct (Rlt_dec (m - sg * thr) v) as [L|L]; (split; [intros Q; try discriminate Q; eauto|intros (v' & c & [= <-] & [= <-] & Q); first [reflexivity|contradiction]]).
  Qed.

  Lemma count_pos : forall {A} (g : A -> bool) l c, 0 < fold_left (fun c p => if g p then S c else c) l c <-> 0 < c \/ exists p, In p l /\ g p = true.
  Proof.
    induction l as [|a l IH]; intros c; cbn [fold_left]; [split; [auto|intros [H|(p & [] & _)]; exact H]|]. rewrite IH. destruct (g a) eqn:E.
    - split; [intros _; right; exists a; split; [now left|exact E]|left; lia].
    - split; [intros [H|(p & I & H)]; [auto|right; exists p; split; [now right|exact H]]|intros [H|(p & [<-|I] & H)]; [auto|congruence|right; eauto]].
  Qed.

  Lemma mask_spec : forall thr (am : bool) y x, y < ny -> x < nx ->
    (0 < (if am then fold_left (fun c p => if is_source thr p (nth (ravel [ny; nx] [y; x]) p None) then S c else c) (map (chan_plane cube) (seq 0 n)) 0 else 1) <->
     (am = true -> detected f k thr y x)).
  Proof.
    intros thr am y x Hy Hx. destruct am; [|split; [discriminate|lia]].
    rewrite (count_pos (fun p => is_source thr p (nth (ravel [ny; nx] [y; x]) p None))). split.
    - intros [H|(p & I & H)] _; [lia|]. apply in_map_iff in I. destruct I as (j & <- & Ij). apply in_seq in Ij. rewrite plane_nth in H by lia.
      apply is_source_spec in H; [|lia|auto|auto]. destruct H as (v & c & E1 & E2 & L). exists j, v, c. split; [lia|auto].
    - intros H. destruct (H eq_refl) as (j & v & c & Hj & E1 & E2 & L). right. exists (chan_plane cube j). split; [apply in_map; apply in_seq; lia|].
      rewrite plane_nth by auto. apply is_source_spec; auto. exists v, c. auto.
  Qed.

  Lemma spec_spec : forall y x, y < ny -> x < nx -> map (fun j => at_nd None cube (j :: [y; x])) (seq 0 n) = spectrum f k y x.
  Proof. intros y x Hy Hx. unfold spectrum. apply map_ext_in. intros j Ij. apply in_seq in Ij. apply Vc; auto; lia. Qed.
End Tool.

(** the tool is make_model_I on the voxels *)
Lemma fitIcube_make : forall mpfit f k bunit history freq ord thr name am, sky_cube f k ->
  exists cube, shape cube = [len (i_naxis f) k; len (i_naxis f) 2; len (i_naxis f) 1] /\ wf_nd cube /\
    (forall j y x, j < len (i_naxis f) k -> y < len (i_naxis f) 2 -> x < len (i_naxis f) 1 -> at_nd None cube [j; y; x] = sample f k j y x) /\
    fitIcube mpfit f bunit history freq ord thr name am = make_model_I mpfit cube (len (i_naxis f) 1) (len (i_naxis f) 2) bunit history (i_ctype f) freq ord thr name am.
Proof.
  intros mpfit f k bunit history freq ord thr name am Hc. destruct (sky_read f k Hc) as (cube & Er & Sc & Wc & Vc). exists cube. split; [exact Sc|]. split; [exact Wc|]. split; [exact Vc|].
  unfold fitIcube. rewrite Er. cbn [pybind]. rewrite Sc. reflexivity.
Qed.

Theorem fit_cube : forall mpfit f k bunit history freq ord thr name ff am w,
  sky_cube f k -> six mpfit -> known_name name ff -> fitIcube mpfit f bunit history freq ord thr name am = POk w ->
  let n := len (i_naxis f) k in let ny := len (i_naxis f) 2 in let nx := len (i_naxis f) 1 in
  let noise := map (channel_noise f k thr) (seq 0 n) in
  List.length freq = n /\ w_noise w = noise /\ List.length (w_coeff w) = S (Z.abs_nat ord) /\ maps_of_size w ny nx /\
  shape (w_mask w) = [ny; nx] /\ shape (i_data (w_model w)) = [n; ny; nx] /\
  forall y x, y < ny -> x < nx ->
    let chosen := am = true -> detected f k thr y x in
    (chosen -> at_nd None (w_mask w) [y; x] = Some 1%R) /\ (~ chosen -> at_nd None (w_mask w) [y; x] = None) /\
    (chosen -> fittable (spectrum f k y x) noise -> exists fr, fit_StokesI_model mpfit freq (spectrum f k y x) noise ord ff = POk fr /\ pixel_says w freq y x fr) /\
    (chosen -> ~ fittable (spectrum f k y x) noise -> pixel_unfitted w n y x) /\
    (~ chosen -> pixel_blank w n y x).
Proof.
  intros mpfit f k bunit history freq ord thr name ff am w Hc H6 Hf H n ny nx noise.
  destruct (fitIcube_make mpfit f k bunit history freq ord thr name am Hc) as (cube & Sc & Wc & Vc & E). rewrite E in H.
  assert (Hc' := Hc). destruct Hc' as (_ & _ & _ & N1 & N2 & Nk & _).
  assert (Lf : List.length freq = n).
  { unfold make_model_I, cube_noise in H. rewrite Sc in H. fold n in H. destruct (Nat.eqb_spec n (List.length freq)); [auto|discriminate H]. }
  fold n ny nx in Sc, Vc, H, N1, N2, Nk.
  destruct (make_pixels mpfit cube n ny nx bunit history (i_ctype f) freq ord thr name am Sc Wc ltac:(lia) ltac:(lia) ltac:(lia) ltac:(lia) Lf ff Hf H6 w H)
    as (_ & Ho & Hn & Lw & _ & _ & _ & Sm & _ & Mw & Sk & _ & PX).
  pose proof (rms_spec f k cube Sc Vc thr) as ER. fold n noise in ER.
  split; [exact Lf|]. split; [now rewrite Hn, ER|]. split; [rewrite Lw, Zabs2Nat.abs_nat_spec; lia|]. split; [exact Mw|]. split; [exact Sk|]. split; [exact Sm|].
  intros y x Hy Hx chosen. destruct (PX y x Hy Hx) as (P1 & P2 & P3 & P4). unfold in_mask in *.
  pose proof (mask_spec f k cube Sc Vc thr am y x Hy Hx) as MS. fold n ny nx chosen in MS.
  pose proof (spec_spec f k cube Vc y x Hy Hx) as SS. fold n in SS. rewrite SS, ER in P2, P3.
  set (m := if am then _ else 1) in *.
  split; [|split; [|split; [|split]]].
  - intros C. rewrite P1. apply MS in C. apply Nat.ltb_lt in C. now rewrite C.
  - intros C. rewrite P1. destruct (Nat.ltb_spec 0 m) as [L|L]; [exfalso; apply C, MS, L|reflexivity].
  - intros C F. apply P2; [apply MS, C|exact F].
  - intros C F. apply P3; [apply MS, C|exact F].
  - intros C. apply P4. intros L. apply C, MS, L.
Qed.

(** When the tool runs *)
Theorem fit_cube_runs : forall mpfit f k bunit history freq ord thr name ff am,
  sky_cube f k -> six mpfit -> known_name name ff -> (forall q, exists r, mpfit q = POk r) ->
  let n := len (i_naxis f) k in let noise := map (channel_noise f k thr) (seq 0 n) in
  ((exists w, fitIcube mpfit f bunit history freq ord thr name am = POk w) <->
   bunit = true /\ (Z.abs ord <= 5)%Z /\ List.length freq = n /\
   (Z.of_nat n = (Z.max ord 0 + 1)%Z -> forall y x, y < len (i_naxis f) 2 -> x < len (i_naxis f) 1 -> (am = true -> detected f k thr y x) ->
      exists j v e, nth j (spectrum f k y x) None = Some v /\ nth j noise None = Some e)).
Proof.
  intros mpfit f k bunit history freq ord thr name ff am Hc H6 Hf T n noise.
  destruct (fitIcube_make mpfit f k bunit history freq ord thr name am Hc) as (cube & Sc & Wc & Vc & E).
  assert (Hc' := Hc). destruct Hc' as (_ & _ & _ & N1 & N2 & Nk & _). fold n in Sc, Vc, Nk.
  pose proof (rms_spec f k cube Sc Vc thr) as ER. fold n noise in ER. split.
  - intros (w & H). assert (Hw := H). rewrite E in H.
    assert (Lf : List.length freq = n) by (exact (proj1 (fit_cube _ _ _ _ _ _ _ _ _ _ _ _ Hc H6 Hf Hw))).
    destruct (make_pixels mpfit cube n _ _ bunit history (i_ctype f) freq ord thr name am Sc Wc ltac:(lia) ltac:(lia) ltac:(lia) ltac:(lia) Lf ff Hf H6 w H)
      as (Hb & Ho & _ & _ & _ & _ & _ & _ & _ & _ & _ & _ & PX). split; [exact Hb|]. split; [exact Ho|]. split; [exact Lf|].
    intros Eo y x Hy Hx C. destruct (PX y x Hy Hx) as (_ & _ & P3 & _). pose proof (spec_spec f k cube Vc y x Hy Hx) as SS. fold n in SS. rewrite SS, ER in P3. unfold in_mask in P3.
    specialize (P3 (proj2 (mask_spec f k cube Sc Vc thr am y x Hy Hx) C)).
    destruct (good_chans freq (spectrum f k y x) noise) as [|g0 gt] eqn:G.
    + exfalso. destruct P3 as (_ & P3); [|contradiction]. intros (j & v & e & E1 & E2).
      assert (LS : List.length (spectrum f k y x) = List.length freq) by (unfold spectrum; rewrite map_length, seq_length, Lf; reflexivity).
      apply (good_chans_none freq) with (j := j) in G; [destruct G; congruence|exact LS|unfold noise; rewrite map_length, seq_length; auto|].
      rewrite <- LS. destruct (Nat.lt_ge_cases j (List.length (spectrum f k y x))) as [|O]; [auto|]. rewrite nth_overflow in E1 by exact O. discriminate.
    + assert (I : In g0 (good_chans freq (spectrum f k y x) noise)) by (rewrite G; now left). rewrite good_chans_spec in I.
      2:{ unfold spectrum; rewrite map_length, seq_length; auto. } 2:{ unfold noise; rewrite map_length, seq_length; auto. }
      apply in_flat_map in I. destruct I as (j & _ & I). destruct (nth j (spectrum f k y x) None) as [v|] eqn:E1; [|destruct I]. destruct (nth j noise None) as [e|] eqn:E2; [|destruct I]. exists j, v, e. auto.
  - intros (Hb & Ho & Lf & HF). rewrite E.
    apply (make_total mpfit cube n _ _ bunit history (i_ctype f) freq ord thr name am Sc Wc ltac:(lia) ltac:(lia) ltac:(lia) ltac:(lia) Lf ff Hf H6 Hb Ho T).
    destruct (Z.eq_dec (Z.of_nat n) (Z.max ord 0 + 1)) as [Eo|Eo]; [right|left; exact Eo]. intros y x Hy Hx M. unfold in_mask in M.
    pose proof (spec_spec f k cube Vc y x Hy Hx) as SS. fold n in SS. rewrite SS, ER. apply (HF Eo y x Hy Hx). apply (mask_spec f k cube Sc Vc thr am y x Hy Hx). exact M.
Qed.

(** One pixel whose fit raises stops the run, whatever the others are. *)
Theorem fit_cube_one_raises : forall mpfit f k bunit history freq ord thr name ff am y x,
  sky_cube f k -> six mpfit -> known_name name ff -> y < len (i_naxis f) 2 -> x < len (i_naxis f) 1 -> (am = true -> detected f k thr y x) ->
  let noise := map (channel_noise f k thr) (seq 0 (len (i_naxis f) k)) in
  fittable (spectrum f k y x) noise -> fit_StokesI_model mpfit freq (spectrum f k y x) noise ord ff = PErr ->
  fitIcube mpfit f bunit history freq ord thr name am = PErr.
Proof.
  intros mpfit f k bunit history freq ord thr name ff am y x Hc H6 Hf Hy Hx C noise F EF.
  destruct (fitIcube mpfit f bunit history freq ord thr name am) as [w|] eqn:E; [|reflexivity]. exfalso.
  destruct (fit_cube _ _ _ _ _ _ _ _ _ _ _ _ Hc H6 Hf E) as (_ & _ & _ & _ & _ & _ & PX).
  destruct (PX y x Hy Hx) as (_ & _ & P & _). destruct (P C F) as (fr & EF' & _). unfold noise in EF. congruence.
Qed.

(** The lines added to HISTORY *)
Theorem fit_cube_history : forall mpfit f k bunit history freq ord thr name ff am w,
  sky_cube f k -> six mpfit -> known_name name ff -> fitIcube mpfit f bunit history freq ord thr name am = POk w ->
  exists line, w_history w = history ++ [s "Stokes I model fitted by RM-Tools"; line] /\
    ((0 <= ord)%Z -> line = s "Fit model is " ++ str_of_nat (Z.to_nat ord) ++ s "-order " ++ name ++ s "-polynomial") /\
    ((ord < 0)%Z -> line = s "Fit model is dynamic order " ++ name ++ s "-polynomial, max order " ++ str_of_nat (Z.to_nat (- ord))).
Proof.
  intros mpfit f k bunit history freq ord thr name ff am w Hc H6 Hf H. assert (Lf := proj1 (fit_cube _ _ _ _ _ _ _ _ _ _ _ _ Hc H6 Hf H)).
  destruct (fitIcube_make mpfit f k bunit history freq ord thr name am Hc) as (cube & Sc & Wc & Vc & E). rewrite E in H.
  destruct Hc as (_ & _ & _ & N1 & N2 & Nk & _).
  destruct (make_pixels mpfit cube _ _ _ bunit history (i_ctype f) freq ord thr name am Sc Wc ltac:(lia) ltac:(lia) ltac:(lia) ltac:(lia) Lf ff Hf H6 w H) as (_ & _ & _ & _ & -> & _).
  eexists. split; [reflexivity|]. split; intros Ho; destruct (Z.ltb_spec ord 0); try lia; reflexivity.
Qed.

(** The model cube is read back voxel by voxel: three axes, channels on the third. *)
Theorem fit_cube_read_back : forall mpfit f k bunit history freq ord thr name ff am w,
  sky_cube f k -> six mpfit -> known_name name ff -> fitIcube mpfit f bunit history freq ord thr name am = POk w ->
  (k = 3 \/ forall a, 1 <= a <= 3 -> ~ mentions (s "FREQ") (nth (a - 1) (i_ctype f) None)) ->
  sky_cube (w_model w) 3 /\ i_naxis (w_model w) = [len (i_naxis f) 1; len (i_naxis f) 2; len (i_naxis f) k] /\
  (forall j y x, sample (w_model w) 3 j y x = model_sample w j y x) /\
  exists cube, readFitsCube None (w_model w) = POk cube /\ shape cube = [len (i_naxis f) k; len (i_naxis f) 2; len (i_naxis f) 1] /\
    forall j y x, j < len (i_naxis f) k -> y < len (i_naxis f) 2 -> x < len (i_naxis f) 1 -> at_nd None cube [j; y; x] = model_sample w j y x.
Proof.
  intros mpfit f k bunit history freq ord thr name ff am w Hc H6 Hf H HK. assert (Lf := proj1 (fit_cube _ _ _ _ _ _ _ _ _ _ _ _ Hc H6 Hf H)).
  destruct (fitIcube_make mpfit f k bunit history freq ord thr name am Hc) as (cube & Sc & Wc & Vc & E). rewrite E in H.
  destruct Hc as (Wf & Hk & K3 & N1 & N2 & Nk & _).
  destruct (make_pixels mpfit cube _ _ _ bunit history (i_ctype f) freq ord thr name am Sc Wc ltac:(lia) ltac:(lia) ltac:(lia) ltac:(lia) Lf ff Hf H6 w H) as (_ & _ & _ & _ & _ & En & Ec & Sm & Wm & _).
  assert (L3 : List.length (firstn 3 (i_ctype f)) = 3) by (destruct Hk as ((? & ?) & _); rewrite firstn_length; lia).
  assert (NF : forall a, 1 <= a <= 3 -> nth (a - 1) (firstn 3 (i_ctype f)) None = nth (a - 1) (i_ctype f) None).
  { intros a Ha. generalize (i_ctype f). intros l. assert (Ha' : a - 1 < 3) by lia. revert Ha'. generalize (a - 1). clear. intros b Hb.
    rewrite <- (firstn_skipn 3 l) at 2. destruct (Nat.lt_ge_cases b (List.length (firstn 3 l))) as [L|L]; [now rewrite app_nth1|].
    rewrite (nth_overflow (firstn 3 l)) by exact L. rewrite nth_overflow; [reflexivity|]. rewrite firstn_length in L. rewrite firstn_skipn. lia. }
  assert (SKY : sky_cube (w_model w) 3).
  { unfold sky_cube, wf_image. rewrite En, Ec, Sm. split; [split; [reflexivity|split; [exact Wm|rewrite L3; reflexivity]]|]. split.
    - split; [lia|]. rewrite L3. split; [intros j Hj; lia|]. destruct HK as [->|HK].
      + destruct Hk as (Hl & Ha & [Hm|[Hm Hn]]); [left; rewrite NF by lia; exact Hm|right; split; [reflexivity|]]. intros j Hj. rewrite NF by lia. apply Hn. lia.
      + right. split; [reflexivity|]. intros j Hj. rewrite NF by lia. apply HK. lia.
    - split; [lia|]. cbn [len nth Nat.sub List.length]. change (len [len (i_naxis f) 1; len (i_naxis f) 2; len (i_naxis f) k] 1) with (len (i_naxis f) 1).
      change (len [len (i_naxis f) 1; len (i_naxis f) 2; len (i_naxis f) k] 2) with (len (i_naxis f) 2). change (len [len (i_naxis f) 1; len (i_naxis f) 2; len (i_naxis f) k] 3) with (len (i_naxis f) k).
      split; [exact N1|]. split; [exact N2|]. split; [exact Nk|]. intros a Ha Na. cbn in Ha. lia. }
  assert (SM : forall j y x, sample (w_model w) 3 j y x = model_sample w j y x) by (intros; unfold sample, vox, model_sample; rewrite En; reflexivity).
  split; [exact SKY|]. split; [exact En|]. split; [exact SM|]. destruct (sky_read _ _ SKY) as (c & Er & Sc' & _ & Vc'). exists c. rewrite En in Sc', Vc'.
  split; [exact Er|]. split; [exact Sc'|]. intros j y x Hj Hy Hx. rewrite <- SM. apply Vc'; auto.
Qed.

(** The axes of the model cube keep the names of the first three axes of the
    input, whichever of its axes is the spectral one. *)
Theorem fit_cube_labels : forall mpfit f k bunit history freq ord thr name ff am w,
  sky_cube f k -> six mpfit -> known_name name ff -> fitIcube mpfit f bunit history freq ord thr name am = POk w ->
  i_ctype (w_model w) = firstn 3 (i_ctype f) /\ i_naxis (w_model w) = [len (i_naxis f) 1; len (i_naxis f) 2; len (i_naxis f) k].
Proof.
  intros mpfit f k bunit history freq ord thr name ff am w Hc H6 Hf H. assert (Lf := proj1 (fit_cube _ _ _ _ _ _ _ _ _ _ _ _ Hc H6 Hf H)).
  destruct (fitIcube_make mpfit f k bunit history freq ord thr name am Hc) as (cube & Sc & Wc & Vc & E). rewrite E in H.
  destruct Hc as (_ & _ & _ & N1 & N2 & Nk & _).
  destruct (make_pixels mpfit cube _ _ _ bunit history (i_ctype f) freq ord thr name am Sc Wc ltac:(lia) ltac:(lia) ltac:(lia) ltac:(lia) Lf ff Hf H6 w H) as (_ & _ & _ & _ & _ & En & Ec & _).
  split; [exact Ec|exact En].
Qed.
