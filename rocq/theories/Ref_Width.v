(** Shapes, widths and fit states of the deprecated routines and the prototypes. *)
From Coq Require Import Reals List Arith ZArith Lia Lra Bool Permutation.
Set Warnings "-ambiguous-paths".
From Coquelicot Require Import Coquelicot.
From Verif Require Import CBase NdArray PyRes PyList Interp_Model Synth_Model Synth_Spec Synth_Proofs Rmsf_Proofs Setup_Model Setup_Proofs Clean_Grid
  Clean_Model Clean_Spec Ref_Model Ref_Spec Ref_Proofs Ref_Dep Ref_Noise.
Import ListNotations.
Local Open Scope R_scope.

Lemma range_width_of : forall c l2, l2 <> [] ->
  range_width c l2 (match rmax_list l2, rmin_list l2 with
                    | Some a, Some b => if Req_EM_T (a - b) 0 then None else Some (c / (a - b))
                    | _, _ => None end).
Proof.
  intros c l2 H. destruct (rmax_list l2) as [a|] eqn:Ea; [|destruct l2; [congruence|discriminate]].
  destruct (rmin_list l2) as [b|] eqn:Eb; [|destruct l2; [congruence|discriminate]].
  apply rmax_list_spec in Ea. apply rmin_list_spec in Eb. destruct Ea as [A1 A2], Eb as [B1 B2].
  exists a, b. split; [exact A1|]. split; [exact B1|]. split; [intros l Hl; split; auto|].
  destruct (Req_EM_T (a - b) 0), (Req_EM_T a b); try reflexivity; exfalso; lra.
Qed.

Lemma analytic_range : forall l2, l2 <> [] -> range_width (38 / 10) l2 (fwhm_analytic l2).
Proof.
  intros l2 H. pose proof (range_width_of (38 / 10) l2 H) as P. unfold fwhm_analytic.
  destruct (rmax_list l2), (rmin_list l2); exact P.
Qed.

Lemma ltb_leb : forall st A (a b : A), (if Z.ltb st 1 then a else b) = if (1 <=? st)%Z then b else a.
Proof. intros. destruct (Z.ltb_spec st 1), (Z.leb_spec 1 st); try reflexivity; lia. Qed.

(** The spectra of the deprecated routine stay in spectral order. *)
Theorem dep_shape : forall fit dQ dU l2 phi wA r, do_rmsynth fit dQ dU l2 phi wA = DOk r ->
  shape (d_FDF r) = removelast (shape dQ) ++ [length phi] /\
  length (flat (d_FDF r)) = (spix dQ * length phi)%nat /\
  phi2_grid true phi = Some (d_phi2 r) /\
  exists fw0, range_width (38 / 10) l2 fw0 /\ d_fwhm r = snd (fit_or (fit (d_phi2 r) (d_RMSF r)) fw0).
Proof.
  intros fit dQ dU l2 phi wA r H. unfold do_rmsynth in H.
  destruct (negb _); [discriminate|]. destruct (negb _); [discriminate|]. destruct (negb _); [discriminate|]. destruct (negb _); [discriminate|].
  cbv zeta in H. unfold get_RMSF in H. destruct (negb _); [discriminate|].
  destruct (phi2_grid true phi) as [phi2|]; [|discriminate]. destruct l2 as [|h t]; [discriminate|]. set (l2 := h :: t) in *.
  assert (N : l2 <> []) by discriminate. clearbody l2. clear h t. cbv zeta in H. injection H as <-. cbn [d_FDF d_phi2 d_fwhm d_RMSF shape flat].
  split; [reflexivity|]. split; [apply length_tab2|]. split; [reflexivity|].
  exists (fwhm_analytic l2). split; [now apply analytic_range|]. unfold fit_or.
  destruct (fit phi2 _) as [[st x]|]; [|reflexivity]. rewrite ltb_leb. now destruct (1 <=? st)%Z.
Qed.

(** The spread function alone. Without weights its width is never fitted. *)
Theorem dep_rmsf : forall fit l2 phi wA lam0in rm phi2 fw,
  get_RMSF fit l2 phi wA lam0in = POk (rm, phi2, fw) ->
  phi2_grid true phi = Some phi2 /\ length rm = length phi2 /\
  (let chs := given_chans (length l2) l2 (given_weights (length l2) wA) in
   forall i l0, (i < length phi2)%nat -> wsum chs <> 0 ->
     l0 = match lam0in with None => Some (mean_l2 chs) | Some l => l end ->
     nth i rm None = option_map (fun l => RMSF_spec chs l (nth i phi2 0)) l0) /\
  exists fw0, range_width (38 / 10) l2 fw0 /\
    fw = snd (fit_or (match wA with None => None | Some _ => fit phi2 rm end) fw0).
Proof.
  intros fit l2 phi wA lam0in rm phi2 fw H. unfold get_RMSF in H. destruct (negb _) eqn:EL; [discriminate|].
  apply negb_false_iff, Nat.eqb_eq in EL.
  destruct (phi2_grid true phi) as [p2|]; [|discriminate]. destruct l2 as [|h t]; [discriminate|]. cbv iota in H. set (l2 := h :: t) in *.
  assert (N : l2 <> []) by discriminate. clearbody l2. clear h t. cbv zeta in H. injection H as <- <- <-.
  split; [reflexivity|]. split; [now rewrite map_length|]. split.
  - intros chs i l0 Hi HC ->. rewrite (Clean_Grid.nth_map_lt _ p2 i None 0) by exact Hi.
    set (w := dep_weights (length l2) wA) in *.
    assert (EW : given_weights (length l2) wA = w) by (unfold w; destruct wA; reflexivity).
    assert (WE : w = d_weff (length l2) 1 (map Some l2) (map Some l2) w).
    { unfold d_weff. etransitivity; [apply (list_as_seq w None)|]. rewrite EL. apply map_ext_in. intros j Hj. apply in_seq in Hj.
      cbn [seq forallb]. unfold d_bad, at2. rewrite Nat.mul_0_l, Nat.add_0_l.
      rewrite (Clean_Grid.nth_map_lt Some l2 j None 0) by lia. reflexivity. }
    assert (GC : chs = spec_live (length l2) 1 (map Some l2) (map Some l2) l2 w).
    { unfold chs, given_chans, spec_live. rewrite EW, !flat_map_concat_map. f_equal. apply map_ext_in. intros j Hj. apply in_seq in Hj.
      cbn [seq existsb]. unfold good_at. rewrite Nat.mul_0_l, Nat.add_0_l, (Clean_Grid.nth_map_lt Some l2 j None 0) by lia. reflexivity. }
    rewrite GC in *. clear GC.
    pose proof (RMSF_weff (length l2) 1 (map Some l2) (map Some l2) l2 w eq_refl) as RW. rewrite <- WE in RW.
    pose proof (dep_lam0_eq (length l2) 1 (map Some l2) (map Some l2) l2 w eq_refl) as DL. rewrite <- WE in DL.
    destruct (Req_EM_T _ 0) as [Q|_] in DL; [contradiction|].
    destruct lam0in as [[l|]|]; cbn [option_map]; [now apply RW|reflexivity|]. rewrite DL. now apply RW.
  - exists (fwhm_analytic l2). split; [now apply analytic_range|]. destruct wA; [|reflexivity]. unfold fit_or.
    destruct (fit p2 _) as [[st x]|]; [|reflexivity]. rewrite ltb_leb. now destruct (1 <=? st)%Z.
Qed.

(** The shapes of the prototype's results. *)
Theorem noise_shapes : forall dQ dU l2 phi wA l0in r, valid_noise dQ dU l2 wA ->
  threeDnoise_do_rmsynth_planes dQ dU l2 phi wA l0in = NOk r ->
  shape (ns_FDF r) = without_ones (length phi :: tl (shape dQ)) /\ length (flat (ns_FDF r)) = (length phi * npix dQ)%nat /\
  shape (ns_lam0 r) = without_ones (tl (shape dQ)) /\ length (flat (ns_lam0 r)) = npix dQ.
Proof.
  intros dQ dU l2 phi wA l0in r V H. rewrite noise_eq in H by exact V. cbv zeta in H.
  destruct (match l0in with LamNone => _ | LamNum _ => _ | LamMap _ => _ end) as [l0|]; [|discriminate]. injection H as <-.
  cbn [ns_FDF ns_lam0 squeeze shape flat]. rewrite length_tab2, map_length, seq_length. auto.
Qed.

(** Widths, fit states and shapes of the prototype's spread functions. *)
Theorem noise_rmsf_widths : forall fit l2 phi wA lam0in double fitRMSF fitReal r,
  match wA with None => True | Some w => (1 <= length (shape w) <= 3)%nat /\ nth 0 (shape w) 0%nat = length l2 end ->
  threeDnoise_get_rmsf_planes fit l2 phi wA lam0in double fitRMSF fitReal = OROk r ->
  let sh := tl (match wA with None => [length l2] | Some w => shape w end) in
  let m := prodn sh in
  let w := voxel_weights (length l2) wA in
  shape (or_cube r) = without_ones (length (or_phi2 r) :: sh) /\ shape (or_fwhm r) = without_ones sh /\ shape (or_stat r) = without_ones sh /\
  exists fw0, range_width (2 * sqrt 3) l2 fw0 /\
  forall p, (p < m)%nat ->
    let curve := map (fun i => nth (i * m + p) (flat (or_cube r)) None) (seq 0 (length (or_phi2 r))) in
    let out := (nth p (flat (or_stat r)) 0%Z, nth p (flat (or_fwhm r)) None) in
    (fitRMSF = false -> out = fit_or None fw0) /\
    (fitRMSF = true -> fitReal = false \/ ~ same_everywhere (length l2) m w -> out = fit_or (fit fitReal (or_phi2 r) (Some curve)) fw0) /\
    (fitRMSF = true -> fitReal = true -> same_everywhere (length l2) m w -> out = fit_or (fit true (or_phi2 r) None) fw0).
Proof.
  intros fit l2 phi wA lam0in double fitRMSF fitReal r HW H. unfold threeDnoise_get_rmsf_planes in H.
  destruct (phi2_grid double phi) as [phi2|]; [|discriminate]. cbv zeta in H. cbv zeta.
  set (W := match wA with None => mk_nd [length l2] _ | Some _ => _ end) in H.
  assert (SW : shape W = match wA with None => [length l2] | Some w => shape w end) by (unfold W; destruct wA; reflexivity).
  assert (FW : flat W = voxel_weights (length l2) wA) by (unfold W; destruct wA; reflexivity).
  assert (DW : (1 <= length (shape W) <= 3)%nat /\ nth 0 (shape W) 0%nat = length l2) by (rewrite SW; destruct wA; [exact HW|cbn; split; [lia|reflexivity]]).
  clearbody W. rewrite <- SW, <- FW. clear SW FW HW. destruct DW as [D1 D2].
  destruct (Nat.leb_spec (length (shape W)) 3); [|lia]. cbn [negb] in H. rewrite D2, Nat.eqb_refl in H. cbn [negb] in H.
  destruct l2 as [|h t]; [discriminate|]. cbv iota in H. set (l2 := h :: t) in *.
  assert (NE : l2 <> []) by discriminate. clearbody l2. clear h t.
  rewrite (image_axes_npix (shape W)) in H by lia.
  set (m := prodn (tl (shape W))) in *. injection H as <-. cbn [or_cube or_phi2 or_fwhm or_stat squeeze shape flat].
  assert (SH : forall x, without_ones (x :: tl (shape W)) = filter (fun d => negb (Nat.eqb d 1)) [x; fst (image_axes (shape W)); snd (image_axes (shape W))]).
  { intros x. unfold without_ones. destruct (shape W) as [|a [|b [|c [|? ?]]]]; cbn in D1; try lia; cbn [tl image_axes fst snd filter]; reflexivity. }
  assert (SH' : without_ones (tl (shape W)) = filter (fun d => negb (Nat.eqb d 1)) [fst (image_axes (shape W)); snd (image_axes (shape W))]).
  { pose proof (SH 2%nat) as S2. unfold without_ones in *. cbn [filter Nat.eqb negb] in S2 |- *. now injection S2. }
  split; [symmetry; apply SH|]. split; [symmetry; apply SH'|]. split; [symmetry; apply SH'|].
  exists (fwhm_sqrt3 l2). split; [exact (range_width_of (2 * sqrt 3) l2 NE)|].
  intros p Hp. rewrite !nth_map_seq by exact Hp. rewrite Nat.add_0_l.
  assert (EC : forall (f : nat -> nat -> option C), map (fun i => nth (i * m + p) (tab2 (length phi2) m f) None) (seq 0 (length phi2)) = map (fun i => f i p) (seq 0 (length phi2))).
  { intros f. apply map_ext_in. intros i Hi. apply in_seq in Hi. pose proof (at2_tab2 (length phi2) m f None i p ltac:(lia) Hp) as T. exact T. }
  rewrite EC. clear EC.
  assert (EU : tr_uniform (length l2) m (flat W) = true <-> same_everywhere (length l2) m (flat W)).
  { unfold tr_uniform, same_everywhere. rewrite forallb_forall. split.
    - intros F j q Hj Hq. specialize (F j ltac:(apply in_seq; lia)). rewrite forallb_forall in F. specialize (F q ltac:(apply in_seq; lia)).
      unfold at2 in F. rewrite Nat.add_0_r in F. destruct (Req_EM_T _ _); [assumption|discriminate].
    - intros F j Hj. apply in_seq in Hj. apply forallb_forall. intros q Hq. apply in_seq in Hq. unfold at2. rewrite Nat.add_0_r.
      rewrite (F j q) by lia. destruct (Req_EM_T _ _); [reflexivity|contradiction]. }
  set (u := tr_uniform (length l2) m (flat W)) in *.
  assert (FO : forall x : option (Z * R), (fst (match x with Some (st, fw) => if Z.ltb st 1 then ((-1)%Z, fwhm_sqrt3 l2) else (st, Some fw) | None => ((-1)%Z, fwhm_sqrt3 l2) end),
     snd (match x with Some (st, fw) => if Z.ltb st 1 then ((-1)%Z, fwhm_sqrt3 l2) else (st, Some fw) | None => ((-1)%Z, fwhm_sqrt3 l2) end)) = fit_or x (fwhm_sqrt3 l2)).
  { intros [[st x]|]; cbn [fit_or]; [|reflexivity]. rewrite ltb_leb. destruct (1 <=? st)%Z; reflexivity. }
  split; [intros ->; reflexivity|]. split.
  - intros -> HU. rewrite FO. do 2 f_equal. destruct u; cbn [andb]; [|reflexivity].
    destruct fitReal; [|reflexivity]. destruct HU as [?|HU]; [discriminate|]. exfalso. apply HU, EU. reflexivity.
  - intros -> -> HU. rewrite FO. apply EU in HU. rewrite HU. reflexivity.
Qed.
