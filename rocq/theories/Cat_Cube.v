(** Proofs: the cubes made from a catalogue. *)
From Coq Require Import Reals List Arith ZArith Bool Ascii String Lia Lra.
Set Warnings "-ambiguous-paths".
From Coquelicot Require Import Coquelicot.
From Verif Require Import CBase PyRes PyStr PyList NdArray NdIndex Measure_Model Synth_Spec QU_Model QU_Spec Sim_Proofs Cube_Model Cube_Spec Cube_Proofs Cat_Model Cat_Spec Cat_Text Cat_Rows.
Import ListNotations.
Local Open Scope R_scope.

Lemma quadratic : forall cs sn X Y dx dy, X <> 0 -> Y <> 0 ->
  -1 * ((cs ^ 2 / X ^ 2 + sn ^ 2 / Y ^ 2) / 2 * dx ^ 2 + 2 * (2 * sn * cs / 4 * (1 / Y ^ 2 - 1 / X ^ 2)) * dx * dy + (sn ^ 2 / X ^ 2 + cs ^ 2 / Y ^ 2) / 2 * dy ^ 2) =
  - ((dx * cs - dy * sn) ^ 2 / (2 * X ^ 2) + (dx * sn + dy * cs) ^ 2 / (2 * Y ^ 2)).
Proof. intros. field. auto. Qed.

(** C67: the Gaussian drawn is the beam *)
Lemma gaussian_is_beam : forall k v xo yo y x, 0 < k_pix k -> 0 < k_bmin k -> 0 < k_bmaj k ->
  let g := 2 * sqrt (2 * ln 2) in
  twodgaussian (Some v) xo yo (k_bmin k / g / k_pix k) (k_bmaj k / g / k_pix k) (k_bpa k * (PI / 180)) y x = Some (v * beam k (INR x - xo) (INR y - yo)).
Proof.
  intros k v xo yo y x P1 P2 P3 g. unfold twodgaussian, beam. cbn [option_map]. f_equal. f_equal. f_equal.
  replace (k_bpa k * (PI / 180)) with (rad (k_bpa k)) by (unfold rad; field). set (pa := rad (k_bpa k)). rewrite sin_2a.
  assert (L : 0 < ln 2) by (rewrite <- ln_1; apply ln_increasing; lra).
  assert (G : g <> 0) by (unfold g; assert (0 < sqrt (2 * ln 2)) by (apply sqrt_lt_R0; lra); lra).
  assert (G2 : g ^ 2 = 8 * ln 2) by (unfold g; replace ((2 * sqrt (2 * ln 2)) ^ 2) with (4 * (sqrt (2 * ln 2)) ^ 2) by ring; rewrite pow2_sqrt by lra; ring).
  assert (N : forall b, 0 < b -> b / g / k_pix k <> 0).
  { intros b B. unfold Rdiv. repeat apply Rmult_integral_contrapositive_currified; try apply Rinv_neq_0_compat; lra. }
  rewrite quadratic by (apply N; assumption). f_equal.
  assert (E : forall u b, 0 < b -> u ^ 2 / (2 * (b / g / k_pix k) ^ 2) = 4 * ln 2 * (u * k_pix k / b) ^ 2).
  { intros u b B. replace (4 * ln 2) with (g ^ 2 / 2) by (rewrite G2; field). field. repeat split; lra. }
  rewrite !E by assumption. ring.
Qed.

Lemma beam_pos : forall k dx dy, 0 < beam k dx dy.
Proof. intros. apply exp_pos. Qed.

Lemma gaussian_none : forall xo yo cx cy pa y x, twodgaussian None xo yo cx cy pa y x = None.
Proof. reflexivity. Qed.

Section Cube.
  Variables (gauss : nat -> nat -> nat -> nat -> R) (pos : R -> R -> R * R) (start stop : R) (n : nat) (rms : R) (k : sky) (noise : list (option R)) (flags : list (R * R)) (f0 : R) (w : nat -> R).
  Hypothesis N2 : (2 <= n)%nat.
  Hypothesis Ps : 0 < start.
  Hypothesis Pe : 0 < stop.
  Hypothesis Pr : 0 <= rms.
  Hypothesis P0 : 0 < f0.
  Hypothesis Pp : 0 < k_pix k.
  Hypothesis Pa : 0 < k_bmin k.
  Hypothesis Pb : 0 < k_bmaj k.
  Hypothesis Hw : forall c, (c < n)%nat -> ~ flagged flags (channel start stop n c) -> nth c noise None = Some (w c).
  Let freq := flag_freqs flags (linspace start stop n).

  Definition pick (t : list (option R) * list (option R) * list (option R)) (p : nat) : list (option R) := nth p [fst (fst t); snd (fst t); snd t] [].

  (** what is kept of a row *)
  Definition kept (zs : entry -> R -> C) (e : entry) (o : option ((R * R) * (list (option R) * list (option R) * list (option R)))) : Prop :=
    match head_of e with
    | None => o = None
    | Some h => exists si sq su, o = Some (pos (h_x h) (h_y h), (si, sq, su)) /\ spectra_say freq h f0 (zs e) si sq su
    end.

  Lemma rows_kept : forall zs rows es, Forall2 row_says rows es -> (forall e, In e es -> head_of e <> None -> polarised e (zs e)) ->
    exists l, pyall (map (fun e => pybind (row_source freq f0 e) (fun x =>
      match x with Other => POk None | NotFinite => PErr | Source pre si sq su => POk (Some (pos (nth 0 pre 0) (nth 1 pre 0), (si, sq, su))) end)) (map (map Some) rows)) = POk l /\
    Forall2 (kept zs) es l.
  Proof.
    intros zs rows es F. induction F as [|row e rows es Sr F IH]; intros Z.
    - exists []. split; [reflexivity|constructor].
    - destruct IH as (l & E & G); [intros e' I N; apply Z; [now right|exact N]|]. cbn [map pyall]. rewrite E. destruct (head_of e) as [h|] eqn:He.
      + destruct (row_spectra freq f0 row e h Sr He P0) as (z & si & sq & su & Zp & Er & Sy). rewrite Er. cbn [pybind].
        eexists (_ :: l). split; [reflexivity|]. constructor; [|exact G]. unfold kept. rewrite He. exists si, sq, su. split; [reflexivity|].
        apply (says_ext _ _ _ z); [|exact Sy]. apply (polarised_unique e); [exact Zp|]. apply Z; [now left|congruence].
      + destruct e; try discriminate. rewrite (row_else freq f0 row Sr). cbn [pybind]. exists (None :: l). split; [reflexivity|]. constructor; [reflexivity|exact G].
  Qed.

  Lemma picked : forall zs e h si sq su c p, (c < n)%nat -> (p < 3)%nat -> head_of e = Some h -> spectra_say freq h f0 (zs e) si sq su ->
    (flagged flags (channel start stop n c) -> col (pick (si, sq, su) p) c = None) /\
    (~ flagged flags (channel start stop n c) -> col (pick (si, sq, su) p) c = Some (stokes_of p h f0 (channel start stop n c) (zs e))).
  Proof.
    intros zs e h si sq su c p Lc Lp He Sy. specialize (Sy c ltac:(unfold freq; now rewrite freqs_length)). unfold freq in Sy. rewrite freq_at in Sy by assumption.
    assert (Pk := channel_pos start stop n c Ps Pe Lc N2). unfold pick. cbn [fst snd]. split; intros F.
    - apply in_ranges_iff in F. rewrite F in Sy. destruct Sy as (S1 & S2 & S3). destruct p as [|[|[|p]]]; [assumption..|lia].
    - assert (F' : in_ranges flags (channel start stop n c) = false).
      { destruct (in_ranges flags (channel start stop n c)) eqn:X; [|reflexivity]. exfalso. apply F, in_ranges_iff, X. }
      rewrite F' in Sy. destruct (Sy Pk) as (S1 & S2 & S3). destruct p as [|[|[|p]]]; [assumption..|lia].
  Qed.

  Let g := 2 * sqrt (2 * ln 2).
  Definition add_source (p c y x : nat) (v : option R) (src : (R * R) * (list (option R) * list (option R) * list (option R))) : option R :=
    oadd v (twodgaussian (col (pick (snd src) p) c) (fst (fst src)) (snd (fst src)) (k_bmin k / g / k_pix k) (k_bmaj k / g / k_pix k) (k_bpa k * (PI / 180)) y x).

  Lemma sum_sources : forall zs es l, Forall2 (kept zs) es l -> forall p c y x v, (p < 3)%nat -> (c < n)%nat -> ~ flagged flags (channel start stop n c) ->
    fold_left (add_source p c y x) (opts l) (Some v) = Some (v + sky_stokes k pos es zs f0 (channel start stop n c) p y x).
  Proof.
    intros zs es l F. induction F as [|e o es l H F IH]; intros p c y x v Lp Lc N.
    - cbn. unfold sky_stokes. cbn. f_equal. unfold rsum. cbn. ring.
    - unfold kept in H. unfold sky_stokes, per_source. cbn [flat_map]. destruct (head_of e) as [h|] eqn:He.
      + destruct H as (si & sq & su & -> & Sy). cbn [opts fold_left]. destruct (picked zs e h si sq su c p Lc Lp He Sy) as [_ E].
        unfold add_source at 2. cbn [fst snd]. rewrite (E N). unfold g. rewrite gaussian_is_beam by assumption. unfold oadd, o2. fold g. rewrite IH by assumption. f_equal. cbn [app]. unfold sky_stokes, per_source. rewrite rsum_cons. ring.
      + subst o. cbn [opts app]. apply IH; assumption.
  Qed.

  Lemma none_stays : forall p c y x l, fold_left (add_source p c y x) l None = None.
  Proof. intros p c y x l. induction l as [|a l IH]; [reflexivity|]. cbn [fold_left]. exact IH. Qed.

  Lemma flagged_sources : forall zs es l, Forall2 (kept zs) es l -> forall p c y x v, (p < 3)%nat -> (c < n)%nat -> flagged flags (channel start stop n c) ->
    (exists e, In e es /\ head_of e <> None) -> fold_left (add_source p c y x) (opts l) v = None.
  Proof.
    intros zs es l F. induction F as [|e o es l H F IH]; intros p c y x v Lp Lc N (e' & I & He'); [destruct I|].
    unfold kept in H. destruct (head_of e) as [h|] eqn:He.
    - destruct H as (si & sq & su & -> & Sy). cbn [opts fold_left]. destruct (picked zs e h si sq su c p Lc Lp He Sy) as [E _].
      unfold add_source at 2. cbn [fst snd]. rewrite (E N), gaussian_none. replace (oadd v None) with (@None R) by (destruct v; reflexivity). apply none_stays.
    - subst o. cbn [opts]. apply IH; auto. destruct I as [->|I]; [congruence|eauto].
  Qed.

  Lemma cube_hdr : forall gal (d : nd (option R)), shape d = [1%nat; n; k_ny k; k_nx k] -> wf_nd d -> cube_axes k n (mk_image [k_nx k; k_ny k; n; 1%nat] (cube_ctype gal) d).
  Proof.
    intros gal d S W. split; [split; [exact S|split; [exact W|reflexivity]]|]. split; [reflexivity|]. split.
    - split; [cbn; lia|]. split.
      + intros j Hj. cbn in Hj. assert (j = 4)%nat as -> by lia. cbn [nth Nat.sub cube_ctype i_ctype]. rewrite <- hit_iff by apply caps_FREQ. discriminate.
      + left. cbn [nth Nat.sub cube_ctype i_ctype]. apply hit_iff; [apply caps_FREQ|reflexivity].
    - intros a. do 4 (destruct a as [|a]; [left; discriminate|]). right. lia.
  Qed.

  (** C67: from the text of the catalogue to the voxels *)
  Theorem cube_voxels : forall text rows es zs, catalogue text rows -> Forall2 row_says (map (map num_value) rows) es ->
    (forall e, In e es -> head_of e <> None -> polarised e (zs e)) ->
    exists F, create_IQU_cube_data true gauss pos text start stop n rms k noise flags f0 = POk F /\
      cu_freq F = map (channel start stop n) (seq 0 n) /\ cu_start F = start /\ cu_step F = (stop - start) / INR (n - 1) /\
      cube_axes k n (cu_I F) /\ cube_axes k n (cu_Q F) /\ cube_axes k n (cu_U F) /\
      forall c y x, (c < n)%nat -> (y < k_ny k)%nat -> (x < k_nx k)%nat ->
        let f := channel start stop n c in
        let total p := Some (sky_stokes k pos es zs f0 f p y x + rms * gauss p c y x * w c) in
        (~ flagged flags f -> cell (cu_I F) c y x = total 0%nat /\ cell (cu_Q F) c y x = total 1%nat /\ cell (cu_U F) c y x = total 2%nat) /\
        (flagged flags f -> (exists e, In e es /\ head_of e <> None) -> cell (cu_I F) c y x = None /\ cell (cu_Q F) c y x = None /\ cell (cu_U F) c y x = None).
  Proof.
    intros text rows es zs C F Z. unfold create_IQU_cube_data. replace (n <? 2)%nat with false by (symmetry; apply Nat.ltb_ge; lia).
    rewrite (catalogue_read text rows C). cbn [pybind]. fold freq.
    replace (map (map (fun n0 => Some (num_value n0))) rows) with (map (map (@Some R)) (map (map num_value) rows)).
    2:{ rewrite map_map. apply map_ext. intros r. now rewrite map_map. }
    destruct (rows_kept zs _ _ F Z) as (l & E & G). rewrite E. cbn [pybind]. destruct (Rlt_dec rms 0); [lra|]. eexists. split; [reflexivity|]. cbn [cu_freq cu_start cu_step cu_I cu_Q cu_U].
    split. { unfold linspace. apply map_ext_in. intros i Hi. unfold channel. field. apply not_0_INR. lia. }
    split; [reflexivity|]. split; [reflexivity|].
    split; [apply cube_hdr; [reflexivity|apply wf_tab_nd]|]. split; [apply cube_hdr; [reflexivity|apply wf_tab_nd]|]. split; [apply cube_hdr; [reflexivity|apply wf_tab_nd]|].
    intros c y x Lc Ly Lx. set (f := channel start stop n c). set (total := fun p => Some (sky_stokes k pos es zs f0 f p y x + rms * gauss p c y x * w c)).
    assert (V : forall p, (p < 3)%nat -> (~ flagged flags f -> noisy (fold_left (add_source p c y x) (opts l) (Some 0)) rms (gauss p c y x) (col noise c) = total p) /\
      (flagged flags f -> (exists e, In e es /\ head_of e <> None) -> noisy (fold_left (add_source p c y x) (opts l) (Some 0)) rms (gauss p c y x) (col noise c) = None)).
    { intros p Lp. split.
      - intros N. rewrite (sum_sources zs es l G) by assumption. unfold col. rewrite (Hw c Lc N). unfold noisy, oadd, omul, o2, total. f_equal. unfold f. ring.
      - intros N X. rewrite (flagged_sources zs es l G) by assumption. reflexivity. }
    unfold cell, vox. cbn [i_naxis List.length seq rev app map Nat.sub nth i_data].
    rewrite !at_tab_nd by (repeat (constructor; auto)). cbn [nth fold_left].
    split.
    - intros N. split; [|split]; [exact (proj1 (V 0%nat ltac:(lia)) N)|exact (proj1 (V 1%nat ltac:(lia)) N)|exact (proj1 (V 2%nat ltac:(lia)) N)].
    - intros N X. split; [|split]; [exact (proj2 (V 0%nat ltac:(lia)) N X)|exact (proj2 (V 1%nat ltac:(lia)) N X)|exact (proj2 (V 2%nat ltac:(lia)) N X)].
  Qed.

  (** C67: were the pixels of the HDU shared by its copies, the three files would be the same *)
  Theorem cube_shared : forall text F, create_IQU_cube_data false gauss pos text start stop n rms k noise flags f0 = POk F -> cu_Q F = cu_I F /\ cu_U F = cu_I F.
  Proof.
    intros text F H. unfold create_IQU_cube_data in H. replace (n <? 2)%nat with false in H by (symmetry; apply Nat.ltb_ge; lia).
    destruct (csv_read_to_list text) as [cat|]; [|discriminate]. cbn [pybind] in H.
    destruct (pyall _) as [r|]; [|discriminate]. cbn [pybind] in H. destruct (Rlt_dec rms 0); [discriminate|]. injection H as <-. split; reflexivity.
  Qed.
End Cube.
