(** From a catalogue with one source to the maps of the cube synthesis tool. *)
From Coq Require Import Reals List Arith ZArith Bool Ascii String Lia Lra.
Set Warnings "-ambiguous-paths".
From Coquelicot Require Import Coquelicot.
From Verif Require Import CBase PyRes PyStr PyList NdArray NdIndex Synth_Spec QU_Spec Setup_Spec Cube_Model Cube_Spec Run1D_Spec Pixfit_Spec Setup_Model Run3D_Model Run3D_Spec Run3D_Total Run3D_Thin Synth_Laws Cat_Model Cat_Spec Cat_Text Cat_Rows Cat_Cube.
Import ListNotations.
Local Open Scope R_scope.

Lemma channel_incr : forall a b n i j, a < b -> (i < j)%nat -> (j < n)%nat -> channel a b n i < channel a b n j.
Proof.
  intros a b n i j L I J. unfold channel. assert (0 < INR (n - 1)) by (apply lt_0_INR; lia). apply lt_INR in I.
  apply Rplus_lt_compat_l, Rmult_lt_compat_l; [lra|]. apply Rmult_lt_compat_r; [now apply Rinv_0_lt_compat|exact I].
Qed.

Lemma nth_channel : forall a b n j, (j < n)%nat -> nth j (map (channel a b n) (seq 0 n)) 0 = channel a b n j.
Proof. intros. now rewrite nth_map_seq by assumption. Qed.

Lemma cell_vox : forall k n f c p, cube_axes k n f -> p 4%nat = 0%nat -> vox None f (at_chan p 3 c) = cell f c (p 2%nat) (p 1%nat).
Proof. intros k n f c p (_ & E & _) P4. unfold cell, vox. rewrite E. cbn [List.length seq rev app map at_chan Nat.eqb Nat.sub nth]. now rewrite P4. Qed.

Lemma good_cubes : forall k n a b F, cube_axes k n (cu_I F) -> cube_axes k n (cu_Q F) -> cube_axes k n (cu_U F) -> cu_freq F = map (channel a b n) (seq 0 n) ->
  (2 <= n)%nat -> (2 <= k_nx k)%nat -> (2 <= k_ny k)%nat -> 0 < a < b -> good_files (cu_Q F) (cu_U F) (Some (cu_I F)) 3 (cu_freq F).
Proof.
  intros k n a b F (W1 & A1 & S1 & _) (W2 & A2 & S2 & C2) (W3 & A3 & S3 & _) E N X Y [Pa Pb].
  assert (SK : sky_axes [k_nx k; k_ny k; n; 1%nat] 3 = [1; 2]%nat).
  { unfold sky_axes. cbn [List.length Nat.leb others seq filter Nat.eqb negb]. unfold long_axes. cbn [filter len nth Nat.sub].
    replace (k_nx k =? 1)%nat with false by (symmetry; apply Nat.eqb_neq; lia). replace (k_ny k =? 1)%nat with false by (symmetry; apply Nat.eqb_neq; lia). reflexivity. }
  unfold good_files. rewrite A2, A3, A1, E. repeat match goal with |- _ /\ _ => split end; try assumption; try reflexivity.
  - intros c Hc N3. cbn in Hc. destruct (C2 (c - 1)%nat) as [H|H]; [exact H|lia].
  - cbn [len nth Nat.sub]. now rewrite map_length, seq_length.
  - rewrite SK. cbn. lia.
  - intros c Hc. cbn in Hc. assert (c = 1 \/ c = 2 \/ c = 3 \/ c = 4)%nat as [->|[->|[->| ->]]] by lia; cbn [len nth Nat.sub]; lia.
  - intros f Hf. apply in_map_iff in Hf. destruct Hf as (i & <- & Hi). apply in_seq in Hi. apply channel_pos; try lra; lia.
  - exists (channel a b n 0), (channel a b n 1). split; [apply in_map, in_seq; lia|]. split; [apply in_map, in_seq; lia|]. pose proof (channel_incr a b n 0 1 Pb ltac:(lia) ltac:(lia)). lra.
  - intros i j H. rewrite map_length, seq_length in H. rewrite !nth_channel by lia. apply channel_incr; [exact Pb|lia|lia].
  - exists 1%nat, 2%nat. split; [exact SK|]. cbn [len nth Nat.sub]. lia.
Qed.

Lemma only_stokes : forall l h t k pos zs f0 f p y x, only_source l h t ->
  sky_stokes k pos l zs f0 f p y x = stokes_of p h f0 f (zs (Thin h [t])) * beam k (INR x - fst (pos (h_x h) (h_y h))) (INR y - snd (pos (h_x h) (h_y h))).
Proof.
  intros l h t k pos zs f0 f p y x [E _]. unfold sky_stokes.
  replace (per_source l (fun e h => stokes_of p h f0 f (zs e) * beam k (INR x - fst (pos (h_x h) (h_y h))) (INR y - snd (pos (h_x h) (h_y h)))))
    with (map (fun eh => stokes_of p (snd eh) f0 f (zs (fst eh)) * beam k (INR x - fst (pos (h_x (snd eh)) (h_y (snd eh)))) (INR y - snd (pos (h_x (snd eh)) (h_y (snd eh))))) (per_source l (fun e h => (e, h)))).
  2:{ unfold per_source. rewrite fm_map. apply flat_map_ext. intros e. destruct (head_of e); reflexivity. }
  rewrite E. unfold rsum. cbn. ring.
Qed.

Section Run.
  Variables (gauss : nat -> nat -> nat -> nat -> R) (pos : R -> R -> R * R) (start stop : R) (n : nat) (k : sky) (noise : list (option R)) (flags : list (R * R)) (f0 : R).
  Hypothesis N2 : (2 <= n)%nat.
  Hypothesis Ps : 0 < start < stop.
  Hypothesis P0 : 0 < f0.
  Hypothesis Pp : 0 < k_pix k.
  Hypothesis Pa : 0 < k_bmin k.
  Hypothesis Pb : 0 < k_bmaj k.
  Hypothesis Kx : (2 <= k_nx k)%nat.
  Hypothesis Ky : (2 <= k_ny k)%nat.
  Hypothesis Hw : forall c, (c < n)%nat -> nth c noise None <> None.

  (** C67: the catalogue's depth, in every pixel of the map *)
  Theorem catalogue_to_map : forall text rows es h t, catalogue text rows -> Forall2 row_says (map (map num_value) rows) es -> only_source es h t ->
    0 < h_flux h -> 0 < t_p t ->
    exists F, create_IQU_cube_data true gauss pos text start stop n 0 k noise flags f0 = POk F /\
      forall o fit, good_opts3 o (cu_freq F) -> g_not_rmsynth o = false ->
      exists out f phi mx rm, rmsynth3d fit (cu_Q F) (cu_U F) (Some (cu_I F)) (cu_freq F) None o = POk out /\ o_fdf out = Some f /\ o_peak out = Some (mx, rm) /\ axis_gives (f_axis f) phi /\
        forall y x i0, (y < k_ny k)%nat -> (x < k_nx k)%nat -> In (t_RM t) phi ->
          (exists c1 c2, (c1 < n)%nat /\ (c2 < n)%nat /\ ~ flagged flags (channel start stop n c1) /\ ~ flagged flags (channel start stop n c2) /\
             lsq (channel start stop n c1) <> lsq (channel start stop n c2) /\
             forall d, In d phi -> Rabs (d - t_RM t) * Rabs (lsq (channel start stop n c1) - lsq (channel start stop n c2)) < PI) ->
          let p := fun a => nth (a - 1) [x; y; 0; 0]%nat 0%nat in
          ref_stokes3 (cu_freq F) (f_lamsq0 f) (Some (cu_I F)) 3 p (Some i0) ->
          0 < i0 /\ at_nd None rm [0; 0; y; x]%nat = Some (t_RM t) /\ at_nd None mx [0; 0; y; x]%nat = Some (i0 * t_p t) /\
          forall j, (j < List.length phi)%nat -> nth j phi 0 = t_RM t -> vox None (f_image f) (at_chan p 3 j) = Some (RtoC (i0 * t_p t) * cis (2 * (rad (t_psi t) + t_RM t * f_lamsq0 f)))%C.
  Proof.
    intros text rows es h t C Fr O Pf Pt.
    set (zs := fun (_ : entry) l2 => (thin (t_p t) (rad (t_psi t)) (t_RM t) l2)%C).
    assert (Hin : forall e, In e es -> head_of e <> None -> e = Thin h [t]).
    { intros e I N. destruct (head_of e) as [h'|] eqn:He; [|congruence]. assert (X : In (e, h') (per_source es (fun e h => (e, h)))).
      { apply in_flat_map. exists e. split; [exact I|]. rewrite He. now left. }
      rewrite (proj1 O) in X. destruct X as [X|[]]. now injection X. }
    assert (Hex : exists e, In e es /\ head_of e <> None).
    { assert (X : In (Thin h [t], h) (per_source es (fun e h => (e, h)))) by (rewrite (proj1 O); now left). apply in_flat_map in X. destruct X as (e & I & X). exists e. split; [exact I|].
      destruct (head_of e); [discriminate|destruct X]. }
    assert (Z : forall e, In e es -> head_of e <> None -> polarised e (zs e)).
    { intros e I N. rewrite (Hin e I N). intros l2. cbn [map zs]. rewrite (proj2 O), Rmult_0_r, Rmult_0_l, exp_0. unfold csum. cbn. unfold zs. ring. }
    destruct (cube_voxels gauss pos start stop n 0 k noise flags f0 (fun c => match nth c noise None with Some v => v | None => 0 end) N2 (proj1 Ps) (Rlt_trans _ _ _ (proj1 Ps) (proj2 Ps)) (Rle_refl 0) P0 Pp Pa Pb) with (text := text) (rows := rows) (es := es) (zs := zs)
      as (F & E & Ef & _ & _ & AI & AQ & AU & V); try assumption.
    { intros c Lc _. specialize (Hw c Lc). destruct (nth c noise None); [reflexivity|congruence]. }
    exists F. split; [exact E|]. intros o fit GO NS.
    pose proof (good_cubes k n start stop F AI AQ AU Ef N2 Kx Ky Ps) as GF.
    assert (L : List.length (cu_freq F) = n) by (rewrite Ef, map_length, seq_length; reflexivity).
    assert (NC : forall c, (c < n)%nat -> nth c (cu_freq F) 0 = channel start stop n c) by (intros c Lc; rewrite Ef; now apply nth_channel).
    destruct (files_ok (cu_Q F) (cu_U F) (Some (cu_I F)) 3 (cu_freq F) None o GF Logic.I GO fit) as (out & phi0 & h0 & step0 & RUN & _ & _ & _ & _ & FD & _).
    destruct (FD NS) as (f & mx0 & rm0 & OF & _ & _ & AL & AG0 & _). clear FD.
    destruct (thin_files (cu_Q F) (cu_U F) (Some (cu_I F)) 3 (cu_freq F) None o GF Logic.I GO fit out f RUN OF) as (phi & hh & step & mx & rm & G3 & AG & OP & T).
    exists out, f, phi, mx, rm. split; [exact RUN|]. split; [exact OF|]. split; [exact OP|]. split; [exact AG|].
    intros y x i0 Ly Lx IR (c1 & c2 & L1 & L2 & U1 & U2 & NE & SM) p RS.
    set (bm := beam k (INR x - fst (pos (h_x h) (h_y h))) (INR y - snd (pos (h_x h) (h_y h)))). assert (PB : 0 < bm) by apply beam_pos.
    assert (SI : forall c, (c < n)%nat -> 0 < source_I h f0 (channel start stop n c)).
    { intros c Lc. unfold source_I. apply Rmult_lt_0_compat; [exact Pf|apply exp_pos]. }
    (* the voxels of the three cubes *)
    assert (VX : forall c, (c < n)%nat ->
      (flagged flags (channel start stop n c) -> vox None (cu_Q F) (at_chan p 3 c) = None /\ vox None (cu_U F) (at_chan p 3 c) = None /\ vox None (cu_I F) (at_chan p 3 c) = None) /\
      (~ flagged flags (channel start stop n c) -> let si := source_I h f0 (channel start stop n c) in let q := thin (t_p t) (rad (t_psi t)) (t_RM t) (lsq (channel start stop n c)) in
         vox None (cu_I F) (at_chan p 3 c) = Some (si * bm) /\ vox None (cu_Q F) (at_chan p 3 c) = Some (si * fst q * bm) /\ vox None (cu_U F) (at_chan p 3 c) = Some (si * snd q * bm))).
    { intros c Lc. rewrite (cell_vox k n _ c p AI eq_refl), (cell_vox k n _ c p AQ eq_refl), (cell_vox k n _ c p AU eq_refl). cbn [p nth Nat.sub].
      destruct (V c y x Lc Ly Lx) as [V1 V2]. split.
      - intros Fl. destruct (V2 Fl Hex) as (-> & -> & ->). auto.
      - intros Fl. destruct (V1 Fl) as (-> & -> & ->). rewrite !(only_stokes es h t) by exact O. fold bm. cbn [stokes_of].
        unfold source_QU, zs. change (l2_of (channel start stop n c)) with (lsq (channel start stop n c)). cbn [fst snd Cmult RtoC]. repeat split; f_equal; ring. }
    assert (FV : forall c, (c < n)%nat -> (flagged flags (channel start stop n c) -> frac_vox (cu_Q F) (cu_U F) (Some (cu_I F)) (at_chan p 3 c) = None) /\
      (~ flagged flags (channel start stop n c) -> frac_vox (cu_Q F) (cu_U F) (Some (cu_I F)) (at_chan p 3 c) = Some (thin (t_p t) (rad (t_psi t)) (t_RM t) (lsq (channel start stop n c))))).
    { intros c Lc. destruct (VX c Lc) as [V1 V2]. unfold frac_vox, stokes_vox. split; intros Fl.
      - destruct (V1 Fl) as (-> & _ & _). reflexivity.
      - destruct (V2 Fl) as (-> & -> & ->). specialize (SI c Lc). destruct (Req_EM_T _ 0) as [Z0|Z0]; [exfalso; assert (0 < source_I h f0 (channel start stop n c) * bm) by (apply Rmult_lt_0_compat; assumption); lra|].
        f_equal. rewrite (surjective_pairing (thin (t_p t) (rad (t_psi t)) (t_RM t) (lsq (channel start stop n c)))). cbn [fst snd]. f_equal; field; lra. }
    assert (FL : forall c, flagged flags (channel start stop n c) \/ ~ flagged flags (channel start stop n c)).
    { intros c. destruct (in_ranges flags (channel start stop n c)) eqn:X; [left; now apply in_ranges_iff|right; intros Y; apply in_ranges_iff in Y; congruence]. }
    assert (TH : thin_at (cu_Q F) (cu_U F) (Some (cu_I F)) 3 (cu_freq F) p (t_p t) (rad (t_psi t)) (t_RM t)).
    { intros c P Lc EP. rewrite L in Lc. rewrite NC by exact Lc. destruct (FV c Lc) as [A B]. destruct (FL c) as [Fl|Fl]; [rewrite (A Fl) in EP; discriminate|].
      rewrite (B Fl) in EP. injection EP as <-. reflexivity. }
    assert (TE : tells (cu_Q F) (cu_U F) (Some (cu_I F)) 3 (cu_freq F) (weight3 o None) phi p (t_RM t)).
    { exists c1, c2. rewrite L, !NC by assumption. split; [exact L1|]. split; [exact L2|]. split; [rewrite (proj2 (FV c1 L1) U1); discriminate|]. split; [rewrite (proj2 (FV c2 L2) U2); discriminate|].
      split; [cbn; lra|]. split; [cbn; lra|]. split; [exact NE|exact SM]. }
    assert (PH : phi <> []) by (intros ->; destruct IR).
    assert (IM : in_image (i_naxis (f_image f)) p).
    { destruct AL as (_ & -> & _). intros a Ha. destruct AQ as (_ & EA & _). rewrite EA in *. unfold with_len in *. rewrite map_length, seq_length in Ha. cbn [List.length] in Ha.
      assert (LP : List.length phi0 = List.length phi).
      { destruct AG0 as [X _]. destruct AG as [Y _]. rewrite X in Y. lia. }
      assert (a = 1 \/ a = 2 \/ a = 3 \/ a = 4)%nat as [->|[->|[->| ->]]] by lia; cbn [List.length seq map Nat.eqb len nth Nat.sub p]; try assumption; try lia.
      rewrite LP. destruct phi; [congruence|cbn; lia]. }
    destruct (T p (t_p t) (rad (t_psi t)) (t_RM t) i0 IM TH Pt IR TE RS) as [T1 T2].
    assert (PI0 : 0 < i0).
    { assert (IV : forall c v, (c < n)%nat -> vox None (cu_I F) (at_chan p 3 c) = Some v -> 0 < v).
      { intros c v Lc Ev. destruct (VX c Lc) as [A B]. destruct (FL c) as [Fl|Fl]; [destruct (A Fl) as (_ & _ & X); congruence|]. destruct (B Fl) as (X & _). rewrite X in Ev. injection Ev as <-.
        apply Rmult_lt_0_compat; [now apply SI|exact PB]. }
      destruct RS as (fr & _ & [(c & Lc & _ & Ev)|(c & Lc & _ & Ev)]); rewrite L in Lc.
      - symmetry in Ev. exact (IV c i0 Lc Ev).
      - destruct (vox None (cu_I F) (at_chan p 3 c)) as [u|] eqn:E1; [|discriminate]. destruct (vox None (cu_I F) (at_chan p 3 (S c))) as [v|] eqn:E2; [|discriminate].
        injection Ev as ->. pose proof (IV c u ltac:(lia) E1). pose proof (IV (S c) v Lc E2). lra. }
    split; [exact PI0|]. destruct (T2 ltac:(lra)) as [T3 T4]. destruct AQ as (_ & EA & _). rewrite EA in T3, T4.
    change (map p (rev (others 3 (List.length [k_nx k; k_ny k; n; 1%nat])))) with [0; y; x]%nat in T3, T4.
    split; [exact T4|]. split; [rewrite T3, Rabs_pos_eq by lra; reflexivity|].
    intros j Lj Ej. rewrite (T1 j Lj), Ej. f_equal. replace (t_RM t - t_RM t) with 0 by ring. rewrite RMSF_at_0; [ring|].
    apply Rgt_not_eq. apply (tells_pos (cu_Q F) (cu_U F) (Some (cu_I F)) 3 (cu_freq F) None o Logic.I phi p (t_RM t) TE).
  Qed.
End Run.
