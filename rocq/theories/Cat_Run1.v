(** From a catalogue to the peak the 1-D synthesis tool reports for one of its files. *)
From Coq Require Import Reals List Arith ZArith Bool Ascii String Lia Lra.
Set Warnings "-ambiguous-paths".
From Coquelicot Require Import Coquelicot.
From Verif Require Import CBase PyRes PyStr PyList NdArray Synth_Spec QU_Spec Setup_Spec Measure_Model Measure_Spec StokesI_Model Run1D_Model Run1D_Spec Run1D_Laws Run1D_Proofs Cube_Model Cat_Model Cat_Spec Cat_Text Cat_Rows Cat_Run.
Import ListNotations.
Local Open Scope R_scope.

Lemma nth_column : forall rows c k, (k < List.length rows)%nat -> nth k (column rows c) None = nth c (nth k rows []) None.
Proof.
  intros rows c k L. unfold column. rewrite (nth_indep _ None (col [] c)) by now rewrite map_length. rewrite (map_nth (fun r => col r c)). reflexivity.
Qed.

Lemma finite_all : forall l, (forall v, In v l -> v <> None) -> exists r, finite_row l = Some r /\ l = map Some r.
Proof.
  induction l as [|[v|] l IH]; intros H; [exists []; auto| |exfalso; apply (H None); [now left|reflexivity]].
  destruct IH as (r & E & ->); [intros w Hw; apply H; now right|]. exists (v :: r). cbn [finite_row]. rewrite E. auto.
Qed.

(** a file of seven columns, read back *)
Lemma seven_columns : forall rows n (fr : nat -> R), rows <> [] -> List.length rows = n -> (forall k, (k < n)%nat -> List.length (nth k rows []) = 7%nat) ->
  (forall k, (k < n)%nat -> nth 0 (nth k rows []) None = Some (fr k)) ->
  readFile rows = POk (Data7 (map fr (seq 0 n)) (column rows 1) (column rows 2) (column rows 3) (column rows 4) (column rows 5) (column rows 6)).
Proof.
  intros rows n fr N L H7 H0.
  assert (C0 : column rows 0 = map Some (map fr (seq 0 n))).
  { apply (nth_ext _ _ None None); [unfold column; now rewrite !map_length, seq_length|]. intros k Hk. unfold column in Hk. rewrite map_length in Hk.
    rewrite nth_column by assumption. rewrite H0 by lia. rewrite map_map. rewrite (nth_map_seq (fun i => Some (fr i))) by lia. reflexivity. }
  assert (A7 : forall r, In r rows -> List.length r = 7%nat).
  { intros r Ir. destruct (In_nth _ _ [] Ir) as (k & Hk & <-). apply H7. lia. }
  destruct rows as [|r rows]; [congruence|]. unfold readFile. rewrite (A7 r) by now left.
  replace (forallb (fun r' => (List.length r' =? 7)%nat) (r :: rows)) with true.
  2:{ symmetry. apply forallb_forall. intros r' Ir. apply Nat.eqb_eq. now apply A7. }
  rewrite C0, finite_some. reflexivity.
Qed.

Section Run1.
  Variables (gauss : nat -> nat -> nat -> R) (start stop : R) (n : nat) (noise : list (option R)) (freq0 : option R).
  Hypothesis N2 : (2 <= n)%nat.
  Hypothesis Ps : 0 < start < stop.
  Hypothesis P0 : forall v, freq0 = Some v -> 0 < v.
  Hypothesis Hw : forall k, (k < n)%nat -> nth k noise None <> None.

  (** C67: the file of a source without noise: what the tool reads, and what it reports *)
  Theorem catalogue_to_spectrum : forall text rows es i h t, catalogue text rows -> Forall2 row_says (map (map num_value) rows) es ->
    nth_error es i = Some (Thin h [t]) -> t_var t = 0 -> 0 < h_flux h -> 0 < t_p t ->
    let f0 := match freq0 with Some f => f | None => start end in
    exists files f rs d, create_IQU_ascii_data gauss text start stop n 0 noise [] freq0 = POk files /\ In f files /\ a_number f = S i /\ a_rows f = Some rs /\ readFile rs = POk d /\
      forall mpfit fit o out, good_opts mpfit o n -> o_variance o = false -> run_rmsynth mpfit fit d o = POk out ->
        let freq := map (channel start stop n) (seq 0 n) in
        r_freq out = freq /\
        ((forall j, (j < n)%nat -> stokes_model o (r_fit out) freq j = source_I h f0 (channel start stop n j)) ->
         forall hh step k j1 j2 I0, odd_centred (r_phi out) hh step -> 0 < step -> (0 < k < List.length (r_phi out) - 1)%nat -> nth k (r_phi out) 0 = t_RM t ->
           (j1 < n)%nat -> (j2 < n)%nat -> j1 <> j2 ->
           (forall g, In g (r_phi out) -> Rabs (g - t_RM t) * Rabs (lsq (channel start stop n j1) - lsq (channel start stop n j2)) < PI) ->
           r_Ifreq0 out = Some I0 -> 0 < I0 ->
           phiPeakPIfit (r_parms out) = Some (t_RM t) /\ ampPeakPIfit (r_parms out) = Some (I0 * t_p t) /\
           exists a0, polAngle0Fit_deg (r_parms out) = Some a0 /\ 0 <= a0 < 180 /\ same_angle a0 (t_psi t)).
  Proof.
    intros text rows es i h t C Fr Ni Vt Pf Pt f0.
    assert (Hw' : forall k, (k < n)%nat -> ~ flagged [] (channel start stop n k) -> nth k noise None = Some (match nth k noise None with Some v => v | None => 0 end)).
    { intros k Lk _. specialize (Hw k Lk). destruct (nth k noise None); [reflexivity|congruence]. }
    destruct (ascii_files gauss start stop n 0 noise [] freq0 _ N2 (proj1 Ps) (Rlt_trans _ _ _ (proj1 Ps) (proj2 Ps)) (Rle_refl 0) P0 Hw' text rows es C Fr) as (files & E & _ & G).
    destruct (G i _ h Ni eq_refl) as (f & If & Nf & rs & Er & Lr & A). fold f0 in A. clear G.
    specialize (A (fun l2 => thin (t_p t) (rad (t_psi t)) (t_RM t) l2)).
    assert (PZ : polarised (Thin h [t]) (fun l2 => thin (t_p t) (rad (t_psi t)) (t_RM t) l2)).
    { intros l2. cbn [map]. rewrite Vt, Rmult_0_r, Rmult_0_l, exp_0. unfold csum. cbn. ring. }
    specialize (A PZ). assert (NF : forall x, ~ flagged [] x) by (intros x (r & [] & _)).
    assert (RW : forall k, (k < n)%nat -> let c := channel start stop n k in let si := source_I h f0 c in let q := thin (t_p t) (rad (t_psi t)) (t_RM t) (lsq c) in
      nth k rs [] = [Some c; Some si; Some (si * fst q); Some (si * snd q); Some 0; Some 0; Some 0]).
    { intros k Lk c si q. destruct (A k Lk) as [_ A2]. rewrite (A2 (NF _)). cbn [fst snd]. unfold source_QU. fold c. fold si. change (l2_of c) with (lsq c). fold q.
      unfold Cmult, RtoC. cbn [fst snd]. repeat (f_equal; try ring). }
    set (freq := map (channel start stop n) (seq 0 n)).
    assert (Lf : List.length freq = n) by (unfold freq; now rewrite map_length, seq_length).
    assert (RD : readFile rs = POk (Data7 freq (column rs 1) (column rs 2) (column rs 3) (column rs 4) (column rs 5) (column rs 6))).
    { apply seven_columns; [intros ->; cbn in Lr; lia|exact Lr|intros k Lk; now rewrite RW|intros k Lk; now rewrite RW]. }
    eexists files, f, rs, _. split; [exact E|]. split; [exact If|]. split; [exact Nf|]. split; [exact Er|]. split; [exact RD|].
    intros mpfit fit o out GO NV RUN. cbv zeta. fold freq.
    assert (NC : forall j, (j < n)%nat -> nth j freq 0 = channel start stop n j) by (intros j Lj; now apply nth_channel).
    assert (CP : forall j, (j < n)%nat -> 0 < channel start stop n j) by (intros j Lj; apply channel_pos; lra || lia).
    set (iA := if o_noStokesI o then repeat (Some 1) (List.length (column rs 2)) else column rs 1).
    set (dI := if o_noStokesI o then repeat (Some 0) (List.length (column rs 2)) else column rs 4).
    assert (LC : forall c, List.length (column rs c) = List.length freq) by (intros c; unfold column; rewrite map_length, Lf; exact Lr).
    assert (GI : good_input (Data7 freq (column rs 1) (column rs 2) (column rs 3) (column rs 4) (column rs 5) (column rs 6)) (o_noStokesI o) freq iA (column rs 2) (column rs 3) dI (column rs 5) (column rs 6)).
    { split; [left; eexists _, _; split; [reflexivity|]; unfold iA, dI; destruct (o_noStokesI o); auto|].
      repeat (split; [first [apply LC|unfold iA, dI; destruct (o_noStokesI o); rewrite ?repeat_length; apply LC]|]).
      intros x Ix. unfold freq in Ix. apply in_map_iff in Ix. destruct Ix as (j & <- & Hj). apply in_seq in Hj. apply CP. lia. }
    assert (GO' : good_opts mpfit o (List.length freq)) by now rewrite Lf.
    destruct (run_refines _ _ _ _ _ _ _ _ _ _ _ _ GI GO' RUN) as (h1 & st1 & pm1 & i1 & _ & _ & _ & RF & LW & WT & _).
    split; [exact RF|]. intros MD hh step k j1 j2 I0 OC Ph Hk Ek L1 L2 N12 AL EI PI0.
    assert (SP : forall j, (j < n)%nat -> 0 < source_I h f0 (channel start stop n j)).
    { intros j Lj. unfold source_I. apply Rmult_lt_0_compat; [exact Pf|apply exp_pos]. }
    assert (TC : thin_columns freq (column rs 2) (column rs 3) (stokes_model o (r_fit out) freq) (t_p t) (rad (t_psi t)) (t_RM t)).
    { intros j q u Lj Eq Eu. rewrite Lf in Lj. rewrite nth_column in Eq, Eu by lia. rewrite RW in Eq, Eu by exact Lj. cbn [nth] in Eq, Eu. injection Eq as <-. injection Eu as <-.
      rewrite MD, NC by exact Lj. unfold thin. apply injective_projections; unfold Cmult, RtoC, cis; cbn [fst snd]; ring. }
    assert (CC : forall j, (j < n)%nat -> nth j (column rs 2) None <> None /\ nth j (column rs 3) None <> None).
    { intros j Lj. rewrite !nth_column by lia. rewrite RW by exact Lj. split; discriminate. }
    assert (W1 : forall j, (j < n)%nat -> 0 < nth j (r_weight out) 0) by (intros j Lj; rewrite WT by lia; unfold chan_weight; rewrite NV; lra).
    assert (LN : lsq (nth j1 freq 0) <> lsq (nth j2 freq 0)).
    { rewrite !NC by assumption. assert (MN : forall a b, (a < b)%nat -> (b < n)%nat -> lsq (channel start stop n b) < lsq (channel start stop n a)).
      { intros a b Lab Lb. pose proof (channel_incr start stop n a b (proj2 Ps) Lab Lb) as CI. pose proof (CP a ltac:(lia)) as Ca. unfold lsq.
        assert (0 < 299792458 / channel start stop n b < 299792458 / channel start stop n a).
        { split; [apply Rdiv_lt_0_compat; lra|]. apply Rmult_lt_compat_l; [lra|]. apply Rinv_lt_contravar; [apply Rmult_lt_0_compat; lra|lra]. }
        nra. }
      destruct (Nat.lt_ge_cases j1 j2) as [Lj|Lj]; [pose proof (MN j1 j2 Lj L2)|pose proof (MN j2 j1 ltac:(lia) L1)]; lra. }
    destruct (CC j1 L1) as [Q1 U1]. destruct (CC j2 L2) as [Q2 U2].
    destruct (run_thin _ _ _ _ _ _ _ _ _ _ _ _ GI GO' RUN (t_p t) (rad (t_psi t)) (t_RM t) hh step k j1 j2 TC Pt OC Ph Hk Ek) with (I0 := I0) as (R1 & R2 & _ & _ & (a0 & R3 & R4 & R5) & _);
      try assumption; try (rewrite Lf; assumption); try (rewrite MD by assumption; apply Rgt_not_eq, SP; assumption); try (apply W1; assumption).
    { intros m Hm. rewrite !NC by assumption. apply AL. now apply nth_In. }
    split; [exact R1|]. split; [exact R2|]. exists a0. split; [exact R3|]. split; [exact R4|].
    replace (t_psi t) with (rad (t_psi t) * 180 / PI); [exact R5|]. unfold rad. field. apply Rgt_not_eq, PI_RGT_0.
  Qed.
End Run1.
