(** Examples for catalogues: a text with comments, a sky of one source, its file. *)
From Coq Require Import Reals List Arith ZArith Bool Ascii String Lia Lra.
Set Warnings "-ambiguous-paths".
From Coquelicot Require Import Coquelicot.
From Verif Require Import CBase PyRes PyStr PyList NdArray NdIndex Synth_Spec QU_Spec Setup_Spec Measure_Model Cube_Model Cube_Spec StokesI_Model Run1D_Model Run1D_Spec Run1D_Proofs Run1D_Laws Run1D_Total Run1D_Refute Run3D_Model Run3D_Spec Run3D_Total Run3D_Examples
  Cat_Model Cat_Spec Cat_Text Cat_Rows Cat_Cube Cat_Run Cat_Run1 Cat_Refute.
Import ListNotations.
Local Open Scope R_scope.

(** A comment, an empty line, one source of each type (two of the shipped
    catalogue) and a row of an unknown type. *)
Definition c_text : str := (s "# Type, x_deg, y_deg" ++ ["010"%char; "010"%char] ++ s "1, 89.9981, +0.0001, 0.0, 0.0, 0.0, 10.0, -0.1,     0.6, 80.0, 3e1, 0.0 # thin" ++ ["010"%char] ++
  s "7,1" ++ ["010"%char] ++ s "2, 90.0026, +0.0000, 0.0, 0.0, 0.0, 10.0, 0.0,      0.5, 45.0, -20.0,  0.1" ++ ["010"%char])%list.
Definition dcm (g : option bool) (a b : list nat) : numeral := mk_num g a (Some b) None.
Definition c_row1 : list numeral := [num1 1; dcm None [8; 9] [9; 9; 8; 1]; dcm (Some false) [0] [0; 0; 0; 1]; dcm None [0] [0]; dcm None [0] [0]; dcm None [0] [0]; dcm None [1; 0] [0];
  dcm (Some true) [0] [1]; dcm None [0] [6]; dcm None [8; 0] [0]; mk_num None [3] None (Some (false, None, [1])); dcm None [0] [0]]%nat.
Definition c_row3 : list numeral := [num1 2; dcm None [9; 0] [0; 0; 2; 6]; dcm (Some false) [0] [0; 0; 0; 0]; dcm None [0] [0]; dcm None [0] [0]; dcm None [0] [0]; dcm None [1; 0] [0];
  dcm None [0] [0]; dcm None [0] [5]; dcm None [4; 5] [0]; dcm (Some true) [2; 0] [0]; dcm None [0] [1]]%nat.
Definition c_rows : list (list numeral) := [c_row1; [num1 7; num1 1]; c_row3].
Definition c_entries : list entry := [Thin (mk_head (899981 / 10000) (1 / 10000) 0 0 0 10 (-1 / 10)) [mk_thin (6 / 10) 80 30 0]; Else; Slabs (mk_head (900026 / 10000) 0 0 0 0 10 0) [mk_slab (5 / 10) 45 (-20)]].

Ltac num_goal := repeat split; try discriminate; repeat (constructor; [lia|]); try constructor.
Lemma c_catalogue : catalogue c_text c_rows.
Proof.
  exists [s "# Type, x_deg, y_deg"; []; s "1, 89.9981, +0.0001, 0.0, 0.0, 0.0, 10.0, -0.1,     0.6, 80.0, 3e1, 0.0 # thin"; s "7,1"; s "2, 90.0026, +0.0000, 0.0, 0.0, 0.0, 10.0, 0.0,      0.5, 45.0, -20.0,  0.1"; []],
    [None; None; Some c_row1; Some [num1 7; num1 1]; Some c_row3; None].
  split; [discriminate|]. split; [repeat constructor; cbn; intuition discriminate|]. split; [reflexivity|]. split; [|reflexivity].
  constructor; [exists [], (s "# Type, x_deg, y_deg"); split; [constructor|]; split; [right; eexists; reflexivity|reflexivity]|].
  constructor; [exists [], []; split; [constructor|]; split; [now left|reflexivity]|].
  constructor.
  { split; [discriminate|]. split; [unfold c_row1; repeat (constructor; [num_goal|]); constructor|].
    exists [([], nth 0 c_row1 (num1 0), []); (s " ", nth 1 c_row1 (num1 0), []); (s " ", nth 2 c_row1 (num1 0), []); (s " ", nth 3 c_row1 (num1 0), []); (s " ", nth 4 c_row1 (num1 0), []); (s " ", nth 5 c_row1 (num1 0), []);
      (s " ", nth 6 c_row1 (num1 0), []); (s " ", nth 7 c_row1 (num1 0), []); (s "     ", nth 8 c_row1 (num1 0), []); (s " ", nth 9 c_row1 (num1 0), []); (s " ", nth 10 c_row1 (num1 0), []); (s " ", nth 11 c_row1 (num1 0), s " ")], (s "# thin").
    split; [reflexivity|]. split; [repeat (constructor; [split; cbn; repeat (constructor; auto)|]); constructor|]. split; [right; eexists; reflexivity|reflexivity]. }
  constructor.
  { apply (line1_says [7; 1]%nat); [discriminate|repeat (constructor; [lia|]); constructor]. }
  constructor.
  { split; [discriminate|]. split; [unfold c_row3; repeat (constructor; [num_goal|]); constructor|].
    exists [([], nth 0 c_row3 (num1 0), []); (s " ", nth 1 c_row3 (num1 0), []); (s " ", nth 2 c_row3 (num1 0), []); (s " ", nth 3 c_row3 (num1 0), []); (s " ", nth 4 c_row3 (num1 0), []); (s " ", nth 5 c_row3 (num1 0), []);
      (s " ", nth 6 c_row3 (num1 0), []); (s " ", nth 7 c_row3 (num1 0), []); (s "      ", nth 8 c_row3 (num1 0), []); (s " ", nth 9 c_row3 (num1 0), []); (s " ", nth 10 c_row3 (num1 0), []); (s "  ", nth 11 c_row3 (num1 0), [])], [].
    split; [reflexivity|]. split; [repeat (constructor; [split; cbn; repeat (constructor; auto)|]); constructor|]. split; [now left|reflexivity]. }
  constructor; [exists [], []; split; [constructor|]; split; [now left|reflexivity]|]. constructor.
Qed.

Ltac value := unfold num_value, dcm, num1, minus, frac_digits; cbn [n_sign n_int n_frac n_exp whole List.length]; try change (wholeZ [1%nat]) with 1%Z; cbn; try change (Pos.to_nat 1) with 1%nat; lra.
Lemma c_says : Forall2 row_says (map (map num_value) c_rows) c_entries.
Proof.
  constructor; [|constructor; [|constructor; [|constructor]]].
  - split; [discriminate|]. exists 1, []. split; [lra|]. split; [cbn; lia|]. cbn [map c_row1 head_row flat_map t_p t_psi t_RM t_var app h_x h_y h_maj h_min h_pa h_flux h_SI]. repeat (f_equal; [value|]). f_equal; value.
  - exists 7, [1]. split; [cbn [map]; rewrite !num1_value; cbn; repeat f_equal; lra|lra].
  - split; [discriminate|]. exists 2, [1 / 10]. split; [lra|]. split; [cbn; lia|]. cbn [map c_row3 head_row flat_map l_p l_psi l_RM app h_x h_y h_maj h_min h_pa h_flux h_SI]. repeat (f_equal; [value|]). f_equal; value.
Qed.
(** the second file is number three *)
Lemma c_numbers : file_numbers c_entries = [1; 3]%nat.
Proof. reflexivity. Qed.

(* ------------------------------------------------- one source, end to end *)

Definition u_row : list nat := [1; 0; 0; 0; 0; 0; 1; 0; 1; 0; 0; 0]%nat.
Definition u_entry : entry := Thin unit_head [mk_thin 1 0 0 0].
Definition u_c : R := 299792458.
Lemma u_catalogue : catalogue (line1 u_row) (map (map num1) [u_row]).
Proof. apply (small_catalogue [u_row]); [discriminate|]. constructor; [split; [discriminate|repeat (constructor; [lia|]); constructor]|constructor]. Qed.
Lemma u_says : Forall2 row_says (map (map num_value) (map (map num1) [u_row])) [u_entry].
Proof. rewrite small_values. constructor; [|constructor]. split; [discriminate|]. exists 1, []. split; [lra|]. split; [cbn; lia|]. reflexivity. Qed.
Lemma u_only : only_source [u_entry] unit_head (mk_thin 1 0 0 0).
Proof. split; reflexivity. Qed.
Definition u_sky : sky := mk_sky 2 3 1 2 20 (1 / 3) true.

Lemma u_channel0 : forall n, (2 <= n)%nat -> channel (u_c / 2) u_c n 0 = u_c / 2.
Proof. intros. unfold channel. simpl (INR 0). field. apply not_0_INR. lia. Qed.
Lemma u_channel1 : forall n, (2 <= n)%nat -> channel (u_c / 2) u_c n (n - 1) = u_c.
Proof. intros. unfold channel. field. apply not_0_INR. lia. Qed.
Lemma u_lsq0 : lsq (u_c / 2) = 4.
Proof. unfold lsq, u_c. field. Qed.
Lemma u_lsq1 : lsq u_c = 1.
Proof. unfold lsq, u_c. field. Qed.
Lemma no_flag : forall x, ~ flagged [] x.
Proof. intros x (r & [] & _). Qed.
(** the grid with the step 1/2 up to 1/2 *)
Lemma u_grid : forall phi h, odd_centred phi h (1 / 2) -> Rabs (INR h * Rabs (1 / 2) - Rabs (1 / 2)) <= Rabs (1 / 2) / 2 -> h = 1%nat /\ In 0 phi /\ forall d, In d phi -> Rabs (d - 0) * Rabs (4 - 1) < PI.
Proof.
  intros phi h [L O] H. rewrite (Rabs_pos_eq (1 / 2)) in H by lra. assert (h = 1)%nat as ->.
  { apply Rabs_le_between in H. destruct h as [|[|h]]; [simpl INR in H; lra|reflexivity|]. rewrite !S_INR in H. pose proof (pos_INR h). lra. }
  split; [reflexivity|]. split.
  - replace 0 with (nth 1 phi 0) by (rewrite O by lia; simpl INR; ring). apply nth_In. lia.
  - intros d Hd. destruct (In_nth _ _ 0 Hd) as (j & Hj & <-). rewrite O by exact Hj. assert (INR j <= 2) by (replace 2 with (INR 2) by reflexivity; apply le_INR; lia). pose proof (pos_INR j). simpl (INR 1).
    rewrite (Rabs_pos_eq (4 - 1)) by lra. assert (Rabs ((INR j - 1) * (1 / 2) - 0) <= 1 / 2) by (apply Rabs_le; lra). pose proof PI2_3_2. lra.
Qed.

Theorem u_map : forall gauss pos fit, exists F out f mx rm, create_IQU_cube_data true gauss pos (line1 u_row) (u_c / 2) u_c 2 0 u_sky (ones 2) [] (u_c / 2) = POk F /\
  rmsynth3d fit (cu_Q F) (cu_U F) (Some (cu_I F)) (cu_freq F) None (x_opts (1 / 2)) = POk out /\ o_fdf out = Some f /\ o_peak out = Some (mx, rm) /\
  forall y x, (y < 3)%nat -> (x < 2)%nat -> at_nd None rm [0; 0; y; x]%nat = Some 0.
Proof.
  intros gauss pos fit. assert (PC : 0 < u_c / 2 < u_c) by (unfold u_c; lra).
  assert (ON : forall c, (c < 2)%nat -> nth c (ones 2) None <> None) by (intros [|[|c]] L; [discriminate..|lia]).
  assert (K1 : 0 < k_pix u_sky) by (cbn; lra). assert (K2 : 0 < k_bmin u_sky) by (cbn; lra). assert (K3 : 0 < k_bmaj u_sky) by (cbn; lra).
  destruct (catalogue_to_map gauss pos (u_c / 2) u_c 2 u_sky (ones 2) [] (u_c / 2) (le_n 2) PC (proj1 PC) K1 K2 K3 ltac:(cbn; lia) ltac:(cbn; lia) ON (line1 u_row) _ _ unit_head (mk_thin 1 0 0 0) u_catalogue u_says u_only ltac:(cbn; lra) ltac:(cbn; lra)) as (F & E & T).
  destruct (cube_voxels gauss pos (u_c / 2) u_c 2 0 u_sky (ones 2) [] (u_c / 2) (fun _ => 1) (le_n 2) (proj1 PC) ltac:(lra) (Rle_refl 0) (proj1 PC) K1 K2 K3 (ones_at [] _ _ 2) (line1 u_row) _ _
    (fun _ l2 => thin 1 (rad 0) 0 l2) u_catalogue u_says) as (F' & E' & Ef & _ & _ & AI & AQ & AU & V).
  { intros e [<-|[]] _ l2. cbn [map t_p t_psi t_RM t_var]. rewrite Rmult_0_r, Rmult_0_l, exp_0. unfold csum. cbn. ring. }
  rewrite E in E'. injection E' as <-.
  pose proof (good_cubes u_sky 2 (u_c / 2) u_c F AI AQ AU Ef (le_n 2) ltac:(cbn; lia) ltac:(cbn; lia) PC) as GF.
  pose proof (x_good_opts (1 / 2) (cu_freq F) ltac:(lra)) as GO.
  destruct (files_ok (cu_Q F) (cu_U F) (Some (cu_I F)) 3 (cu_freq F) None (x_opts (1 / 2)) GF Logic.I GO fit) as (out & phi0 & h0 & step0 & RUN & (pm & (m1 & m2 & m3 & _ & _ & _ & E1 & E2) & OC & HH) & _ & _ & _ & FD & _).
  cbn [g_dPhi g_phiMax x_opts] in E1, E2. subst step0 pm. destruct (u_grid phi0 h0 OC HH) as (-> & IN & AL).
  destruct (FD eq_refl) as (f & mx0 & rm0 & OF & _ & _ & AX & AG & HF & _). clear FD.
  destruct (T (x_opts (1 / 2)) fit GO eq_refl) as (out' & f' & phi & mx & rm & RUN' & OF' & OP & AG' & TT). rewrite RUN in RUN'. injection RUN' as <-. rewrite OF in OF'. injection OF' as <-.
  exists F, out, f, mx, rm. do 4 (split; [assumption|]). intros y x Ly Lx.
  assert (phi = phi0) as ->.
  { destruct AG as [N0 G0], AG' as [N1 G1]. apply (nth_ext _ _ 0 0); [lia|]. intros j Hj. rewrite <- G1 by exact Hj. apply G0. lia. }
  set (p := fun a => nth (a - 1) [x; y; 0; 0]%nat 0%nat).
  assert (IM : in_image (i_naxis (f_image f)) p).
  { destruct AX as (_ & -> & _). destruct AQ as (_ & -> & _). intros a Ha. unfold with_len in *. rewrite map_length, seq_length in Ha. cbn [List.length] in Ha. destruct OC as [LO _].
    assert (a = 1 \/ a = 2 \/ a = 3 \/ a = 4)%nat as [->|[->|[->| ->]]] by lia; cbn [List.length seq map Nat.eqb len nth Nat.sub p u_sky k_nx k_ny]; lia. }
  destruct (HF p IM) as (i0 & RS & _).
  assert (SOME : exists v, i0 = Some v).
  { assert (IV : forall c, (c < 2)%nat -> exists v, vox None (cu_I F) (at_chan p 3 c) = Some v).
    { intros c Lc. rewrite (cell_vox u_sky 2 _ c p AI eq_refl). destruct (V c y x Lc Ly Lx) as [V1 _]. destruct (V1 (no_flag _)) as (V2 & _). eexists. exact V2. }
    destruct RS as (fr & _ & [(c & Lc & _ & Ev)|(c & Lc & _ & Ev)]); rewrite Ef, map_length, seq_length in Lc.
    - destruct (IV c Lc) as [v Hv]. rewrite Hv in Ev. eauto.
    - destruct (IV c ltac:(lia)) as [v Hv]. destruct (IV (S c) Lc) as [v' Hv']. rewrite Hv, Hv' in Ev. eauto. }
  destruct SOME as [v ->]. destruct (TT y x v Ly Lx IN) as (_ & R & _); [|exact RS|exact R].
  exists 0%nat, 1%nat. split; [lia|]. split; [lia|]. split; [apply no_flag|]. split; [apply no_flag|]. rewrite (u_channel0 2) by lia. rewrite (u_channel1 2 (le_n 2) : channel (u_c / 2) u_c 2 1 = u_c).
  rewrite u_lsq0, u_lsq1. split; [lra|exact AL].
Qed.

(** the same source in a file of three channels, with its Stokes I as the table *)
Definition u_opts : run_opts := mk_opts 2 (Some (1 / 2)) (Some (1 / 2)) 10 false false false (Some [1; 1; 1]) Linear false.
Lemma u_good_opts : good_opts e_mpfit u_opts 3.
Proof. split; [discriminate|]. split; [discriminate|]. intros m E. injection E as <-. reflexivity. Qed.

Lemma u_source : forall n k, (2 <= n)%nat -> (k < n)%nat -> source_I unit_head (u_c / 2) (channel (u_c / 2) u_c n k) = 1.
Proof.
  intros n k N L. assert (PC : 0 < u_c / 2 < u_c) by (unfold u_c; lra). unfold source_I, unit_head. cbn [h_flux h_SI].
  rewrite Rpower_O by (apply Rdiv_lt_0_compat; [apply channel_pos; lra || lia|lra]). ring.
Qed.

Theorem u_run : exists files f rs d out, create_IQU_ascii_data (fun _ _ _ => 0) (line1 u_row) (u_c / 2) u_c 3 0 (ones 3) [] None = POk files /\ In f files /\ a_number f = 1%nat /\ a_rows f = Some rs /\ readFile rs = POk d /\
  run_rmsynth e_mpfit e_fit d u_opts = POk out /\
  (forall j, (j < 3)%nat -> stokes_model u_opts (r_fit out) (map (channel (u_c / 2) u_c 3) (seq 0 3)) j = source_I unit_head (u_c / 2) (channel (u_c / 2) u_c 3 j)) /\
  phiPeakPIfit (r_parms out) = Some 0.
Proof.
  assert (PC : 0 < u_c / 2 < u_c) by (unfold u_c; lra). assert (N2 : (2 <= 3)%nat) by lia.
  assert (ON : forall c, (c < 3)%nat -> nth c (ones 3) None <> None) by (intros [|[|[|c]]] L; [discriminate..|lia]).
  destruct (catalogue_to_spectrum (fun _ _ _ => 0) (u_c / 2) u_c 3 (ones 3) None N2 PC ltac:(discriminate) ON (line1 u_row) _ _ 0%nat unit_head (mk_thin 1 0 0 0) u_catalogue u_says eq_refl eq_refl ltac:(cbn; lra) ltac:(cbn; lra))
    as (files & f & rs & d & E & If & Nf & Er & Ed & T).
  destruct (ascii_files (fun _ _ _ => 0) (u_c / 2) u_c 3 0 (ones 3) [] None (fun _ => 1) N2 (proj1 PC) (Rlt_trans _ _ _ (proj1 PC) (proj2 PC)) (Rle_refl 0) ltac:(discriminate) (ones_at [] _ _ 3) (line1 u_row) _ _ u_catalogue u_says) as (files' & E' & Nm & G).
  rewrite E in E'. injection E' as <-.
  destruct (G 0%nat _ unit_head eq_refl eq_refl) as (g & Ig & Ng & rs' & Er' & Lr & A).
  assert (g = f).
  { assert (L : List.length files = 1%nat) by (rewrite <- (map_length a_number files), Nm; reflexivity). destruct files as [|a [|]]; cbn in L; try lia. destruct If as [<-|[]], Ig as [<-|[]]. reflexivity. }
  subst g. rewrite Er in Er'. injection Er' as <-.
  assert (RW : forall k, (k < 3)%nat -> nth k rs [] = [Some (channel (u_c / 2) u_c 3 k); Some 1; Some 1; Some 0; Some 0; Some 0; Some 0]).
  { intros k Lk. destruct (A (fun _ => RtoC 1)) with (k := k) as [_ A2]; [|exact Lk|].
    - intros l2. cbn [map t_p t_psi t_RM t_var]. unfold csum, thin, rad. cbn [fold_right]. replace (2 * (0 * PI / 180 + 0 * l2)) with 0 by field. rewrite Rmult_0_r, Rmult_0_l, exp_0, cis_0. ring.
    - rewrite (A2 (no_flag _)). unfold source_QU. rewrite u_source by lia. unfold Cmult, RtoC. cbn [fst snd]. repeat f_equal; ring. }
  set (freq := map (channel (u_c / 2) u_c 3) (seq 0 3)).
  assert (RS : rs = [nth 0 rs []; nth 1 rs []; nth 2 rs []]) by (destruct rs as [|r0 [|r1 [|r2 [|]]]]; cbn in Lr; try lia; reflexivity).
  assert (CD : d = Data7 freq [Some 1; Some 1; Some 1] [Some 1; Some 1; Some 1] [Some 0; Some 0; Some 0] [Some 0; Some 0; Some 0] [Some 0; Some 0; Some 0] [Some 0; Some 0; Some 0]).
  { rewrite !RW in RS by lia. rewrite RS in Ed. cbn in Ed. injection Ed as <-. reflexivity. }
  assert (PF : forall x, In x freq -> 0 < x) by (intros x Hx; apply in_map_iff in Hx; destruct Hx as (j & <- & Hj); apply in_seq in Hj; apply channel_pos; lra || lia).
  assert (INC : forall i j, (i < j)%nat -> (j < 3)%nat -> channel (u_c / 2) u_c 3 i < channel (u_c / 2) u_c 3 j) by (intros; apply channel_incr; lra || lia).
  pose proof (INC 0 1 ltac:(lia) ltac:(lia))%nat as I01. pose proof (INC 1 2 ltac:(lia) ltac:(lia))%nat as I12.
  destruct (run_succeeds e_mpfit e_fit d u_opts freq [Some 1; Some 1; Some 1] [Some 1; Some 1; Some 1] [Some 0; Some 0; Some 0] [Some 0; Some 0; Some 0] [Some 0; Some 0; Some 0] [Some 0; Some 0; Some 0] (fun _ => 1)) as (out & RUN & MD).
  { split; [left; eexists _, _; split; [exact CD|split; reflexivity]|]. do 6 (split; [reflexivity|]). exact PF. }
  { exact u_good_opts. }
  { cbn. intros [|[|[|j]]] Hj; [reflexivity..|cbn in Hj; lia]. }
  { split; [exists (channel (u_c / 2) u_c 3 0), (channel (u_c / 2) u_c 3 1); cbn; split; [auto|]; split; [auto|lra]|]. split.
    { intros m _. split; [|reflexivity]. cbn [freq map seq]. unfold freq. cbn [map seq]. repeat (constructor; [cbn; lra|]). constructor. }
    split; [discriminate|]. cbn [o_variance u_opts].
    assert (UC : used_chans freq [Some 1; Some 1; Some 1] [Some 0; Some 0; Some 0] (fun _ => 1) (map (fun j => chan_weight false (nth j [Some 0; Some 0; Some 0] None) (nth j [Some 0; Some 0; Some 0] None) 1) (seq 0 (List.length freq))) =
      map (fun k => mk_chan (lsq (nth k freq 0)) 1 (RtoC 1)) [0; 1; 2]%nat).
    { unfold used_chans, freq. cbn [List.length map seq flat_map nth app chan_weight]. destruct (Req_EM_T 1 0); [lra|]. cbn [app]. unfold RtoC. repeat f_equal; field. }
    rewrite UC. assert (W3 : wsum (map (fun k => mk_chan (lsq (nth k freq 0)) 1 (RtoC 1)) [0; 1; 2]%nat) = 3) by (unfold wsum, rsum; cbn; ring).
    split; [lra|]. intros step pm (m1 & m2 & m3 & _ & _ & _ & E1 & E2). cbn in E1, E2. subst. split; [lra|]. rewrite Rabs_pos_eq by lra. split; [lra|]. exists 0%Z. rewrite Rabs_R0. split; [lra|].
    unfold FDF_spec. rewrite W3. cbn [map c_w c_P c_l2]. unfold csum. cbn [fold_right]. intros X. apply (f_equal fst) in X. revert X.
    repeat match goal with |- context [cis (-2 * (IZR 0 * (1 / 2)) * ?y)] => replace (-2 * (IZR 0 * (1 / 2)) * y) with 0 by (simpl; ring) end. rewrite cis_0. cbn. intros X. field_simplify in X. lra. }
  destruct (T e_mpfit e_fit u_opts out u_good_opts eq_refl RUN) as (_ & TT). fold freq in TT. exists files, f, rs, d, out. do 6 (split; [assumption|]). fold freq.
  assert (MD' : forall j, (j < 3)%nat -> stokes_model u_opts (r_fit out) freq j = source_I unit_head (u_c / 2) (channel (u_c / 2) u_c 3 j)) by (intros j Lj; rewrite MD by (cbn; lia); now rewrite u_source by lia).
  split; [exact MD'|].
  assert (GI : good_input d (o_noStokesI u_opts) freq [Some 1; Some 1; Some 1] [Some 1; Some 1; Some 1] [Some 0; Some 0; Some 0] [Some 0; Some 0; Some 0] [Some 0; Some 0; Some 0] [Some 0; Some 0; Some 0]).
  { split; [left; eexists _, _; split; [exact CD|split; reflexivity]|]. do 6 (split; [reflexivity|]). exact PF. }
  destruct (run_refines _ _ _ _ _ _ _ _ _ _ _ _ GI u_good_opts RUN) as (h & st & pm & I0 & (m1 & m2 & m3 & _ & _ & _ & EE) & OC & OH & _ & _ & _ & _ & _ & _ & _ & _ & _ & EI & _).
  cbv zeta in EE. cbn [o_dPhi o_phiMax u_opts] in EE. destruct EE as [-> ->]. destruct (u_grid _ _ OC OH) as (-> & IN & AL).
  destruct (run_table_interpolates e_mpfit e_fit _ _ _ _ _ _ _ _ _ _ _ GI u_good_opts RUN eq_refl) as (i & j & Hi & Hj & _ & _ & _ & EI0).
  { unfold freq. cbn [map seq]. repeat (constructor; [cbn; lra|]). constructor. }
  assert (VV : forall k, (k < 3)%nat -> nth k [1; 1; 1] 0 = 1) by (intros [|[|[|k]]] Hk; [reflexivity..|lia]).
  rewrite (VV i Hi), (VV j Hj) in EI0.
  destruct (TT MD' 1%nat (1 / 2) 1%nat 0%nat 2%nat) with (I0 := 1) as (R & _); try lia; try lra.
  - exact OC.
  - destruct OC as [L _]. rewrite L. lia.
  - destruct OC as [L O]. rewrite O by lia. cbn. ring.
  - rewrite (u_channel0 3) by lia. rewrite (u_channel1 3 N2 : channel (u_c / 2) u_c 3 2 = u_c). rewrite u_lsq0, u_lsq1. exact AL.
  - rewrite EI0. f_equal. unfold Rdiv. ring.
  - exact R.
Qed.
