(** Examples for the 3-D tool: three channels, six pixels, and a cube of one
    pixel with a channel without U. *)
From Coq Require Import Reals List Arith ZArith Bool Ascii String Lra Lia Permutation.
Set Warnings "-ambiguous-paths".
From Coquelicot Require Import Coquelicot.
From Verif Require Import CBase PyRes PyStr PyStr_Proofs PyList NdArray NdIndex CleanTop_Model Synth_Model Synth_Spec Synth_Proofs Synth_Laws Setup_Model Setup_Spec Setup_Proofs Cube_Model Cube_Spec Cube_Proofs Cube_Laws
  StokesI_Model Measure_Model Clean_Grid Run1D_Model Run1D_Spec Run1D_Proofs Run1D_Laws Run1D_Refute Pixfit_Model Pixfit_Spec Pixfit_Proofs Pixfit_Laws
  Run3D_Model Run3D_Spec Run3D_Proofs Run3D_Laws Run3D_Total Run3D_Thin Run3D_Refute.
Import ListNotations.
Local Open Scope R_scope.

Definition x_ctype : list (option str) := [Some (s "RA---SIN"); Some (s "DEC--SIN"); Some (s "FREQ")].
Definition x_image (v : option R) : image (option R) := mk_image [2; 3; 3]%nat x_ctype (mk_nd [3; 3; 2]%nat (repeat v 18)).
Definition x_freq : list R := [299792458 / 3; 299792458 / 2; 299792458].
Definition x_opts (step : R) : opts3 := mk_opts3 (Some step) (Some step) 10 false false false false false.

Lemma x_wf : forall v, wf_image (x_image v).
Proof. intros. split; [reflexivity|]. split; reflexivity. Qed.
Lemma x_axis : spectral_axis (s "FREQ") x_ctype 3.
Proof. split; [cbn; lia|]. split; [intros j Hj; cbn in Hj; lia|]. left. apply hit_iff; [apply caps_FREQ|reflexivity]. Qed.
Lemma x_no_depth : forall b, (1 <= b <= 3)%nat -> b <> 3%nat -> ~ mentions (s "FDEP") (nth (b - 1) x_ctype None).
Proof.
  intros b Hb Hn M. apply hit_iff in M; [|apply caps_FDEP]. assert (b = 1 \/ b = 2)%nat as [-> | ->] by lia; cbn in M; discriminate.
Qed.
Lemma x_vox : forall v p, vox None (x_image v) p = v \/ vox None (x_image v) p = None.
Proof.
  intros v p. unfold vox, at_nd. cbn [i_data x_image flat shape i_naxis List.length]. set (ix := ravel _ _). generalize ix. intros i.
  destruct (Nat.lt_ge_cases i 18) as [L|L]; [left; rewrite nth_error_nth with (x := v); [reflexivity|]; now apply nth_error_repeat|right; apply nth_overflow; now rewrite repeat_length].
Qed.
Lemma x_vox_in : forall v p, in_image [2; 3; 3]%nat p -> vox None (x_image v) p = v.
Proof.
  intros v p H. unfold vox, at_nd. cbn [i_data x_image flat shape i_naxis List.length]. apply nth_error_nth. apply nth_error_repeat.
  apply (ravel_lt [3; 3; 2]%nat). cbn [rev seq app map].
  pose proof (H 1%nat) as H1. pose proof (H 2%nat) as H2. pose proof (H 3%nat) as H3. cbn in H1, H2, H3. constructor; [lia|]. constructor; [lia|]. constructor; [lia|]. constructor.
Qed.

Lemma x_good : forall q u i, good_files (x_image q) (x_image u) (Some (x_image i)) 3 x_freq.
Proof.
  intros q u i. repeat (split; [first [apply x_wf|apply x_axis|reflexivity]|]).
  split. { intros a Ha Hn. cbn in Ha. assert (a = 1 \/ a = 2)%nat as [-> | ->] by lia; discriminate. }
  split; [reflexivity|]. split; [cbn; lia|].
  split. { intros a Ha. cbn in Ha. assert (a = 1 \/ a = 2 \/ a = 3)%nat as [-> |[-> | ->]] by lia; cbn; lia. }
  split. { intros f I. repeat destruct I as [<-|I]; try lra. destruct I. }
  split; [exists 299792458, (299792458 / 2); cbn; split; [auto|]; split; [auto|lra]|].
  split; [apply x_wf|]. split; [reflexivity|]. split; [apply x_axis|].
  split. { intros a b Hab. cbn in Hab. assert (a = 0 /\ b = 1 \/ a = 0 /\ b = 2 \/ a = 1 /\ b = 2)%nat as [[-> ->]|[[-> ->]|[-> ->]]] by lia; cbn; lra. }
  exists 1%nat, 2%nat. split; [reflexivity|]. cbn. lia.
Qed.
Lemma x_good_opts : forall step freq, 0 < step -> good_opts3 (x_opts step) freq.
Proof.
  intros step freq H. split; [left; reflexivity|]. intros st pm (mx & mn & gap & _ & _ & _ & E). cbv zeta in E. cbn in E. destruct E as [-> ->]. rewrite Rabs_pos_eq by lra. lra.
Qed.

(** A source of half of Stokes I at depth zero: the hypotheses of the theorems on thin sources. *)
Lemma x_thin : forall p, thin_at (x_image (Some 1)) (x_image (Some 0)) (Some (x_image (Some 2))) 3 x_freq p (1 / 2) 0 0.
Proof.
  intros p j P Hj E. unfold frac_vox, stokes_vox in E. set (pt := at_chan p 3 j) in *.
  destruct (x_vox (Some 1) pt) as [E1|E1]; rewrite E1 in E; [|discriminate]. destruct (x_vox (Some 0) pt) as [E2|E2]; rewrite E2 in E; [|discriminate].
  destruct (x_vox (Some 2) pt) as [E3|E3]; rewrite E3 in E; [|discriminate]. destruct (Req_EM_T 2 0); [lra|]. injection E as <-.
  rewrite Rmult_0_l, Rplus_0_r, Rmult_0_r. rewrite cis_0. apply injective_projections; cbn; field.
Qed.
Lemma x_frac : forall p, in_image [2; 3; 3]%nat p -> frac_vox (x_image (Some 1)) (x_image (Some 0)) (Some (x_image (Some 2))) p = Some (1 / 2, 0 / 2).
Proof. intros p H. unfold frac_vox, stokes_vox. rewrite !x_vox_in by exact H. destruct (Req_EM_T 2 0); [lra|reflexivity]. Qed.
Lemma x_tells : forall phi p, (p 1 < 2)%nat -> (p 2 < 3)%nat -> (forall f, In f phi -> Rabs f <= 1) ->
  tells (x_image (Some 1)) (x_image (Some 0)) (Some (x_image (Some 2))) 3 x_freq (fun _ => 1) phi p 0.
Proof.
  intros phi p H1 H2 Hf. exists 2%nat, 1%nat.
  assert (IN : forall j, (j < 3)%nat -> in_image [2; 3; 3]%nat (at_chan p 3 j)).
  { intros j Hj a Ha. cbn in Ha. unfold at_chan. assert (a = 1 \/ a = 2 \/ a = 3)%nat as [-> |[-> | ->]] by lia; cbn; lia. }
  split; [cbn; lia|]. split; [cbn; lia|]. split; [rewrite x_frac by (apply IN; lia); discriminate|]. split; [rewrite x_frac by (apply IN; lia); discriminate|].
  cbn [nth x_freq]. rewrite e_lsq1, e_lsq by lra. split; [lra|]. split; [lra|]. split; [lra|]. intros f If. rewrite Rminus_0_r. specialize (Hf f If).
  replace (1 - 2 ^ 2) with (-3) by ring. rewrite (Rabs_left (-3)) by lra. assert (3 < PI); [|pose proof (Rabs_pos f); nra].
  pose proof PI2_3_2. pose proof PI_RGT_0. lra.
Qed.
Lemma x_weight : forall step j, weight3 (x_opts step) None j = 1.
Proof. reflexivity. Qed.

Theorem x_run : forall fit, exists out f g fw phi h, rmsynth3d fit (x_image (Some 1)) (x_image (Some 0)) (Some (x_image (Some 2))) x_freq None (x_opts (1 / 2)) = POk out /\
  o_fdf out = Some f /\ o_rmsf out = Some (g, fw) /\ grid3 (x_opts (1 / 2)) x_freq phi h (1 / 2) /\ (1 <= h)%nat.
Proof.
  intros fit. destruct (files_ok _ _ _ _ _ None (x_opts (1 / 2)) (x_good (Some 1) (Some 0) (Some 2)) Logic.I (x_good_opts (1 / 2) x_freq ltac:(lra)) fit)
    as (out & phi & h & step & R & G & Hh & _ & _ & A & B). destruct (A eq_refl) as (f & mx & rm & EF & _). destruct (B eq_refl) as (g & fw & phi2 & EG & _).
  exists out, f, g, fw, phi, h. assert (step = 1 / 2) as -> by (destruct G as (pm & (? & ? & ? & _ & _ & _ & E & _) & _); exact E). auto.
Qed.

(** The spread function is that of the channels with Q, whatever U is. *)
Definition y_ctype := x_ctype.
Definition y_image (a b c : option R) : image (option R) := mk_image [1; 1; 3]%nat x_ctype (mk_nd [3; 1; 1]%nat [a; b; c]).
Lemma y_good : forall a b c a' b' c', good_files (y_image a b c) (y_image a' b' c') None 3 e_freq.
Proof.
  intros. repeat (split; [first [apply x_axis|split; [reflexivity|]; split; reflexivity|reflexivity]|]).
  split. { intros j Ha Hn. cbn in Ha. assert (j = 1 \/ j = 2)%nat as [-> | ->] by lia; discriminate. }
  split; [reflexivity|]. split; [cbn; lia|].
  split. { intros j Ha. cbn in Ha. assert (j = 1 \/ j = 2 \/ j = 3)%nat as [-> |[-> | ->]] by lia; cbn; lia. }
  split. { intros f I. repeat destruct I as [<-|I]; try lra. destruct I. }
  split; [exists 299792458, (299792458 / 2); cbn; split; [auto|]; split; [auto|lra]|exact Logic.I].
Qed.
Lemma y_vox : forall a b c p j, in_image [1; 1; 3]%nat (at_chan p 3 j) -> vox None (y_image a b c) (at_chan p 3 j) = nth j [a; b; c] None.
Proof.
  intros a b c p j H. pose proof (H 1%nat) as H1. pose proof (H 2%nat) as H2. unfold at_chan in *. cbn in H1, H2. unfold vox, at_nd. cbn.
  assert (p 1%nat = 0 /\ p 2%nat = 0)%nat as [-> ->] by lia. now replace (j * 1 + (0 * 1 + (0 * 1 + 0)))%nat with j by lia.
Qed.

Lemma rsum_Permutation : forall l l', Permutation l l' -> rsum l = rsum l'.
Proof. intros l l' H. induction H; rewrite ?rsum_cons; try lra. Qed.

Theorem rmsf3_refuted : forall fit, exists Q U k freq rms o out g fw phi2 p, good_files Q U None k freq /\ good_rms o rms (List.length freq) /\ good_opts3 o freq /\
  rmsynth3d fit Q U None freq rms o = POk out /\ o_rmsf out = Some (g, fw) /\ axis_gives (f_axis g) phi2 /\ in_image (i_naxis (f_image g)) p /\
  let chs := sky_chans Q U None k freq (weight3 o rms) p in
  wsum chs = 2 /\ RMSF_spec chs (f_lamsq0 g) (nth (p k) phi2 0) = RtoC 0 /\ vox None (f_image g) p <> Some (RtoC 0).
Proof.
  intros fit. assert (P2 : 0 < PI / 2) by (pose proof PI_RGT_0; lra).
  set (Q := y_image (Some 1) (Some 1) (Some 1)). set (U := y_image (Some 0) (Some 0) None). set (o := x_opts (PI / 2)).
  pose proof (y_good (Some 1) (Some 1) (Some 1) (Some 0) (Some 0) None : good_files Q U None 3 e_freq) as GF. pose proof (x_good_opts (PI / 2) e_freq P2 : good_opts3 o e_freq) as GO.
  destruct (files_ok Q U None 3 e_freq None o GF Logic.I GO fit) as (out & phi & h & step & R & G & Hh & _ & _ & _ & B).
  destruct (B eq_refl) as (g & fw & phi2 & EG & [L2 O2] & RL & _ & AX & AG & HG & _). cbn [g_not_rmsynth o x_opts] in *.
  assert (step = PI / 2) as -> by (destruct G as (pm & (? & ? & ? & _ & _ & _ & E & _) & _); exact E).
  set (p := at_chan (fun _ => 0%nat) 3 (S (2 * h + 1))).
  assert (IN : forall j, (j < 3)%nat -> in_image [1; 1; 3]%nat (at_chan p 3 j)).
  { intros j Hj a Ha. cbn in Ha. unfold at_chan, p, at_chan. assert (a = 1 \/ a = 2 \/ a = 3)%nat as [-> |[-> | ->]] by lia; cbn; lia. }
  assert (FV : forall q j, in_image [1; 1; 3]%nat (at_chan q 3 j) -> frac_vox Q U None (at_chan q 3 j) = nth j [Some (1 / 1, 0 / 1); Some (1 / 1, 0 / 1); None] None).
  { intros q j Hj. unfold frac_vox, stokes_vox, Q, U. rewrite !y_vox by exact Hj. destruct (Req_EM_T 1 0); [lra|]. destruct j as [|[|[|j]]]; try reflexivity. now destruct j. }
  assert (EC : sky_chans Q U None 3 e_freq (weight3 o None) p = [mk_chan 1 1 (1 / 1, 0 / 1); mk_chan (2 ^ 2) 1 (1 / 1, 0 / 1)]).
  { unfold sky_chans. cbn [e_freq List.length seq flat_map]. rewrite !FV by (apply IN; lia). cbn [nth app weight3]. unfold e_freq. cbn [nth].
    rewrite e_lsq1, !e_lsq by lra. reflexivity. }
  assert (EQ : sky_q_chans Q 3 e_freq (weight3 o None) p = [mk_chan 1 1 (RtoC 0); mk_chan (2 ^ 2) 1 (RtoC 0); mk_chan (3 ^ 2) 1 (RtoC 0)]).
  { unfold sky_q_chans. cbn [e_freq List.length seq flat_map]. unfold Q. rewrite !y_vox by (apply IN; lia). cbn [nth app weight3]. unfold e_freq. cbn [nth].
    rewrite e_lsq1, !e_lsq by lra. reflexivity. }
  assert (EL : f_lamsq0 g = 5 / 2).
  { destruct RL as (L & ND & HL & _ & M). assert (PM : Permutation L [0; 1]%nat).
    { apply NoDup_Permutation; [exact ND|repeat constructor; cbn; intuition discriminate|]. intros j. rewrite HL. split.
      - intros [Hj (q & Iq & Fq)]. rewrite FV in Fq by exact Iq. destruct j as [|[|[|j]]]; cbn in Fq |- *; try tauto. cbn in Hj. lia.
      - intros Ij. assert (j = 0 \/ j = 1)%nat as Ej by (cbn in Ij; intuition). split; [cbn; lia|]. exists p. split; [apply IN; lia|]. rewrite FV by (apply IN; lia). destruct Ej as [-> | ->]; discriminate. }
    rewrite (rsum_Permutation _ _ (Permutation_map _ PM)) in M. rewrite (rsum_Permutation _ _ (Permutation_map _ PM)) in M. unfold e_freq in M. cbn [map weight3 nth] in M.
    rewrite !rsum_cons, !rsum_nil, e_lsq1, e_lsq in M by lra. rewrite M by lra. field. }
  exists Q, U, 3%nat, e_freq, None, o, out, g, fw, phi2, p. split; [exact GF|]. split; [exact Logic.I|]. split; [exact GO|]. split; [exact R|]. split; [exact EG|]. split; [exact AG|].
  assert (IG : in_image (i_naxis (f_image g)) p).
  { destruct AX as (_ & EN & _). rewrite EN. intros a Ha. cbn in Ha. unfold p, at_chan, with_len. assert (a = 1 \/ a = 2 \/ a = 3)%nat as [-> |[-> | ->]] by lia; cbn; lia. }
  split; [exact IG|]. cbv zeta.
  assert (V : nth (p 3%nat) phi2 0 = PI / 2).
  { unfold p, at_chan. cbn [Nat.eqb]. rewrite O2 by lia. rewrite S_INR. ring. }
  rewrite V, EC, EL. split; [unfold wsum; cbn [map c_w]; rewrite !rsum_cons, rsum_nil; ring|]. split.
  - unfold RMSF_spec, wsum. cbn [map c_w c_l2]. rewrite !csum_cons, csum_nil, !rsum_cons, rsum_nil.
    replace (-2 * (PI / 2) * (1 - 5 / 2)) with (PI / 2 + PI) by field. replace (-2 * (PI / 2) * (2 ^ 2 - 5 / 2)) with (- (PI / 2 + PI)) by field. unfold cis.
    rewrite cos_neg, sin_neg, neg_cos, neg_sin, cos_PI2, sin_PI2. apply injective_projections; cbn; field; lra.
  - specialize (HG p IG). cbv zeta in HG. fold o in HG. rewrite EQ, EL, V in HG. rewrite HG by (unfold wsum; cbn [map c_w]; rewrite !rsum_cons, rsum_nil; lra).
    match goal with |- Some ?z <> _ => assert (E : snd z = - / 3) end.
    { unfold RMSF_spec, wsum. cbn [map c_w c_l2]. rewrite !csum_cons, csum_nil, !rsum_cons, rsum_nil.
      replace (-2 * (PI / 2) * (1 - 5 / 2)) with (PI / 2 + PI) by field. replace (-2 * (PI / 2) * (2 ^ 2 - 5 / 2)) with (- (PI / 2 + PI)) by field.
      replace (-2 * (PI / 2) * (3 ^ 2 - 5 / 2)) with (- (PI / 2 + 2 * INR 3 * PI)) by (simpl INR; field). unfold cis.
      rewrite !cos_neg, !sin_neg, cos_period, sin_period, neg_cos, neg_sin, cos_PI2, sin_PI2. cbn. field. }
    intros X. apply (f_equal (fun t => match t with Some z => snd z | None => 0 end)) in X. rewrite E in X. cbn in X. lra.
Qed.

(** Images, spectra and maps of a thin source at depth zero in all six pixels. *)
Theorem x_maps : forall fit, exists out f g fw m, rmsynth3d fit (x_image (Some 1)) (x_image (Some 0)) (Some (x_image (Some 2))) x_freq None (x_opts (1 / 2)) = POk out /\
  o_fdf out = Some f /\ o_rmsf out = Some (g, fw) /\
  peakfit_files (f_image f) (f_axis f) fw x_freq (f_lamsq0 f) (names [Pphi; Pamp]) None (Some (x_image (Some 2))) (Some true) = POk m /\
  forall x y, (x < 2)%nat -> (y < 3)%nat -> exists rm amp, In (s (product_name Pphi), rm) m /\ In (s (product_name Pamp), amp) m /\ at_nd None rm [y; x] = Some 0 /\ at_nd None amp [y; x] = Some (2 * (1 / 2)).
Proof.
  intros fit. set (Q := x_image (Some 1)). set (U := x_image (Some 0)). set (V := x_image (Some 2)). set (o := x_opts (1 / 2)).
  pose proof (x_good (Some 1) (Some 0) (Some 2) : good_files Q U (Some V) 3 x_freq) as GF. pose proof (x_good_opts (1 / 2) x_freq ltac:(lra) : good_opts3 o x_freq) as GO.
  destruct (files_ok Q U (Some V) 3 x_freq None o GF Logic.I GO fit) as (out & phi & h & step & R & G & Hh & _ & _ & A & B).
  destruct (A eq_refl) as (f & mx & rm & EF & _ & RL & AX & _ & HF & _). destruct (B eq_refl) as (g & fw & phi2 & EG & _).
  assert (FV : forall q j, in_image [2; 3; 3]%nat (at_chan q 3 j) -> frac_vox Q U (Some V) (at_chan q 3 j) = Some (1 / 2, 0 / 2)) by (intros q j; apply x_frac).
  assert (IN : forall x y j, (x < 2)%nat -> (y < 3)%nat -> (j < 3)%nat -> in_image [2; 3; 3]%nat (at_chan (fun a => if (a =? 1)%nat then x else y) 3 j)).
  { intros x y j Hx Hy Hj a Ha. cbn in Ha. unfold at_chan. assert (a = 1 \/ a = 2 \/ a = 3)%nat as [-> |[-> | ->]] by lia; cbn; lia. }
  assert (L0 : 0 < f_lamsq0 f).
  { cbn in RL. destruct RL as (L & ND & HL & _ & M). assert (PM : Permutation L [0; 1; 2]%nat).
    { apply NoDup_Permutation; [exact ND|repeat constructor; cbn; intuition discriminate|]. intros j. rewrite HL. split.
      - intros [Hj _]. cbn in Hj |- *. lia.
      - intros Ij. assert (j < 3)%nat by (cbn in Ij; lia). split; [assumption|]. exists (fun a => if (a =? 1)%nat then 0%nat else 0%nat). split; [apply IN; lia|]. fold Q U V. rewrite FV by (apply IN; lia). discriminate. }
    rewrite (rsum_Permutation _ _ (Permutation_map _ PM)) in M. rewrite (rsum_Permutation _ _ (Permutation_map _ PM)) in M. unfold x_freq in M. cbn [map weight3 nth] in M.
    rewrite !rsum_cons, !rsum_nil, e_lsq1, !e_lsq in M by lra. rewrite M by lra. lra. }
  destruct (thin_maps Q U (Some V) 3 x_freq None o GF Logic.I GO fit out f g fw [Pphi; Pamp] None true 2%nat 1%nat R EF EG eq_refl x_no_depth Logic.I (fun _ => L0)) as (ph & h' & st & G' & M).
  assert (st = 1 / 2) as -> by (destruct G' as (pm & (? & ? & ? & _ & _ & _ & E & _) & _); exact E).
  destruct (M ltac:(lra)) as (m & EM & _ & T). exists out, f, g, fw, m. split; [exact R|]. split; [exact EF|]. split; [exact EG|]. split; [exact EM|].
  intros x y Hx Hy. destruct G' as (pm & (? & ? & ? & _ & _ & _ & _ & EP) & [LP OP] & HP). cbn in EP. rewrite EP, (Rabs_pos_eq (1 / 2)) in HP by lra.
  assert (h' = 1)%nat as ->.
  { apply Rabs_le_between in HP. destruct h' as [|[|h']]; [cbn in HP; lra|reflexivity|]. rewrite !S_INR in HP. pose proof (pos_INR h'). nra. }
  set (p := fun a => if (a =? 1)%nat then x else if (a =? 2)%nat then y else 0%nat).
  assert (IP : in_image (i_naxis (f_image f)) p).
  { destruct AX as (_ & EN & _). rewrite EN. intros a Ha. cbn in Ha. unfold p, with_len. assert (a = 1 \/ a = 2 \/ a = 3)%nat as [-> |[-> | ->]] by lia; cbn; try lia.
    destruct G as (? & _ & [LG _] & _). rewrite LG. lia. }
  assert (I3 : forall j, (j < 3)%nat -> in_image [2; 3; 3]%nat (at_chan p 3 j)).
  { intros j Hj a Ha. cbn in Ha. unfold at_chan, p. assert (a = 1 \/ a = 2 \/ a = 3)%nat as [-> |[-> | ->]] by lia; cbn; lia. }
  assert (RV : ref_stokes3 x_freq (f_lamsq0 f) (Some V) 3 p (Some 2)).
  { destruct (HF p IP) as (i0 & (f0 & RF & RV) & _). exists f0. split; [exact RF|].
    destruct RV as [(j & Hj & Ej & Vj)|(j & Hj & Ej & Vj)]; [left|right]; exists j; (split; [exact Hj|]; split; [exact Ej|]).
    - unfold V. rewrite x_vox_in; [reflexivity|now apply I3].
    - unfold V. rewrite !x_vox_in; [|now apply I3|apply I3; cbn in Hj; lia]. f_equal. field. }
  destruct (T p (1 / 2) 0 0 2 1%nat IP (x_thin p)) as (S1 & S2 & _); try lra.
  - rewrite LP. lia.
  - rewrite OP by lia. cbn. ring.
  - unfold o. apply x_tells; [unfold p; cbn; lia|unfold p; cbn; lia|]. intros t It. destruct (In_nth _ _ 0 It) as (j & Hj & <-). rewrite OP by lia. rewrite LP in Hj.
    assert (j = 0 \/ j = 1 \/ j = 2)%nat as [-> |[-> | ->]] by lia; cbn; apply Rabs_le_between; lra.
  - exact RV.
  - destruct (S1 ltac:(now left)) as (m1 & I1 & V1). destruct (S2 ltac:(right; now left)) as (m2 & I2 & V2). exists m1, m2. auto.
Qed.

(** One pixel of three channels, in the cube and as a text file. *)
Theorem y_same : forall fit, exists out f out1 I1 j1, let p := fun _ : nat => 0%nat in let Q := y_image (Some 1) (Some 1) (Some 1) in let U := y_image (Some 0) (Some 0) None in
  rmsynth3d fit Q U None e_freq None (x_opts (1 / 2)) = POk out /\ o_fdf out = Some f /\ run_rmsynth e_mpfit e_fit (e_data None) (e_opts (1 / 2)) = POk out1 /\
  in_image (i_naxis (f_image f)) p /\ (j1 < List.length (r_phi out1))%nat /\
  (forall j, (j < List.length e_freq)%nat -> nth j [Some 1; Some 1; Some 1] None = vox None Q (at_chan p 3 j) /\ nth j [Some 0; Some 0; None] None = vox None U (at_chan p 3 j) /\
     stokes_vox None (at_chan p 3 j) = Some (stokes_model (e_opts (1 / 2)) (r_fit out1) e_freq j) /\ nth j (r_weight out1) 0 = weight3 (x_opts (1 / 2)) None j) /\
  ref_stokes3 e_freq (f_lamsq0 f) None 3 p (Some 1) /\ r_Ifreq0 out1 = Some I1 /\
  nth j1 (r_phi out1) 0 = world (CRVAL (f_axis f)) (CRPIX (f_axis f)) (CDELT (f_axis f)) (S (p 3%nat)).
Proof.
  intros fit. set (Q := y_image (Some 1) (Some 1) (Some 1)). set (U := y_image (Some 0) (Some 0) None). set (o := x_opts (1 / 2)). cbv zeta.
  pose proof (y_good (Some 1) (Some 1) (Some 1) (Some 0) (Some 0) None : good_files Q U None 3 e_freq) as GF. pose proof (x_good_opts (1 / 2) e_freq ltac:(lra) : good_opts3 o e_freq) as GO.
  destruct (files_ok Q U None 3 e_freq None o GF Logic.I GO fit) as (out & phi & h & step & R & G & Hh & _ & _ & A & _).
  destruct (A eq_refl) as (f & mx & rm & EF & _ & _ & AX & AG & _). destruct (e_run None (1 / 2) (or_introl eq_refl) ltac:(lra)) as [out1 R1].
  pose proof (e_weights None (1 / 2) out1 R1) as EW.
  destruct (run_refines _ _ _ _ _ _ _ _ _ _ _ _ (e_input None (1 / 2)) (e_good_opts (1 / 2)) R1) as (h1 & st1 & pm1 & I1 & CG1 & [L1 O1] & OH1 & X). clear A.
  destruct G as (pm & CG & [L O] & OH).
  assert (st1 = 1 / 2 /\ pm1 = 1 / 2) as [-> ->] by (destruct CG1 as (? & ? & ? & _ & _ & _ & E); exact E).
  assert (step = 1 / 2 /\ pm = 1 / 2) as [-> ->] by (destruct CG as (? & ? & ? & _ & _ & _ & E); exact E).
  rewrite (Rabs_pos_eq (1 / 2)) in OH, OH1 by lra.
  assert (H1 : forall n, Rabs (INR n * (1 / 2) - 1 / 2) <= 1 / 2 / 2 -> n = 1%nat).
  { intros n Hn. apply Rabs_le_between in Hn. destruct n as [|[|n]]; [cbn in Hn; lra|reflexivity|]. rewrite !S_INR in Hn. pose proof (pos_INR n). nra. }
  assert (h = 1%nat) as -> by now apply H1. assert (h1 = 1%nat) as -> by now apply H1.
  exists out, f, out1, I1, 0%nat. split; [exact R|]. split; [exact EF|]. split; [exact R1|].
  split. { destruct AX as (_ & EN & _). rewrite EN. intros a Ha. cbn in Ha. unfold with_len. assert (a = 1 \/ a = 2 \/ a = 3)%nat as [-> |[-> | ->]] by lia; cbn; lia. }
  split; [lia|]. split.
  - intros j Hj. cbn in Hj. assert (IN : in_image [1; 1; 3]%nat (at_chan (fun _ => 0%nat) 3 j)).
    { intros a Ha. cbn in Ha. unfold at_chan. assert (a = 1 \/ a = 2 \/ a = 3)%nat as [-> |[-> | ->]] by lia; cbn; lia. }
    unfold Q, U. rewrite !y_vox by exact IN. split; [reflexivity|]. split; [reflexivity|]. rewrite EW. destruct j as [|[|[|j]]]; [split; reflexivity..|lia].
  - split; [reflexivity|]. split; [|destruct AG as [_ AG]; rewrite (AG 0%nat) by lia; rewrite O, O1 by lia; reflexivity].
    decompose [and] X. assumption.
Qed.
