(** The statements about the simulated cubes. *)
From Coq Require Import Reals List Arith ZArith Bool Lia Lra Ascii String.
Set Warnings "-ambiguous-paths".
From Coquelicot Require Import Coquelicot.
From Verif Require Import CBase PyRes PyStr PyList PyList_Proofs NdArray NdIndex Measure_Model Synth_Spec Synth_Laws Td_Model Td_Spec Td_Beam Td_Proofs Td_Main.
Import ListNotations.
Local Notation length := List.length.
Local Open Scope R_scope.

(* ------------------------------------------------------------- when it runs *)

Lemma filter1d_shape : forall ax s a, shape (filter1d ax s a) = shape a /\ length (flat (filter1d ax s a)) = prodn (shape a).
Proof. intros. unfold filter1d, tab_nd. simpl. rewrite map_length, length_indices. auto. Qed.

Lemma gaussian_shape : forall l a, length (flat a) = prodn (shape a) ->
  shape (gaussian_filter a l) = shape a /\ length (flat (gaussian_filter a l)) = prodn (shape a).
Proof.
  intros l. unfold gaussian_filter. generalize (combine (seq 0 (length l)) l). induction l0 as [|[ax s] t IH]; intros a W; [auto|].
  cbn [fold_left fst snd]. destruct (Rlt_dec (/ 10 ^ 15) s).
  - destruct (filter1d_shape ax s a) as [S1 L1]. destruct (IH (filter1d ax s a)) as [S2 L2]; [rewrite S1; exact L1|].
    rewrite S2, L2, S1. auto.
  - apply IH, W.
Qed.

Lemma create_runs : forall normal freq n, (exists r, create_3D_data normal freq n = POk r) <-> (1 <= n)%nat /\ (2 <= length freq)%nat.
Proof.
  intros normal freq n. unfold create_3D_data. rewrite !thin_one. cbn [pybind]. cbn [squeeze flat shape].
  destruct (Nat.eqb_spec n 0) as [E|N]; [split; [intros [r H]; discriminate H|lia]|].
  match goal with |- context [pybind (omaxi ?l) _] => set (L := l) end.
  assert (LL : length L = (n * (n * length freq))%nat).
  { unfold L. unfold zipf. cbn [flat]. rewrite map_length, combine_length.
    match goal with |- context [gaussian_filter (point_cube n ?nf ?sx ?sy ?z) ?s] =>
      assert (G : forall a, length (flat (gaussian_filter (point_cube n nf sx sy a) s)) = (n * (n * nf))%nat) end.
    { intros a. match goal with |- context [gaussian_filter ?c ?s] => destruct (gaussian_shape s c) as [_ G] end.
      - unfold point_cube, tab_nd. cbn [shape flat]. rewrite map_length, length_indices. reflexivity.
      - rewrite G. unfold point_cube, tab_nd, prodn. cbn [shape fold_right]. rewrite Nat.mul_1_r. reflexivity. }
    rewrite !G. lia. }
  destruct freq as [|f0 [|f1 fr]].
  - destruct L; [|simpl in LL; lia]. split; [intros [r H]; discriminate H|simpl; lia].
  - destruct L; [split; [intros [r H]; discriminate H|simpl; lia]|]. cbn [omaxi pybind length filter].
    split; [intros [r H]; discriminate H|simpl; lia].
  - destruct L; [simpl in LL; lia|]. cbn [omaxi pybind length filter]. cbn [Nat.eqb negb length].
    split; [intros _; simpl; lia|]. intros _. eexists. reflexivity.
Qed.

(* ------------------------------------------------------------- the contents *)

Definition line (s : string) : piece := Txt (S_ s).
Definition truth_lines (n : nat) : list (list piece) :=
  [[line "Point source:"]; [line "RM = "; Num 200; line " rad/m^2"];
   [line "Intrsinsic polarization angle = "; Num 50; line " deg"]; [line "Polarized Flux = "; Num 2; line " Jy/beam"];
   [line "x position = "; Num (INR (n / 4)); line " pix"]; [line "y position = "; Num (INR (n / 4)); line " pix"]; [];
   [line "Diffuse emission:"]; [line "RM = "; Num 50; line " rad/m^2"];
   [line "Intrsinsic polarization angle = "; Num (- 10); line " deg"]; [line "Polarized Flux = "; Num 1; line " Jy/beam"]; [];
   [line "Other:"]; [line "Actual error per channel = "; Num (1 / 10); line " Jy/beam"]; [line "Beam FWHM = "; Num 20; line " pix"]].

(** Source with profile b, diffuse emission, and noise. *)
Definition sky (freq : list R) (b : R) (noise : C) (c : nat) : C :=
  (RtoC b * thin 2 (deg 50) 200 (lam2 (nth c freq 0)) + thin 1 (deg (- 10)) 50 (lam2 (nth c freq 0)) + noise)%C.

Definition holds (freq : list R) (n : nat) (b : nat -> nat -> R) (nq nu : nat -> nat -> nat -> R) (r : files) : Prop :=
  shape (q_file r) = [length freq; n; n] /\ shape (u_file r) = [length freq; n; n] /\
  freq_lines r = freq /\ truth r = truth_lines n /\
  forall x y c, (x < n)%nat -> (y < n)%nat -> (c < length freq)%nat ->
    at_nd None (q_file r) [c; y; x] = Some (fst (sky freq (b x y) (nq x y c, nu x y c) c)) /\
    at_nd None (u_file r) [c; y; x] = Some (snd (sky freq (b x y) (nq x y c, nu x y c) c)).

Lemma sky_fst : forall freq b z c, fst (sky freq b z c) = b * fst (thin 2 (deg 50) 200 (lam2 (nth c freq 0))) + fst z + fst (thin 1 (deg (- 10)) 50 (lam2 (nth c freq 0))).
Proof. intros. unfold sky. destruct (thin 2 _ _ _), (thin 1 _ _ _), z. simpl. ring. Qed.
Lemma sky_snd : forall freq b z c, snd (sky freq b z c) = b * snd (thin 2 (deg 50) 200 (lam2 (nth c freq 0))) + snd z + snd (thin 1 (deg (- 10)) 50 (lam2 (nth c freq 0))).
Proof. intros. unfold sky. destruct (thin 2 _ _ _), (thin 1 _ _ _), z. simpl. ring. Qed.

Lemma vals_map : forall n nf g (F : R -> R), vals n nf (fun x y c => F (g x y c)) = map F (vals n nf g).
Proof. intros. unfold vals. rewrite map_map. reflexivity. Qed.
Lemma vals_ext : forall n nf g h, (forall x y c, (x < n)%nat -> (y < n)%nat -> (c < nf)%nat -> g x y c = h x y c) -> vals n nf g = vals n nf h.
Proof.
  intros. unfold vals. apply map_ext_in. intros idx V. apply in_indices in V.
  destruct (valid3 _ _ _ _ V) as (x & y & c & -> & Hx & Hy & Hc). apply H; auto.
Qed.
Lemma dev_nonneg : forall l, 0 <= dev l. Proof. intros. apply sqrt_pos. Qed.

(** any size of image *)
Lemma any_size : forall normal freq n, (1 <= n)%nat -> (2 <= length freq)%nat -> List.Forall (fun f => f <> 0) freq ->
  exists b, (forall x y, (x < n)%nat -> (y < n)%nat -> 0 <= b x y <= 1) /\
    (exists x y, (x < n)%nat /\ (y < n)%nat /\ b x y = 1) /\
    exists r, create_3D_data normal freq n = POk r /\
      ((List.Forall (fun v => v = None) (flat (q_file r)) /\ List.Forall (fun v => v = None) (flat (u_file r))) \/
       exists nq nu, holds freq n b nq nu r /\ dev (voxels n (length freq) nq) = 1 / 10).
Proof.
  intros normal freq n Hn Hf Hz. destruct (create_general normal freq n Hn Hf Hz) as (M & Mp & U & (xm & ym & Hxm & Hym & EM) & OK & BAD).
  set (q := (n / 4)%nat) in *.
  exists (fun x y => ker n x q * ker n y q / M). split; [|split].
  - intros x y Hx Hy. specialize (U x y Hx Hy). assert (0 <= ker n x q * ker n y q) by (apply Rmult_le_pos; apply ker_nonneg).
    split; [apply Rmult_le_pos; [lra|left; apply Rinv_0_lt_compat; lra]|]. apply (Rmult_le_reg_r M); [exact Mp|].
    unfold Rdiv. rewrite Rmult_assoc, Rinv_l by lra. lra.
  - exists xm, ym. rewrite EM. repeat split; auto. field. lra.
  - set (sm := dev (vals n (length freq) (conv n (arr normal 0))) / / 10) in *.
    destruct (Req_dec sm 0) as [E|E].
    + destruct (BAD E) as (r & R1 & R2). exists r. split; [exact R1|]. left. exact R2.
    + specialize (OK E). eexists. split; [exact OK|]. right.
      assert (Sp : 0 < sm). { assert (0 <= sm); [|lra]. unfold sm. apply Rmult_le_pos; [apply dev_nonneg|]. rewrite Rinv_inv. lra. }
      exists (fun x y c => conv n (arr normal 0) x y c / sm), (fun x y c => conv n (arr normal 1) x y c / sm). split.
      * unfold holds. cbn [q_file u_file freq_lines truth]. split; [reflexivity|]. split; [reflexivity|]. split; [reflexivity|].
        split; [unfold mk_truth, truth_lines; replace (1 / 10) with (/ 10) by lra; reflexivity|].
        intros x y c Hx Hy Hc. rewrite !file_at by auto. rewrite sky_fst, sky_snd. cbn [fst snd]. split; f_equal; field; lra.
      * rewrite <- vals_voxels, (vals_map n _ (conv n (arr normal 0)) (fun v => v / sm)), dev_scale by exact Sp.
        unfold sm. field. intro D. apply E. unfold sm. rewrite D. unfold Rdiv. ring.
Qed.

Lemma any_zero : forall normal freq n, (1 <= n)%nat -> (2 <= length freq)%nat -> List.Forall (fun f => f <> 0) freq ->
  (forall idx, normal 0%nat idx = 0) ->
  exists r, create_3D_data normal freq n = POk r /\ List.Forall (fun v => v = None) (flat (q_file r)) /\ List.Forall (fun v => v = None) (flat (u_file r)).
Proof.
  intros normal freq n Hn Hf Hz Z. destruct (create_general normal freq n Hn Hf Hz) as (M & _ & _ & _ & _ & BAD). apply BAD.
  assert (V : vals n (length freq) (conv n (arr normal 0)) = map (fun _ => 0) (indices [n; n; length freq])).
  { unfold vals. apply map_ext. intros idx. unfold conv. apply rsum_zero. intros i _. apply rsum_zero. intros j _. unfold arr. rewrite Z. ring. }
  rewrite V. generalize (indices [n; n; length freq]). intros l.
  assert (A : forall A (l : list A), rsum (map (fun _ => 0) l) = 0) by (intros; apply rsum_zero; auto).
  assert (D : dev (map (fun _ => 0) l) = 0).
  { unfold dev. assert (B : avg (map (fun _ : list nat => 0) l) = 0) by (unfold avg; rewrite A; unfold Rdiv; ring).
    rewrite B, map_map. unfold avg. rewrite (rsum_zero (fun _ : list nat => (0 - 0) ^ 2)) by (intros; ring).
    unfold Rdiv. rewrite Rmult_0_l. apply sqrt_0. }
  rewrite D. unfold Rdiv. ring.
Qed.

(** images of at least 69 pixels *)
Lemma big_image : forall normal freq n, (69 <= n)%nat -> (2 <= length freq)%nat -> List.Forall (fun f => f <> 0) freq ->
  let b0 := blur n (fun x y c => normal 0%nat [x; y; c]) in
  let b1 := blur n (fun x y c => normal 1%nat [x; y; c]) in
  (exists v w, In v (voxels n (length freq) b0) /\ In w (voxels n (length freq) b0) /\ v <> w) ->
  exists r s, create_3D_data normal freq n = POk r /\ 0 < s /\
    holds freq n (fun x y => beam n x (n / 4) * beam n y (n / 4)) (fun x y c => s * b0 x y c) (fun x y c => s * b1 x y c) r /\
    dev (voxels n (length freq) (fun x y c => s * b0 x y c)) = 1 / 10.
Proof.
  intros normal freq n Hn Hf Hz b0 b1 (v & w & Hv & Hw & N).
  destruct (create_general normal freq n ltac:(lia) Hf Hz) as (M & Mp & U & (xm & ym & Hxm & Hym & EM) & OK & _).
  set (q := (n / 4)%nat) in *. assert (Hq : (q < n)%nat) by (apply Nat.div_lt; lia).
  assert (T0 := total_pos). assert (B1 := beam_range).
  assert (MM : M = / total ^ 2).
  { apply Rle_antisym.
    - rewrite <- EM, !ker_beam by auto. destruct (B1 n xm q), (B1 n ym q).
      replace (beam n xm q / total * (beam n ym q / total)) with (beam n xm q * beam n ym q * / total ^ 2) by (field; lra).
      assert (0 < / total ^ 2) by (apply Rinv_0_lt_compat, pow_lt; lra).
      assert (beam n xm q * beam n ym q <= 1 * 1) by (apply Rmult_le_compat; lra).
      rewrite <- (Rmult_1_l (/ total ^ 2)) at 2. apply Rmult_le_compat_r; lra.
    - apply Rle_trans with (2 := U q q Hq Hq). rewrite !ker_beam, !beam_centre by auto. right. field. lra. }
  set (sm := dev (vals n (length freq) (conv n (arr normal 0))) / / 10) in *.
  assert (CV : vals n (length freq) (conv n (arr normal 0)) = map (fun v => v / total ^ 2) (vals n (length freq) b0)).
  { rewrite <- vals_map. apply vals_ext. intros. rewrite conv_blur by auto. reflexivity. }
  assert (T2 : 0 < total ^ 2) by (apply pow_lt; exact T0).
  rewrite <- !vals_voxels in *.
  assert (D0 : 0 < dev (vals n (length freq) b0)) by (apply (dev_pos _ v w); auto).
  assert (Sm : sm = 10 * dev (vals n (length freq) b0) / total ^ 2).
  { unfold sm. rewrite CV, dev_scale by exact T2. field. repeat split; lra. }
  assert (Sp : 0 < sm). { rewrite Sm. apply Rdiv_lt_0_compat; lra. }
  specialize (OK ltac:(lra)). eexists. exists (/ (10 * dev (vals n (length freq) b0))). split; [exact OK|].
  split; [apply Rinv_0_lt_compat; lra|]. split.
  - unfold holds. cbn [q_file u_file freq_lines truth]. split; [reflexivity|]. split; [reflexivity|]. split; [reflexivity|].
    split; [unfold mk_truth, truth_lines; replace (1 / 10) with (/ 10) by lra; reflexivity|].
    intros x y c Hx Hy Hc. rewrite !file_at by auto. rewrite sky_fst, sky_snd. cbn [fst snd].
    rewrite !ker_beam, !conv_blur, MM, Sm by auto. change (arr normal 0) with (fun x y c => normal 0%nat [x; y; c]). change (arr normal 1) with (fun x y c => normal 1%nat [x; y; c]).
    fold b0. fold b1. split; f_equal; field; lra.
  - rewrite <- vals_voxels, (vals_ext _ _ _ (fun x y c => b0 x y c / (10 * dev (vals n (length freq) b0)))) by (intros; unfold Rdiv; ring).
    rewrite (vals_map n _ b0 (fun v => v / (10 * dev (vals n (length freq) b0)))), dev_scale by lra. field. lra.
Qed.

(** the noise in U *)
Lemma u_noise : forall n nf b0 b1 s, (1 <= n)%nat -> (1 <= nf)%nat -> 0 < s -> dev (voxels n nf (fun x y c => s * b0 x y c)) = 1 / 10 ->
  dev (voxels n nf (fun x y c => s * b1 x y c)) = 1 / 10 * (dev (voxels n nf b1) / dev (voxels n nf b0)).
Proof.
  intros n nf b0 b1 s Hn Hf Hs E. rewrite <- !vals_voxels in *.
  assert (SC : forall g, dev (vals n nf (fun x y c => s * g x y c)) = s * dev (vals n nf g)).
  { intros g. rewrite (vals_ext _ _ _ (fun x y c => g x y c / / s)) by (intros; unfold Rdiv; rewrite Rinv_inv; ring).
    rewrite (vals_map n nf g (fun v => v / / s)), dev_scale by (apply Rinv_0_lt_compat; exact Hs). unfold Rdiv. rewrite Rinv_inv. ring. }
  rewrite SC in *. rewrite <- E. field. intro Z. rewrite Z in E. lra.
Qed.

(** an example: one noise value in Q, the same doubled in U *)
Definition one_draw (k : nat) (idx : list nat) : R :=
  match idx with [0; 0; 0]%nat => if (k =? 0)%nat then 1 else 2 | _ => 0 end.

Lemma blur_point : forall n (v : nat -> R) x y c, (0 < n)%nat ->
  blur n (fun i j c => if (i =? 0)%nat && (j =? 0)%nat then v c else 0) x y c = beam n x 0 * beam n y 0 * v c.
Proof.
  intros n v x y c Hn. unfold blur.
  rewrite (rsum_map_ext _ (fun i => if (0 =? i)%nat then beam n x 0 * beam n y 0 * v c else 0)).
  - apply rsum_pick. exact Hn.
  - intros i _. destruct i as [|i]; simpl andb.
    + rewrite <- (rsum_pick n 0 (beam n x 0 * beam n y 0 * v c)) by exact Hn.
      apply rsum_map_ext. intros j _. destruct j; simpl; ring.
    + apply rsum_zero. intros; simpl; ring.
Qed.

Lemma blur_ext : forall n g h x y c, (forall i j, g i j c = h i j c) -> blur n g x y c = blur n h x y c.
Proof. intros. unfold blur. apply rsum_map_ext. intros. apply rsum_map_ext. intros. rewrite H. reflexivity. Qed.

Lemma one_blur : forall n k x y c, (0 < n)%nat ->
  blur n (fun x y c => one_draw k [x; y; c]) x y c = beam n x 0 * beam n y 0 * (if (c =? 0)%nat then if (k =? 0)%nat then 1 else 2 else 0).
Proof.
  intros. rewrite <- (blur_point n (fun c => if (c =? 0)%nat then if (k =? 0)%nat then 1 else 2 else 0)) by exact H.
  apply blur_ext. intros i j. destruct i, j, c; reflexivity.
Qed.

Lemma in_voxels : forall n nf g v, In v (voxels n nf g) <-> exists x y c, (x < n)%nat /\ (y < n)%nat /\ (c < nf)%nat /\ v = g x y c.
Proof. intros. rewrite <- vals_voxels. apply in_vals. Qed.

Lemma one_varies : forall n nf, (69 <= n)%nat -> (2 <= nf)%nat ->
  let b0 := blur n (fun x y c => one_draw 0 [x; y; c]) in
  exists v w, In v (voxels n nf b0) /\ In w (voxels n nf b0) /\ v <> w.
Proof.
  intros n nf Hn Hf b0. exists 1, 0. rewrite !in_voxels. split; [|split; [|lra]].
  - exists 0%nat, 0%nat, 0%nat. repeat split; try lia. unfold b0. rewrite one_blur, beam_centre by lia. simpl. ring.
  - exists 0%nat, 0%nat, 1%nat. repeat split; try lia. unfold b0. rewrite one_blur, beam_centre by lia. simpl. ring.
Qed.

Lemma u_noise_refuted : exists normal freq n r s,
  let b0 := blur n (fun x y c => normal 0%nat [x; y; c]) in
  let b1 := blur n (fun x y c => normal 1%nat [x; y; c]) in
  create_3D_data normal freq n = POk r /\
  holds freq n (fun x y => beam n x (n / 4) * beam n y (n / 4)) (fun x y c => s * b0 x y c) (fun x y c => s * b1 x y c) r /\
  dev (voxels n (length freq) (fun x y c => s * b0 x y c)) = 1 / 10 /\
  dev (voxels n (length freq) (fun x y c => s * b1 x y c)) = 2 / 10.
Proof.
  destruct (big_image one_draw [1; 2] 69) as (r & s & E & Hs & H & D); [lia|simpl; lia|repeat constructor; lra| |].
  { apply one_varies; simpl; lia. }
  exists one_draw, [1; 2], 69%nat, r, s. cbv zeta. split; [exact E|]. split; [exact H|]. split; [exact D|].
  rewrite (u_noise 69 (length [1; 2]) (blur 69 (fun x y c => one_draw 0 [x; y; c]))) by (simpl; auto; lia).
  set (b0 := blur 69 (fun x y c => one_draw 0 [x; y; c])) in *.
  rewrite <- !vals_voxels.
  rewrite (vals_ext _ _ (blur 69 (fun x y c => one_draw 1 [x; y; c])) (fun x y c => b0 x y c / / 2)).
  2:{ intros x y c _ _ _. unfold b0. rewrite !one_blur by lia. destruct c; simpl; field. }
  rewrite (vals_map _ _ b0 (fun v => v / / 2)), dev_scale by lra.
  rewrite <- vals_voxels in D.
  assert (dev (vals 69 (length [1; 2]) b0) <> 0); [|field; auto].
  destruct (one_varies 69 2) as (v & w & Hv & Hw & N); [lia|lia|]. rewrite <- vals_voxels in Hv, Hw.
  apply Rgt_not_eq. apply (dev_pos _ v w); assumption.
Qed.

(* ------------------------------------------------------------------ header *)

Lemma header_axes : forall normal freq n r, create_3D_data normal freq n = POk r ->
  card (S_ "NAXIS") (header r) = Some (HZ 3) /\
  card (S_ "NAXIS1") (header r) = Some (HZ (Z.of_nat n)) /\ card (S_ "NAXIS2") (header r) = Some (HZ (Z.of_nat n)) /\
  card (S_ "NAXIS3") (header r) = Some (HZ (Z.of_nat (length freq))) /\
  card (S_ "CTYPE3") (header r) = Some (HS (S_ "FREQ")) /\ card (S_ "CUNIT3") (header r) = Some (HS (S_ "Hz")) /\
  card (S_ "CRPIX3") (header r) = Some (HZ 1) /\
  card (S_ "CRVAL3") (header r) = Some (HR (nth 0 freq 0)) /\
  card (S_ "CDELT3") (header r) = Some (HR (nth 1 freq 0 - nth 0 freq 0)).
Proof.
  intros normal freq n r H. unfold create_3D_data in H. rewrite !thin_one in H. cbn [pybind] in H.
  destruct (n =? 0)%nat; [discriminate H|].
  match type of H with pybind (omaxi ?l) _ = _ => destruct (omaxi l) end; [|discriminate H]. cbn [pybind] in H.
  match type of H with (if ?b then _ else _) = _ => destruct b end; [discriminate H|].
  destruct freq as [|f0 [|f1 fr]]; [discriminate H|discriminate H|].
  injection H as <-. cbn [header]. repeat split.
Qed.

(** channel k (from 0) of an evenly spaced list *)
Lemma even_axis : forall freq f0 d k, (forall j, (j < length freq)%nat -> nth j freq 0 = f0 + INR j * d) -> (2 <= length freq)%nat -> (k < length freq)%nat ->
  nth k freq 0 = nth 0 freq 0 + ((INR k + 1) - 1) * (nth 1 freq 0 - nth 0 freq 0).
Proof.
  intros freq f0 d k H L Hk. rewrite (H k), (H 0%nat), (H 1%nat) by lia. simpl. ring.
Qed.

Lemma axis_refuted : exists normal freq n r f0 d, create_3D_data normal freq n = POk r /\
  card (S_ "CRVAL3") (header r) = Some (HR f0) /\ card (S_ "CDELT3") (header r) = Some (HR d) /\
  nth 2 (freq_lines r) 0 <> f0 + 2 * d.
Proof.
  destruct (proj2 (create_runs one_draw [1; 2; 4] 1)) as [r E]; [simpl; lia|].
  destruct (header_axes _ _ _ _ E) as (_ & _ & _ & _ & _ & _ & _ & A & B).
  exists one_draw, [1; 2; 4], 1%nat, r, 1, (2 - 1). split; [exact E|]. split; [exact A|]. split; [exact B|].
  assert (F : freq_lines r = [1; 2; 4]).
  { unfold create_3D_data in E. rewrite !thin_one in E. cbn [pybind] in E.
    change ((1 =? 0)%nat) with false in E. cbv iota in E.
    match type of E with pybind (omaxi ?l) _ = _ => destruct (omaxi l) end; [|discriminate E]. cbn [pybind] in E.
    match type of E with (if ?b then _ else _) = _ => destruct b end; [discriminate E|].
    injection E as <-. reflexivity. }
  rewrite F. simpl. lra.
Qed.

(* --------------------------------------------------------------- synthesis *)

Lemma file_flat : forall a nf n c y x, shape a = [nf; n; n] -> at_nd None a [c; y; x] = nth (c * (n * n) + (y * n + x)) (flat a) (@None R).
Proof. intros. unfold at_nd. rewrite H. f_equal. unfold ravel, prodn. cbn [fold_right]. lia. Qed.

Definition noise_chans (freq w : list R) (nq nu : nat -> R) : list chan :=
  map (fun c => mk_chan (lam2 (nth c freq 0)) (nth c w 0) (nq c, nu c)) (seq 0 (length freq)).

Lemma pixel_is : forall freq n b nq nu r w x y, holds freq n b nq nu r -> (x < n)%nat -> (y < n)%nat ->
  pixel_chans (length freq) (n * n) (flat (q_file r)) (flat (u_file r)) (map lam2 freq) w (y * n + x) =
  map (fun c => mk_chan (lam2 (nth c freq 0)) (nth c w 0) (sky freq (b x y) (nq x y c, nu x y c) c)) (seq 0 (length freq)).
Proof.
  intros freq n b nq nu r w x y (SQ & SU & _ & _ & V) Hx Hy. unfold pixel_chans.
  rewrite flat_map_concat_map.
  rewrite (map_ext_in _ (fun c => [mk_chan (lam2 (nth c freq 0)) (nth c w 0) (sky freq (b x y) (nq x y c, nu x y c) c)])).
  - induction (seq 0 (length freq)); [reflexivity|]. simpl. f_equal. assumption.
  - intros c Hc. apply in_seq in Hc. destruct (V x y c Hx Hy ltac:(lia)) as [Q U].
    rewrite (file_flat _ (length freq) n) in Q by exact SQ. rewrite (file_flat _ (length freq) n) in U by exact SU.
    rewrite Q, U. f_equal. f_equal.
    rewrite (nth_indep _ 0 (lam2 0)) by (rewrite map_length; lia). apply map_nth.
Qed.

Lemma synth_sim : forall freq n b nq nu r w x y l0 phi, holds freq n b nq nu r -> (x < n)%nat -> (y < n)%nat ->
  let chs := pixel_chans (length freq) (n * n) (flat (q_file r)) (flat (u_file r)) (map lam2 freq) w (y * n + x) in
  let spread := RMSF_spec chs l0 in
  FDF_spec chs l0 phi =
    (RtoC (2 * b x y)%R * cis (2 * (deg 50 + 200 * l0))%R * spread (phi - 200)%R
     + cis (2 * (deg (- 10) + 50 * l0))%R * spread (phi - 50)%R
     + FDF_spec (noise_chans freq w (nq x y) (nu x y)) l0 phi)%C.
Proof.
  intros freq n b nq nu r w x y l0 phi H Hx Hy. cbv zeta. rewrite (pixel_is freq n b nq nu r w x y H Hx Hy).
  set (ch := fun P : nat -> C => map (fun c => mk_chan (lam2 (nth c freq 0)) (nth c w 0) (P c)) (seq 0 (length freq))).
  assert (RS : forall P P' f, RMSF_spec (ch P) l0 f = RMSF_spec (ch P') l0 f).
  { intros. unfold RMSF_spec, wsum, ch. rewrite !map_map. reflexivity. }
  assert (LIN : forall P1 P2 P3 a, FDF_spec (ch (fun c => RtoC a * P1 c + P2 c + P3 c)%C) l0 phi =
     (RtoC a * FDF_spec (ch P1) l0 phi + FDF_spec (ch P2) l0 phi + FDF_spec (ch P3) l0 phi)%C).
  { intros. unfold FDF_spec, wsum, ch. rewrite !map_map. cbn [c_w c_P c_l2]. unfold Cdiv.
    set (K := Cinv _). rewrite Cmult_assoc, <- csum_map_scal, <- !Cmult_plus_distr_r, <- !csum_map_plus. f_equal. apply csum_map_ext. intros c _. ring. }
  change (map (fun c => mk_chan (lam2 (nth c freq 0)) (nth c w 0) (sky freq (b x y) (nq x y c, nu x y c) c)) (seq 0 (length freq)))
    with (ch (fun c => RtoC (b x y) * thin 2 (deg 50) 200 (lam2 (nth c freq 0)) + thin 1 (deg (- 10)) 50 (lam2 (nth c freq 0)) + (nq x y c, nu x y c))%C).
  rewrite LIN.
  rewrite (FDF_thin (ch (fun c => thin 2 _ _ _)) l0 2 (deg 50) 200 phi).
  2:{ intros c Hc. apply in_map_iff in Hc. destruct Hc as (j & <- & _). reflexivity. }
  rewrite (FDF_thin (ch (fun c => thin 1 _ _ _)) l0 1 (deg (- 10)) 50 phi).
  2:{ intros c Hc. apply in_map_iff in Hc. destruct Hc as (j & <- & _). reflexivity. }
  match goal with |- context [(RtoC (2 * b x y)%R * _ * RMSF_spec (ch ?A) _ _)%C] =>
    rewrite (RS (fun c => thin 2 (deg 50) 200 (lam2 (nth c freq 0))) A (phi - 200)), (RS (fun c => thin 1 (deg (- 10)) 50 (lam2 (nth c freq 0))) A (phi - 50)) end.
  change (noise_chans freq w (nq x y) (nu x y)) with (ch (fun c => (nq x y c, nu x y c))).
  rewrite RtoC_mult. ring.
Qed.

(* ------------------------------------------------------------ width of beam *)
Lemma half_width : forall n x, (69 <= n)%nat -> (x + 11 < n)%nat -> 1 / 2 < beam n x (x + 10) < 502 / 1000 /\ beam n x (x + 11) < 1 / 2.
Proof.
  intros n x Hn Hx. unfold beam.
  replace (ring n x (x + 10)) with 10%nat by (unfold ring; lia). replace (ring n x (x + 11)) with 11%nat by (unfold ring; lia).
  change (10 <=? 34)%nat with true. change (11 <=? 34)%nat with true. cbv iota.
  replace (- INR 10 ^ 2 / (2 * (20 / (235 / 100)) ^ 2)) with (- (2209 / 3200)) by (simpl; field).
  replace (- INR 11 ^ 2 / (2 * (20 / (235 / 100)) ^ 2)) with (- (121 * 2209 / 320000)) by (simpl; field).
  assert (SQ : forall t, exp (2 * t) = exp t * exp t) by (intros; rewrite <- exp_plus; f_equal; ring).
  assert (E1 : forall t, exp (- t) >= 1 - t). { intros. generalize (exp_ineq1_le (- t)). lra. }
  split.
  - set (t := 2209 / 3200 / 1024). assert (Et : 2209 / 3200 = 2 * (2 * (2 * (2 * (2 * (2 * (2 * (2 * (2 * (2 * t)))))))))) by (unfold t; field).
    split.
    + rewrite Et, <- !Ropp_mult_distr_r_reverse || idtac.
      replace (- (2 * (2 * (2 * (2 * (2 * (2 * (2 * (2 * (2 * (2 * t)))))))))))
        with (2 * (2 * (2 * (2 * (2 * (2 * (2 * (2 * (2 * (2 * - t)))))))))) by ring.
      assert (A0 : 9993258 / 10000000 <= exp (- t)) by (specialize (E1 t); unfold t in *; lra).
      rewrite !SQ. set (e := exp (- t)) in *.
      assert (A1 : 99865204 / 100000000 <= e * e) by nra. set (e1 := e * e) in *.
      assert (A2 : 9973058 / 10000000 <= e1 * e1) by nra. set (e2 := e1 * e1) in *.
      assert (A3 : 9946188 / 10000000 <= e2 * e2) by nra. set (e3 := e2 * e2) in *.
      assert (A4 : 9892665 / 10000000 <= e3 * e3) by nra. set (e4 := e3 * e3) in *.
      assert (A5 : 9786482 / 10000000 <= e4 * e4) by nra. set (e5 := e4 * e4) in *.
      assert (A6 : 9577522 / 10000000 <= e5 * e5) by nra. set (e6 := e5 * e5) in *.
      assert (A7 : 9172892 / 10000000 <= e6 * e6) by nra. set (e7 := e6 * e6) in *.
      assert (A8 : 8414194 / 10000000 <= e7 * e7) by nra. set (e8 := e7 * e7) in *.
      assert (A9 : 7079866 / 10000000 <= e8 * e8) by nra. set (e9 := e8 * e8) in *.
      nra.
    + rewrite exp_Ropp. assert (B : 1000 / 502 < exp (2209 / 3200)).
      { rewrite Et. assert (A0 : 10006741 / 10000000 <= exp t) by (generalize (exp_ineq1_le t); unfold t; lra).
        rewrite !SQ. set (e := exp t) in *.
        assert (A1 : 10013486 / 10000000 <= e * e) by nra. set (e1 := e * e) in *.
        assert (A2 : 10026990 / 10000000 <= e1 * e1) by nra. set (e2 := e1 * e1) in *.
        assert (A3 : 10054052 / 10000000 <= e2 * e2) by nra. set (e3 := e2 * e2) in *.
        assert (A4 : 10108396 / 10000000 <= e3 * e3) by nra. set (e4 := e3 * e3) in *.
        assert (A5 : 10217966 / 10000000 <= e4 * e4) by nra. set (e5 := e4 * e4) in *.
        assert (A6 : 10440682 / 10000000 <= e5 * e5) by nra. set (e6 := e5 * e5) in *.
        assert (A7 : 10900784 / 10000000 <= e6 * e6) by nra. set (e7 := e6 * e6) in *.
        assert (A8 : 11882709 / 10000000 <= e7 * e7) by nra. set (e8 := e7 * e7) in *.
        assert (A9 : 14119877 / 10000000 <= e8 * e8) by nra. set (e9 := e8 * e8) in *.
        nra. }
      replace (502 / 1000) with (/ (1000 / 502)) by field. apply Rinv_lt_contravar; [|exact B]. apply Rmult_lt_0_compat; [lra|apply exp_pos].
  - rewrite exp_Ropp. replace (1 / 2) with (/ 2) by lra.
    apply Rinv_lt_contravar; [apply Rmult_lt_0_compat; [lra|apply exp_pos]|].
    set (t := 121 * 2209 / 320000 / 8). replace (121 * 2209 / 320000) with (2 * (2 * (2 * t))) by (unfold t; field).
    assert (A0 : 1104 / 1000 <= exp t) by (generalize (exp_ineq1_le t); unfold t; lra).
    rewrite !SQ. set (e := exp t) in *. assert (A1 : 1218 / 1000 <= e * e) by nra. set (e1 := e * e) in *.
    assert (A2 : 1483 / 1000 <= e1 * e1) by nra. set (e2 := e1 * e1) in *. nra.
Qed.

Lemma even_header : forall normal freq n r f0 d, create_3D_data normal freq n = POk r ->
  (forall j, (j < length freq)%nat -> nth j freq 0 = f0 + INR j * d) ->
  exists v s p, card (S_ "CRVAL3") (header r) = Some (HR v) /\ card (S_ "CDELT3") (header r) = Some (HR s) /\ card (S_ "CRPIX3") (header r) = Some (HZ p) /\
    forall k, (k < length freq)%nat -> nth k freq 0 = v + (INR k + 1 - IZR p) * s.
Proof.
  intros normal freq n r f0 d E H. destruct (header_axes _ _ _ _ E) as (_ & _ & _ & _ & _ & _ & P & V & D).
  destruct (proj1 (create_runs normal freq n) (ex_intro _ r E)) as [_ L].
  do 3 eexists. split; [exact V|]. split; [exact D|]. split; [exact P|]. intros k Hk. apply (even_axis freq f0 d); auto.
Qed.

Lemma source_peak : forall n x y, (69 <= n)%nat -> (x < n)%nat -> (y < n)%nat ->
  0 <= beam n x (n / 4) * beam n y (n / 4) <= 1 /\ (beam n x (n / 4) * beam n y (n / 4) = 1 <-> x = (n / 4)%nat /\ y = (n / 4)%nat).
Proof.
  intros n x y Hn Hx Hy. assert (Hq : (n / 4 < n)%nat) by (apply Nat.div_lt; lia).
  destruct (beam_range n x (n / 4)) as [A B], (beam_range n y (n / 4)) as [C D]. split; [nra|]. split.
  - intros E. split.
    + destruct (Nat.eq_dec x (n / 4)) as [|N]; auto. exfalso. assert (L := beam_less n x (n / 4) Hx Hq N). nra.
    + destruct (Nat.eq_dec y (n / 4)) as [|N]; auto. exfalso. assert (L := beam_less n y (n / 4) Hy Hq N). nra.
  - intros [-> ->]. rewrite beam_centre. ring.
Qed.

Lemma peak_synth : forall chs l0, wsum chs <> 0 -> RMSF_spec chs l0 (200 - 200) = RtoC 1.
Proof.
  intros chs l0 W. replace (200 - 200) with 0 by ring. unfold RMSF_spec.
  rewrite (csum_map_ext _ (fun c => RtoC (c_w c))).
  - rewrite csum_map_RtoC. unfold wsum in *. field. intro E. apply W. apply RtoC_inj. exact E.
  - intros c _. replace (-2 * 0 * (c_l2 c - l0)) with 0 by ring. rewrite cis_0. ring.
Qed.
