(** Proofs about cut-outs. *)
From Coq Require Import Reals List Arith ZArith Bool Lia Lra.
From Verif Require Import PyRes PyList PyList_Proofs PyStr NdArray NdIndex Cube_Model Cube_Spec Cube_Proofs
  Region_Model Region_Spec.
Import ListNotations.
Local Open Scope nat_scope.

Lemma bound_max : forall n x, (0 <= x)%Z -> py_bound (Z.of_nat n) x = Z.min (Z.of_nat n) x.
Proof.
  intros n x H. destruct (Z_le_gt_dec x (Z.of_nat n)).
  - rewrite py_bound_mid by lia. lia.
  - rewrite py_bound_high by lia. lia.
Qed.

(** one axis of a slice lo-1:hi *)
Definition ax (n : nat) (b : Z * Z) : nat * nat :=
  let N := Z.of_nat n in
  (Z.to_nat (py_bound N (fst b)), Z.to_nat (py_bound N (snd b)) - Z.to_nat (py_bound N (fst b))).

Lemma ax_clip : forall n lo hi lo' hi', (1 <= lo')%Z -> (0 <= hi')%Z ->
  Z.max 1 lo = lo' -> (if (hi =? -1)%Z then Z.of_nat n else Z.min (Z.of_nat n) hi) = Z.min (Z.of_nat n) hi' ->
  snd (ax n (lo' - 1, hi')%Z) = Z.to_nat (snd (clip n lo hi) - fst (clip n lo hi) + 1) /\
  (0 < snd (ax n (lo' - 1, hi')%Z) -> fst (ax n (lo' - 1, hi')%Z) = Z.to_nat (fst (clip n lo hi) - 1)).
Proof.
  intros n lo hi lo' hi' H1 H2 E1 E2. unfold ax, clip. cbn [fst snd]. rewrite !bound_max by lia. rewrite E1, E2. lia.
Qed.

Lemma ax_full : forall n, ax n (0%Z, Z.of_nat n) = (0, n).
Proof. intro n. unfold ax. cbn [fst snd]. rewrite !bound_max by lia. f_equal; lia. Qed.

Lemma clamp_fst : forall n lo hi, fst (clamp n lo hi) = Z.max 1 lo.
Proof. intros. unfold clamp. cbn [fst]. destruct (Z.ltb_spec lo 1); lia. Qed.
Lemma clamp_snd : forall n lo hi, (0 <= hi \/ hi = -1)%Z ->
  (0 <= snd (clamp n lo hi))%Z /\ snd (clamp n lo hi) = (if (hi =? -1)%Z then Z.of_nat n else Z.min (Z.of_nat n) hi) /\
  Z.min (Z.of_nat n) (snd (clamp n lo hi)) = snd (clamp n lo hi).
Proof.
  intros. unfold clamp. cbn [snd]. destruct (Z.eqb_spec hi (-1)); simpl; [lia|].
  destruct (Z.ltb_spec (Z.of_nat n) hi); lia.
Qed.

(** data and axis lengths, from the slice bounds of each FITS axis *)
Lemma slice_axes : forall {A} (d : A) (f : image A) (bs : nat -> Z * Z),
  wf_image f ->
  let N := List.length (i_naxis f) in
  let out := slice_nd d (i_data f) (map bs (rev (seq 1 N))) in
  wf_nd out /\ rev (shape out) = map (fun a => snd (ax (len (i_naxis f) a) (bs a))) (seq 1 N) /\
  forall p, (forall a, 1 <= a <= N -> p a < snd (ax (len (i_naxis f) a) (bs a))) ->
    at_nd d out (map p (rev (seq 1 N))) = at_nd d (i_data f) (map (fun a => p a + fst (ax (len (i_naxis f) a) (bs a))) (rev (seq 1 N))).
Proof.
  intros A d f bs (Hs & Hw & Hl) N out.
  assert (Er : slice_ranges (shape (i_data f)) (map bs (rev (seq 1 N))) = map (fun a => ax (len (i_naxis f) a) (bs a)) (rev (seq 1 N))).
  { rewrite Hs, rev_naxis. fold N. unfold slice_ranges. generalize (rev (seq 1 N)). intro l. induction l; simpl; auto. f_equal. exact IHl. }
  split; [apply wf_tab_nd|]. split.
  - unfold out, slice_nd. cbn [shape tab_nd]. rewrite Er, map_map, <- map_rev, rev_involutive. reflexivity.
  - intros p Hp. unfold out. rewrite slice_nd_at.
    + rewrite Er, map_map. f_equal. generalize (rev (seq 1 N)). intro l. induction l; simpl; auto. f_equal. exact IHl.
    + rewrite Er, map_map. apply valid_map. intros a Ha. apply in_rev in Ha. apply in_seq in Ha. apply Hp. lia.
Qed.

Lemma Rltb_le : forall a b, (a <= b)%R -> Rltb b a = false.
Proof. intros. unfold Rltb. destruct (Rlt_dec b a); [lra|reflexivity]. Qed.

Lemma third_axis_3 : forall l, List.length l = 3 -> third_axis l = 3.
Proof. intros [|a [|b [|c [|e l]]]] H; simpl in H; try discriminate; destruct c as [|[|c]]; reflexivity. Qed.
Lemma third_axis_4 : forall l, List.length l = 4 -> third_axis l = if len l 3 =? 1 then 4 else 3.
Proof. intros [|a [|b [|c [|e [|g l]]]]] H; simpl in H; try discriminate; destruct c as [|[|c]]; reflexivity. Qed.

(** C23, three or four axes *)
Theorem region_box : forall {A} (d : A) (f : image A) crpix (args : R * R * R * R) (center : bool) (zarg : option (Z * Z)) b0 b1 b2 b3,
  wf_image f -> List.length (i_naxis f) = 3 \/ List.length (i_naxis f) = 4 ->
  List.length crpix = List.length (i_naxis f) ->
  (b0, b1, b2, b3) = (match args with (a0, a1, a2, a3) => if center then (a0 - a1, a0 + a1, a2 - a3, a2 + a3)%R else args end) ->
  (b0 <= b1)%R -> (b2 <= b3)%R -> (0 <= py_int b1 \/ py_int b1 = -1)%Z -> (0 <= py_int b3 \/ py_int b3 = -1)%Z ->
  (forall z0 z1, zarg = Some (z0, z1) -> 1 <= z0 /\ 0 <= z1)%Z ->
  let N := List.length (i_naxis f) in
  let lim := limits (i_naxis f) (py_int b0, py_int b1) (py_int b2, py_int b3) zarg in
  exists out crpix', extract_region d f crpix args center zarg = POk (out, crpix') /\ wf_image out /\
    i_ctype out = i_ctype f /\ List.length (i_naxis out) = N /\ List.length crpix' = N /\
    (forall a, 1 <= a <= N -> len (i_naxis out) a = Z.to_nat (snd (lim a) - fst (lim a) + 1)) /\
    forall p, in_image (i_naxis out) p ->
      in_image (i_naxis f) (source lim p) /\ vox d out p = vox d f (source lim p) /\
      forall a, 1 <= a <= N ->
        (INR (p a + 1) - nth (a - 1) crpix' 0 = INR (source lim p a + 1) - nth (a - 1) crpix 0)%R.
Proof.
  intros A d f crpix args center zarg b0 b1 b2 b3 Wf HN Hc Hbox Hx Hy Hx1 Hy1 Hz N lim.
  set (naxis := i_naxis f) in *.
  set (c := third_axis naxis).
  set (X := clamp (len naxis 1) (py_int b0) (py_int b1)).
  set (Y := clamp (len naxis 2) (py_int b2) (py_int b3)).
  set (Z0 := match zarg with Some z => z | None => (1%Z, Z.of_nat (len naxis c)) end).
  set (bs := fun a => if a =? 1 then (fst X - 1, snd X)%Z else if a =? 2 then (fst Y - 1, snd Y)%Z
                      else if a =? c then (fst Z0 - 1, snd Z0)%Z else (0%Z, Z.of_nat (len naxis a))).
  set (new := fun a v => if a =? 1 then (v - IZR (fst X) + 1)%R else if a =? 2 then (v - IZR (fst Y) + 1)%R
               else if (a =? c) && (match zarg with Some _ => true | None => false end) then (v - IZR (fst Z0) + 1)%R else v).
  assert (E : extract_region d f crpix args center zarg =
    let data := slice_nd d (i_data f) (map bs (rev (seq 1 N))) in
    POk (mk_image (rev (shape data)) (i_ctype f) data, map (fun a => new a (nth (a - 1) crpix 0%R)) (seq 1 N))).
  { unfold extract_region.
    assert (Eb : box_of center args = (b0, b1, b2, b3)).
    { rewrite Hbox. destruct args as [[[a0 a1] a2] a3]. reflexivity. }
    rewrite Eb, (Rltb_le b0 b1 Hx), (Rltb_le b2 b3 Hy). fold naxis. cbv zeta. rewrite Hc. fold N.
    change (nth (1 - 1) naxis 0) with (len naxis 1). change (nth (2 - 1) naxis 0) with (len naxis 2).
    unfold naxis in *. destruct HN as [HN|HN]; fold N in HN.
    - assert (Ec : c = 3) by (apply third_axis_3; exact HN).
      rewrite HN. cbn [Nat.eqb Nat.ltb Nat.leb orb].
      unfold bs, new, Z0. rewrite Ec. reflexivity.
    - rewrite HN. cbn [Nat.eqb Nat.ltb Nat.leb orb].
      change (nth (3 - 1) (i_naxis f) 0) with (len (i_naxis f) 3). change (nth (4 - 1) (i_naxis f) 0) with (len (i_naxis f) 4).
      assert (Ec : c = if len (i_naxis f) 3 =? 1 then 4 else 3) by (apply third_axis_4; exact HN).
      unfold bs, new, Z0. rewrite Ec. destruct (len (i_naxis f) 3 =? 1) eqn:E3.
      + reflexivity.
      + reflexivity. }
  destruct (slice_axes d f bs Wf) as (Wo & So & Vo). fold naxis in So, Vo. fold N in Wo, So, Vo.
  rewrite E. cbv zeta. do 2 eexists. split; [reflexivity|].
  set (data := slice_nd d (i_data f) (map bs (rev (seq 1 N)))) in *.
  assert (HN2 : 3 <= N <= 4) by (unfold N; lia).
  assert (Ec : 3 <= c <= N).
  { unfold c. destruct HN as [HN|HN]; [rewrite (third_axis_3 _ HN)|rewrite (third_axis_4 _ HN); destruct (_ =? 1)]; unfold N; fold naxis; lia. }
  (* each axis *)
  assert (Hax : forall a, 1 <= a <= N ->
    snd (ax (len naxis a) (bs a)) = Z.to_nat (snd (lim a) - fst (lim a) + 1) /\
    (0 < snd (ax (len naxis a) (bs a)) -> fst (ax (len naxis a) (bs a)) = Z.to_nat (fst (lim a) - 1))).
  { intros a Ha. unfold lim, limits, bs. fold c. cbn [fst snd].
    destruct (Nat.eqb_spec a 1) as [->|N1].
    { destruct (clamp_snd (len naxis 1) (py_int b0) (py_int b1) Hx1) as (C1 & C2 & C3).
      apply ax_clip; unfold X; rewrite ?clamp_fst; lia. }
    destruct (Nat.eqb_spec a 2) as [->|N2].
    { destruct (clamp_snd (len naxis 2) (py_int b2) (py_int b3) Hy1) as (C1 & C2 & C3).
      apply ax_clip; unfold Y; rewrite ?clamp_fst; lia. }
    destruct (Nat.eqb_spec a c) as [->|N3].
    - unfold Z0. destruct zarg as [[z0 z1]|].
      + destruct (Hz z0 z1 eq_refl) as [Hz0 Hz1]. cbn [fst snd]. apply ax_clip; try lia. destruct (Z.eqb_spec z1 (-1)); lia.
      + cbn [fst snd]. change (1 - 1)%Z with 0%Z. rewrite ax_full. cbn [fst snd]. lia.
    - rewrite ax_full. cbn [fst snd]. lia. }
  assert (Llim : forall a, 1 <= a <= N -> (1 <= fst (lim a) /\ snd (lim a) <= Z.of_nat (len naxis a))%Z).
  { assert (Hc2 : forall n lo hi, (1 <= fst (clip n lo hi) /\ snd (clip n lo hi) <= Z.of_nat n)%Z).
    { intros. unfold clip. cbn [fst snd]. destruct (_ =? -1)%Z; lia. }
    intros a Ha. unfold lim, limits. fold c. destruct (Nat.eqb_spec a 1) as [->|]; [apply Hc2|].
    destruct (Nat.eqb_spec a 2) as [->|]; [apply Hc2|]. destruct (a =? c).
    - destruct zarg as [[z0 z1]|]; [apply Hc2|cbn [fst snd]; lia].
    - cbn [fst snd]. lia. }
  assert (Lsh : List.length (shape data) = N).
  { rewrite <- (rev_length (shape data)), So, map_length, seq_length. reflexivity. }
  assert (Llen : forall a, 1 <= a <= N -> len (rev (shape data)) a = Z.to_nat (snd (lim a) - fst (lim a) + 1)).
  { intros a Ha. unfold len. rewrite So, nth_map_seq by lia. replace (1 + (a - 1)) with a by lia. apply Hax, Ha. }
  split.
  { split; [cbn [i_data i_naxis]; rewrite rev_involutive; reflexivity|]. split; [exact Wo|].
    cbn [i_ctype i_naxis]. rewrite rev_length, Lsh. destruct Wf as (_ & _ & H). exact H. }
  split; [reflexivity|]. split; [cbn [i_naxis]; rewrite rev_length; exact Lsh|]. split; [rewrite map_length, seq_length; reflexivity|].
  split; [exact Llen|].
  intros p Hp.
  assert (Hp' : forall a, 1 <= a <= N -> p a < Z.to_nat (snd (lim a) - fst (lim a) + 1)).
  { intros a Ha. rewrite <- Llen by exact Ha. apply Hp. cbn [i_naxis]. rewrite rev_length, Lsh. exact Ha. }
  split.
  { intros a Ha. fold naxis in Ha. fold N in Ha. specialize (Hp' a Ha). specialize (Llim a Ha). unfold source. lia. }
  split.
  { unfold vox. cbn [i_naxis i_data]. rewrite rev_length, Lsh. fold naxis. fold N.
    rewrite Vo by (intros a Ha; rewrite (proj1 (Hax a Ha)); apply Hp', Ha).
    f_equal. apply map_ext_in. intros a Ha. apply in_rev in Ha. apply in_seq in Ha. unfold source. f_equal.
    apply Hax; [lia|]. rewrite (proj1 (Hax a ltac:(lia))). specialize (Hp' a ltac:(lia)). lia. }
  intros a Ha. rewrite nth_map_seq by lia. replace (1 + (a - 1)) with a by lia.
  unfold source. rewrite !plus_INR. simpl (INR 1). rewrite INR_IZR_INZ with (n := Z.to_nat _).
  rewrite Z2Nat.id by (specialize (Llim a Ha); lia). rewrite minus_IZR.
  unfold new, lim, limits. fold c. cbn [fst snd].
  destruct (Nat.eqb_spec a 1) as [->|N1]; [unfold X; rewrite clamp_fst; cbn [clip fst]; lra|].
  destruct (Nat.eqb_spec a 2) as [->|N2]; [unfold Y; rewrite clamp_fst; cbn [clip fst]; lra|].
  destruct (Nat.eqb_spec a c) as [->|N3].
  - unfold Z0. destruct zarg as [[z0 z1]|].
    + cbn [clip fst snd andb]. destruct (Hz z0 z1 eq_refl) as [Hz0 Hz1]. rewrite Z.max_r by lia. lra.
    + cbn [fst andb]. lra.
  - cbn [andb fst]. lra.
Qed.

(** Finding: -1 for an upper limit is rejected unless the lower limit is -1 or
    less as well. *)
Theorem minus_one_rejected : forall {A} (d : A) (f : image A) crpix a0 a2 a3 zarg,
  (-1 < a0)%R -> extract_region d f crpix (a0, -1, a2, a3)%R false zarg = PErr.
Proof.
  intros. unfold extract_region. cbn [box_of]. unfold Rltb at 1. destruct (Rlt_dec (-1) a0); [reflexivity|contradiction].
Qed.

(** Finding: on a two-dimensional image the last row and column of the box are
    lost. *)
Theorem region_2d : forall {A} (d : A) (f : image A) crpix x0 x1 y0 y1,
  wf_image f -> List.length (i_naxis f) = 2 ->
  (1 <= x0 <= x1)%Z -> (x1 <= Z.of_nat (len (i_naxis f) 1))%Z ->
  (1 <= y0 <= y1)%Z -> (y1 <= Z.of_nat (len (i_naxis f) 2))%Z ->
  exists out crpix', extract_region d f crpix (IZR x0, IZR x1, IZR y0, IZR y1) false None = POk (out, crpix') /\
    i_naxis out = [Z.to_nat (x1 - x0); Z.to_nat (y1 - y0)].
Proof.
  intros A d f crpix x0 x1 y0 y1 Wf HN Hx Hx1 Hy Hy1.
  unfold extract_region. cbn [box_of].
  rewrite !Rltb_le by (apply IZR_le; lia). cbv zeta. rewrite HN. cbn [Nat.eqb Nat.ltb Nat.leb orb].
  change (nth (1 - 1) (i_naxis f) 0) with (len (i_naxis f) 1). change (nth (2 - 1) (i_naxis f) 0) with (len (i_naxis f) 2).
  rewrite !py_int_IZR.
  do 2 eexists. split; [reflexivity|]. cbn [i_naxis].
  rewrite !clamp_fst.
  destruct (clamp_snd (len (i_naxis f) 1) x0 x1 ltac:(lia)) as (_ & E1 & _).
  destruct (clamp_snd (len (i_naxis f) 2) y0 y1 ltac:(lia)) as (_ & E2 & _).
  rewrite E1, E2. clear E1 E2.
  destruct (Z.eqb_spec x1 (-1)); [lia|]. destruct (Z.eqb_spec y1 (-1)); [lia|].
  rewrite !Z.max_r, !Z.min_r by lia.
  destruct (slice_axes d f (fun a => if a =? 1 then (x0 - 1, x1 - 1)%Z else (y0 - 1, y1 - 1)%Z) Wf) as (_ & E & _).
  rewrite HN in E. cbn [seq rev app map Nat.eqb] in E. rewrite E. unfold ax. cbn [fst snd].
  rewrite !bound_max by lia. repeat f_equal; lia.
Qed.

(** Finding: -1 for a limit of the third axis selects the last plane but one. *)
Theorem region_z_minus_one : exists (f : image nat) out crpix', wf_image f /\ i_naxis f = [1; 1; 4] /\ flat (i_data f) = [10; 20; 30; 40] /\
  extract_region 0 f [1; 1; 1]%R (IZR 1, IZR 1, IZR 1, IZR 1) false (Some (-1, -1)%Z) = POk (out, crpix') /\
  flat (i_data out) = [30].
Proof.
  exists (mk_image [1; 1; 4] [None; None; None] (mk_nd [4; 1; 1] [10; 20; 30; 40])).
  unfold extract_region. cbn [box_of]. rewrite !Rltb_le by (apply IZR_le; lia). cbv zeta. rewrite !py_int_IZR.
  do 2 eexists. split; [repeat split|]. split; [reflexivity|]. split; [reflexivity|]. split; [reflexivity|]. vm_compute. reflexivity.
Qed.

(** Finding: a box entirely outside the image, below its first column. *)
Theorem region_outside : exists (f : image nat) out crpix', wf_image f /\ i_naxis f = [5; 1; 1] /\ flat (i_data f) = [10; 20; 30; 40; 50] /\
  extract_region 0 f [1; 1; 1]%R (IZR (-6), IZR (-3), IZR 1, IZR 1) false None = POk (out, crpix') /\
  flat (i_data out) = [10; 20].
Proof.
  exists (mk_image [5; 1; 1] [None; None; None] (mk_nd [1; 1; 5] [10; 20; 30; 40; 50])).
  unfold extract_region. cbn [box_of]. rewrite !Rltb_le by (apply IZR_le; lia). cbv zeta. rewrite !py_int_IZR.
  do 2 eexists. split; [repeat split|]. split; [reflexivity|]. split; [reflexivity|]. split; [reflexivity|]. vm_compute. reflexivity.
Qed.
