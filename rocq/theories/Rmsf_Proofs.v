(** Lemmas about the RMSF and its doubled grid. *)
From Coq Require Import Reals List Arith ZArith Lia Lra Bool FunctionalExtensionality.
Set Warnings "-ambiguous-paths".
From Coquelicot Require Import Coquelicot.
From Verif Require Import CBase NdArray Interp_Model Synth_Model Synth_Spec Synth_Proofs Synth_Laws.
Import ListNotations.
Local Open Scope R_scope.

(* ------------------------------------------------- interpolation on nodes *)

Lemma interp_from_node : forall n s (ys : list R) k,
  length ys = n -> (s <= k < s + n)%nat ->
  interp_from (INR k) (combine (map INR (seq s n)) ys) = nth (k - s) ys 0.
Proof.
  induction n as [|n IH]; intros s ys k HL Hk; [lia|].
  destruct ys as [|y0 ys]; [discriminate|]. simpl in HL.
  destruct n as [|n].
  - destruct ys; [|discriminate]. simpl. replace (k - s)%nat with 0%nat by lia. reflexivity.
  - destruct ys as [|y1 ys]; [discriminate|].
    change (combine (map INR (seq s (S (S n)))) (y0 :: y1 :: ys)) with
      ((INR s, y0) :: (INR (S s), y1) :: combine (map INR (seq (S (S s)) n)) ys).
    change (interp_from (INR k) ((INR s, y0) :: (INR (S s), y1) :: combine (map INR (seq (S (S s)) n)) ys))
      with (if Rlt_dec (INR k) (INR (S s)) then y0 + (INR k - INR s) * ((y1 - y0) / (INR (S s) - INR s))
            else interp_from (INR k) (combine (map INR (seq (S s) (S n))) (y1 :: ys))).
    destruct (Rlt_dec (INR k) (INR (S s))) as [H|H].
    + apply INR_lt in H. replace k with s by lia. replace (s - s)%nat with 0%nat by lia.
      replace (INR s - INR s) with 0 by ring. simpl. ring.
    + assert (S s <= k)%nat. { destruct (le_lt_dec (S s) k); auto. exfalso. apply H. now apply lt_INR. }
      rewrite IH by (simpl in *; lia). replace (k - s)%nat with (S (k - S s)) by lia. reflexivity.
Qed.

Lemma np_interp_node : forall (ys : list R) k,
  (k < length ys)%nat -> np_interp (INR k) (map INR (seq 0 (length ys))) ys = nth k ys 0.
Proof.
  intros ys k Hk. destruct ys as [|y ys]; [simpl in Hk; lia|].
  unfold np_interp. cbn [length seq map combine].
  change (INR 0) with 0. destruct (Rlt_dec (INR k) 0) as [H|H].
  - exfalso. generalize (pos_INR k). lra.
  - change ((0, y) :: combine (map INR (seq 1 (length ys))) ys) with
      (combine (map INR (seq 0 (length (y :: ys)))) (y :: ys)).
    rewrite interp_from_node by (auto; simpl in *; lia). f_equal. lia.
Qed.


Lemma extrap_nodes : forall (phi : list R) i e,
  (2 <= length phi)%nat ->
  extrap (INR i - INR e) (map INR (seq 0 (length phi))) phi = Some (ext_index phi (Z.of_nat i - Z.of_nat e)).
Proof.
  intros phi i e HL. 
  assert (EX : INR i - INR e = IZR (Z.of_nat i - Z.of_nat e)) by (rewrite minus_IZR, <- !INR_IZR_INZ; reflexivity).
  rewrite EX. set (z := (Z.of_nat i - Z.of_nat e)%Z).
  assert (GEN : extrap (IZR z) (map INR (seq 0 (length phi))) phi =
    Some (let xl := nth (length phi - 1) (map INR (seq 0 (length phi))) 0 in
          let xm := nth (length phi - 2) (map INR (seq 0 (length phi))) 0 in
          let yl := nth (length phi - 1) phi 0 in let ym := nth (length phi - 2) phi 0 in
          if Rlt_dec xl (IZR z) then yl + (IZR z - xl) * (yl - ym) / (xl - xm)
          else if Rlt_dec (IZR z) 0 then nth 0 phi 0 + (IZR z - 0) * (nth 0 phi 0 - nth 1 phi 0) / (0 - 1)
          else np_interp (IZR z) (map INR (seq 0 (length phi))) phi)).
  { destruct phi as [|a [|b phi]]; simpl in HL; try lia. unfold extrap.
    cbn [length seq map]. rewrite map_length, seq_length. reflexivity. }
  rewrite GEN. f_equal. cbv zeta. rewrite !nth_map_seq by lia. rewrite !Nat.add_0_l.
  unfold ext_index.
  destruct (Z.ltb_spec z 0).
  - destruct (Rlt_dec (INR (length phi - 1)) (IZR z)) as [H1|H1].
    { exfalso. assert (IZR z < 0) by (apply IZR_lt; lia). generalize (pos_INR (length phi - 1)). lra. }
    destruct (Rlt_dec (IZR z) 0) as [H2|H2]; [field|]. exfalso. apply H2. apply IZR_lt; lia.
  - destruct (Rlt_dec (IZR z) 0) as [H2|H2]. { exfalso. apply lt_IZR in H2. lia. }
    destruct (Z.ltb_spec z (Z.of_nat (length phi))).
    + destruct (Rlt_dec (INR (length phi - 1)) (IZR z)) as [H1|H1].
      { exfalso. rewrite INR_IZR_INZ in H1. apply lt_IZR in H1. lia. }
      rewrite <- (Z2Nat.id z) at 1 by lia. rewrite <- INR_IZR_INZ, np_interp_node by lia. reflexivity.
    + destruct (Rlt_dec (INR (length phi - 1)) (IZR z)) as [H1|H1].
      * replace (INR (length phi - 1)) with (INR (length phi - 2) + 1).
        { field_simplify_eq; try lra. }
        rewrite <- S_INR. f_equal. lia.
      * exfalso. apply H1. rewrite INR_IZR_INZ. apply IZR_lt. lia.
Qed.

Lemma all_some_map : forall {A B} (f : A -> option B) (g : A -> B) l,
  (forall x, In x l -> f x = Some (g x)) -> all_some (map f l) = Some (map g l).
Proof.
  induction l; intros H; simpl; auto. rewrite H by now left. rewrite IHl; auto. intros; apply H; now right.
Qed.

Lemma phi2_double : forall phi, (2 <= length phi)%nat ->
  let e := Nat.div2 (length phi + 1) in
  phi2_grid true phi =
  Some (map (fun i => ext_index phi (Z.of_nat i - Z.of_nat e)) (seq 0 (2 * e + length phi))).
Proof.
  intros phi H e. unfold phi2_grid. apply all_some_map. intros i _. now apply extrap_nodes.
Qed.

Lemma phi2_raises : forall phi, (length phi < 2)%nat -> (1 <= length phi)%nat -> phi2_grid true phi = None.
Proof. intros [|a [|b phi]] H H'; simpl in *; try lia. reflexivity. Qed.

Lemma ext_antisym : forall phi i, (2 <= length phi)%nat -> antisym phi ->
  ext_index phi (Z.of_nat (length phi) - 1 - i) = - ext_index phi i.
Proof.
  intros phi i HL A. unfold ext_index. set (n := length phi) in *.
  assert (A0 : nth (n - 1) phi 0 = - nth 0 phi 0).
  { rewrite <- (A 0%nat) by (fold n; lia). fold n. f_equal. lia. }
  assert (A1 : nth (n - 2) phi 0 = - nth 1 phi 0).
  { rewrite <- (A 1%nat) by (fold n; lia). fold n. f_equal. lia. }
  destruct (Z.ltb_spec i 0), (Z.ltb_spec (Z.of_nat n - 1 - i) 0); try lia.
  - destruct (Z.ltb_spec (Z.of_nat n - 1 - i) (Z.of_nat n)); try lia.
    rewrite A0, A1. rewrite !minus_IZR, <- INR_IZR_INZ, minus_INR by lia. simpl INR. ring.
  - destruct (Z.ltb_spec i (Z.of_nat n)); try lia.
    rewrite A0, A1. rewrite !minus_IZR, <- INR_IZR_INZ, minus_INR by lia. simpl INR. ring.
  - destruct (Z.ltb_spec i (Z.of_nat n)); try lia.
    destruct (Z.ltb_spec (Z.of_nat n - 1 - i) (Z.of_nat n)); try lia.
    rewrite <- A by (fold n; lia). fold n. f_equal. lia.
Qed.

Lemma phi2_antisym : forall phi phi2 d, antisym phi -> phi2_grid d phi = Some phi2 -> antisym phi2.
Proof.
  intros phi phi2 d A H. destruct d; [|simpl in H; inversion H; subst; auto].
  destruct (le_lt_dec 2 (length phi)) as [HL|HL].
  - rewrite phi2_double in H by auto. cbv zeta in H. injection H as <-.
    intros k Hk. rewrite map_length, seq_length in *.
    rewrite !nth_map_seq by lia. rewrite !Nat.add_0_l. rewrite <- ext_antisym by auto. f_equal. lia.
  - destruct phi as [|a [|b phi]]; simpl in HL; try lia; simpl in H; inversion H. intros k Hk. simpl in Hk. lia.
Qed.

(* ---------------------------------------------------------------- RMSF *)


Lemma filter_len_le : forall {A} (f : A -> bool) l, (length (filter f l) <= length l)%nat.
Proof. induction l; simpl; auto. destruct (f a); simpl; lia. Qed.

Section R.
  Variables (n m : nat) (msk : list bool) (l2 phi2 w0 : list R) (lam0in : option R).
  Hypothesis Hn : n = length l2.

  Lemma xySum_full : forall j, xySum m msk j = m -> forall p, (p < m)%nat -> mskd m msk j p = true.
  Proof.
    intros j H p Hp. unfold xySum in H.
    destruct (mskd m msk j p) eqn:E; auto. exfalso.
    assert (G : forall l, (length (filter (fun p => mskd m msk j p) l) = length l)%nat ->
       forall q, In q l -> mskd m msk j q = true).
    { induction l as [|x l IH]; simpl; intros HL q Hq; [contradiction|].
      destruct (mskd m msk j x) eqn:EX; simpl in HL.
      - destruct Hq as [<-|Hq]; auto.
      - pose proof (filter_len_le (fun p => mskd m msk j p) l). lia. }
    specialize (G (seq 0 m)). rewrite seq_length in G. rewrite (G H p) in E; [discriminate|]. apply in_seq; lia.
  Qed.

  Lemma xySum_none : forall j, xySum m msk j = 0%nat -> forall p, (p < m)%nat -> mskd m msk j p = false.
  Proof.
    intros j H p Hp. unfold xySum in H. apply length_zero_iff_nil in H.
    destruct (mskd m msk j p) eqn:E; auto. exfalso.
    assert (In p (filter (fun p => mskd m msk j p) (seq 0 m))). { apply filter_In. split; auto. apply in_seq; lia. }
    rewrite H in H0. destruct H0.
  Qed.

  Lemma unmasked_weight : forall j p, (j < n)%nat -> (p < m)%nat ->
    (if mskd m msk j p then 0 else nth j (rw_eff n m msk w0) 0) = (if mskd m msk j p then 0 else nth j w0 0).
  Proof.
    intros j p Hj Hp. destruct (mskd m msk j p) eqn:E; auto. unfold rw_eff. rewrite nth_map_seq by lia. simpl.
    destruct (Nat.eqb_spec (xySum m msk j) m) as [H|H]; auto.
    rewrite (xySum_full j H p Hp) in E. discriminate.
  Qed.

  Lemma rK_wsum : forall p, (p < m)%nat ->
    rK_pix n m msk w0 p = inv_or_0 (wsum (mask_chans n m msk l2 w0 p)).
  Proof.
    intros p Hp. unfold rK_pix, wsum, mask_chans. f_equal. rewrite rsum_flat_map. apply rsum_map_ext.
    intros j Hj. apply in_seq in Hj. rewrite unmasked_weight by lia. unfold mskd, at2.
    destruct (nth (j * m + p) msk false); simpl; rewrite ?rsum_cons, ?rsum_nil; ring.
  Qed.

  Lemma rmsf_pix_eq : forall p k l0, (p < m)%nat -> (k < length phi2)%nat ->
    antisym phi2 -> rlam0 n m msk l2 w0 lam0in = Some l0 ->
    wsum (mask_chans n m msk l2 w0 p) <> 0 ->
    nth k (rmsf_pix n m msk l2 phi2 w0 lam0in p) None = Some (RMSF_spec (mask_chans n m msk l2 w0 p) l0 (nth k phi2 0)).
  Proof.
    intros p k l0 Hp Hk A HL W. unfold rmsf_pix. rewrite HL. unfold nufft1d3. rewrite !map_map.
    set (G := fun f : R => _).
    rewrite nth_indep with (d' := G 0) by (rewrite map_length, rev_length; lia).
    rewrite map_nth, rev_nth by lia.
    replace (length phi2 - S k)%nat with (length phi2 - 1 - k)%nat by lia. rewrite A by auto.
    unfold G. f_equal. rewrite rK_wsum by auto. rewrite inv_or_0_nz, RtoC_inv_mult by auto.
    unfold RMSF_spec. f_equal. clear G.
    rewrite (list_as_seq l2 0) at 1. rewrite map_map, <- Hn, combine_map_same, map_map. simpl.
    unfold mask_chans. rewrite csum_flat_map. apply csum_map_ext. intros j Hj. apply in_seq in Hj.
    rewrite unmasked_weight by lia. unfold mskd, at2.
    destruct (nth (j * m + p) msk false); simpl; rewrite ?csum_cons, ?csum_nil; [ring|].
    replace (- nth k phi2 0 * 2 * (nth j l2 0 - l0)) with (-2 * nth k phi2 0 * (nth j l2 0 - l0)) by ring. ring.
  Qed.

  Lemma rw_1d : forall j p, do1Dcalc n m msk = true -> (j < n)%nat -> (p < m)%nat ->
    nth j (rw_eff n m msk w0) 0 = (if mskd m msk j p then 0 else nth j w0 0).
  Proof.
    intros j p D Hj Hp. unfold do1Dcalc in D. rewrite forallb_forall in D.
    specialize (D j ltac:(apply in_seq; lia)). unfold rw_eff. rewrite nth_map_seq by lia. simpl.
    destruct (Nat.eqb_spec (xySum m msk j) m) as [H|H].
    - now rewrite (xySum_full j H p Hp).
    - apply orb_true_iff in D. destruct D as [D|D]; [apply Nat.eqb_eq in D|discriminate].
      now rewrite (xySum_none j D p Hp).
  Qed.

  Lemma rw_1d_sum : forall p, do1Dcalc n m msk = true -> (p < m)%nat ->
    rsum (rw_eff n m msk w0) = wsum (mask_chans n m msk l2 w0 p).
  Proof.
    intros p D Hp. rewrite (list_as_seq (rw_eff n m msk w0) 0).
    assert (LE : length (rw_eff n m msk w0) = n) by (unfold rw_eff; now rewrite map_length, seq_length).
    rewrite LE. unfold wsum, mask_chans. rewrite rsum_flat_map. apply rsum_map_ext. intros j Hj. apply in_seq in Hj.
    rewrite (rw_1d j p) by (auto; lia). unfold mskd, at2.
    destruct (nth (j * m + p) msk false); simpl; rewrite ?rsum_cons, ?rsum_nil; ring.
  Qed.

  Lemma rmsf_1d_eq : forall p k l0, do1Dcalc n m msk = true -> (p < m)%nat -> (k < length phi2)%nat ->
    rlam0 n m msk l2 w0 lam0in = Some l0 ->
    wsum (mask_chans n m msk l2 w0 p) <> 0 ->
    nth k (rmsf_1d n m msk l2 phi2 w0 lam0in) None = Some (RMSF_spec (mask_chans n m msk l2 w0 p) l0 (nth k phi2 0)).
  Proof.
    intros p k l0 D Hp Hk HL W. unfold rmsf_1d. rewrite HL. rewrite (rw_1d_sum p) by auto.
    set (G := fun f : R => _).
    rewrite nth_indep with (d' := G 0) by (rewrite map_length; lia).
    rewrite map_nth. unfold G. destruct (Req_EM_T _ 0) as [E|_]; [contradiction|]. f_equal.
    rewrite Cmult_comm, RtoC_inv_mult by auto. unfold RMSF_spec. f_equal. clear G.
    assert (LE : length (rw_eff n m msk w0) = n) by (unfold rw_eff; now rewrite map_length, seq_length).
    rewrite (list_as_seq (rw_eff n m msk w0) 0), (list_as_seq l2 0) at 1. rewrite LE, <- Hn, combine_map_same, map_map. simpl.
    unfold mask_chans. rewrite csum_flat_map. apply csum_map_ext. intros j Hj. apply in_seq in Hj.
    rewrite (rw_1d j p) by (auto; lia). unfold mskd, at2.
    destruct (nth (j * m + p) msk false); simpl; rewrite ?csum_cons, ?csum_nil; ring.
  Qed.
End R.



Theorem rmsf_refines : forall fit l2 phi wA msk lam0in double fitRMSF phi2,
  valid_rmsf l2 wA msk -> phi2_grid double phi = Some phi2 ->
  exists r, get_rmsf_planes fit l2 phi wA (Some msk) lam0in double fitRMSF = RetOk r /\
    phi2Arr r = phi2 /\
    forall k p l0, (k < length phi2)%nat -> (p < mpix msk)%nat -> rmsf_lam0 r = Some l0 ->
      let chs := mask_chans (length l2) (mpix msk) (flat msk) l2 (weights_of (length l2) wA) p in
      wsum chs <> 0 ->
      antisym phi \/ (forall j, (j < length l2)%nat ->
          (forall p, (p < mpix msk)%nat -> nth (j * mpix msk + p) (flat msk) false = true) \/
          (forall p, (p < mpix msk)%nat -> nth (j * mpix msk + p) (flat msk) false = false)) ->
      at2 (mpix msk) None (flat (RMSFcube r)) k p = Some (RMSF_spec chs l0 (nth k phi2 0)).
Proof.
  intros fit l2 phi wA msk lam0in double fitRMSF phi2 (V0 & V1 & V2 & V3) HG.
  unfold get_rmsf_planes. rewrite HG. rewrite prep_len by auto. rewrite Nat.eqb_refl. simpl negb. cbv iota.
  replace (Nat.leb (length (shape msk)) 3) with true by (symmetry; apply Nat.leb_le; lia).
  simpl negb. cbv iota. rewrite V2, Nat.eqb_refl. simpl negb. cbv iota.
  destruct l2 as [|l l2']; [congruence|]. set (l2 := l :: l2') in *.
  eexists. split; [reflexivity|]. cbn [phi2Arr rmsf_lam0 RMSFcube]. split; [reflexivity|].
  intros k p l0 Hk Hp HL W HA. fold (mpix msk) in *.
  match goal with |- at2 _ _ (flat ?X) _ _ = _ =>
    assert (FE : flat X = tab2 (length phi2) (mpix msk) (fun k p => nth k
      (if do1Dcalc (length l2) (mpix msk) (flat msk)
       then rmsf_1d (length l2) (mpix msk) (flat msk) l2 phi2 (prep_weights (length l2) wA) lam0in
       else rmsf_pix (length l2) (mpix msk) (flat msk) l2 phi2 (prep_weights (length l2) wA) lam0in p) None)) end.
  { destruct (Nat.eqb (length (shape msk)) 3); reflexivity. }
  rewrite FE. clear FE. rewrite at2_tab2 by auto.
  destruct (do1Dcalc (length l2) (mpix msk) (flat msk)) eqn:D.
  - now apply rmsf_1d_eq.
  - destruct HA as [HA|HA].
    + apply rmsf_pix_eq; auto. eapply phi2_antisym; eauto.
    + exfalso. assert (do1Dcalc (length l2) (mpix msk) (flat msk) = true); [|congruence].
      unfold do1Dcalc. apply forallb_forall. intros j Hj. apply in_seq in Hj. apply orb_true_iff.
      destruct (HA j) as [F|F]; [lia| |].
      * right. apply Nat.eqb_eq. unfold xySum.
        assert (filter (fun p => mskd (mpix msk) (flat msk) j p) (seq 0 (mpix msk)) = seq 0 (mpix msk)) as ->.
        { assert (GG : forall l1, (forall q, In q l1 -> mskd (mpix msk) (flat msk) j q = true) ->
             filter (fun p => mskd (mpix msk) (flat msk) j p) l1 = l1).
          { induction l1 as [|x l1 IH]; simpl; intros Q; auto. rewrite Q by now left. f_equal. apply IH. intros; apply Q; now right. }
          apply GG. intros q Hq. apply in_seq in Hq. apply F. lia. }
        apply seq_length.
      * left. apply Nat.eqb_eq. unfold xySum.
        assert (filter (fun p => mskd (mpix msk) (flat msk) j p) (seq 0 (mpix msk)) = []) as ->; [|reflexivity].
        assert (GG : forall l1, (forall q, In q l1 -> mskd (mpix msk) (flat msk) j q = false) ->
             filter (fun p => mskd (mpix msk) (flat msk) j p) l1 = []).
        { induction l1 as [|x l1 IH]; simpl; intros Q; auto. rewrite Q by now left. apply IH. intros; apply Q; now right. }
        apply GG. intros q Hq. apply in_seq in Hq. apply F. lia.
Qed.

(** lam0 of the RMSF equals lam0 of the synthesis for matching flags, unless
    all channels are flagged. *)
Lemma rmsf_lam0_ret : forall fit l2 phi wA msk lam0in double fitRMSF r,
  get_rmsf_planes fit l2 phi wA (Some msk) lam0in double fitRMSF = RetOk r ->
  rmsf_lam0 r = rlam0 (length l2) (mpix msk) (flat msk) l2 (prep_weights (length l2) wA) lam0in.
Proof.
  intros fit l2 phi wA msk lam0in double fitRMSF r. unfold get_rmsf_planes.
  destruct (phi2_grid double phi); [|discriminate].
  destruct (negb _); [discriminate|]. destruct (negb _); [discriminate|]. destruct (negb _); [discriminate|].
  destruct l2; [discriminate|]. intros H. inversion H. reflexivity.
Qed.

(* ------------------------------------------------------- weight scaling *)

Lemma csum_combine_scale : forall c (g : R -> C) v l2,
  csum (map (fun wl => (RtoC (fst wl) * g (snd wl))%C) (combine (map (Rmult c) v) l2)) =
  (RtoC c * csum (map (fun wl => (RtoC (fst wl) * g (snd wl))%C) (combine v l2)))%C.
Proof.
  intros c g v. induction v as [|x v IH]; intros [|y l2]; simpl; rewrite ?csum_cons, ?csum_nil; try ring.
  rewrite IH, RtoC_mult. ring.
Qed.

Lemma rsum_combine_scale : forall c v (l2 : list R),
  rsum (map (fun wl => fst wl * snd wl) (combine (map (Rmult c) v) l2)) =
  c * rsum (map (fun wl => fst wl * snd wl) (combine v l2)).
Proof.
  intros c v. induction v as [|x v IH]; intros [|y l2]; simpl; rewrite ?rsum_cons, ?rsum_nil; try ring.
  rewrite IH. ring.
Qed.

Lemma rsum_scale : forall c l, rsum (map (Rmult c) l) = c * rsum l.
Proof. intros. rewrite (rsum_map_scal (fun x => x)). now rewrite map_id. Qed.

Lemma rw_eff_scale : forall n m msk w0 c, rw_eff n m msk (map (Rmult c) w0) = map (Rmult c) (rw_eff n m msk w0).
Proof.
  intros. unfold rw_eff. rewrite map_map. apply map_ext. intros j. rewrite nth_scale.
  destruct (Nat.eqb _ _); ring.
Qed.

Lemma rlam0_scale : forall n m msk l2 w0 L c, c <> 0 ->
  rlam0 n m msk l2 (map (Rmult c) w0) L = rlam0 n m msk l2 w0 L.
Proof.
  intros n m msk l2 w0 L c Hc. unfold rlam0, rmsf_lam0_of. destruct L; auto.
  rewrite rw_eff_scale, rsum_scale, rsum_combine_scale.
  destruct (Req_EM_T (c * rsum _) 0) as [E|E], (Req_EM_T (rsum (rw_eff n m msk w0)) 0) as [E'|E']; auto.
  - apply Rmult_integral in E. tauto.
  - rewrite E', Rmult_0_r in E. contradiction.
  - f_equal. field. auto.
Qed.

Lemma rmsf_1d_scale : forall n m msk l2 phi2 w0 L c, c <> 0 ->
  rmsf_1d n m msk l2 phi2 (map (Rmult c) w0) L = rmsf_1d n m msk l2 phi2 w0 L.
Proof.
  intros n m msk l2 phi2 w0 L c Hc. unfold rmsf_1d. rewrite rlam0_scale, rw_eff_scale, rsum_scale by auto.
  apply map_ext. intros f. destruct (rlam0 _ _ _ _ _ _) as [l0|]; auto.
  rewrite (csum_combine_scale c (fun x => cis (-2 * f * (x - l0)))).
  destruct (Req_EM_T (c * rsum _) 0) as [E|E], (Req_EM_T (rsum (rw_eff n m msk w0)) 0) as [E'|E']; auto.
  - apply Rmult_integral in E. tauto.
  - rewrite E', Rmult_0_r in E. contradiction.
  - f_equal. replace (1 / (c * rsum (rw_eff n m msk w0))) with ((1 / c) * (1 / rsum (rw_eff n m msk w0))) by (field; auto).
    rewrite RtoC_mult.
    match goal with |- (?a * ?b * (?d * ?e))%C = _ => replace (a * b * (d * e))%C with ((d * a) * (b * e))%C by ring end.
    rewrite <- RtoC_mult. replace (c * (1 / c)) with 1 by (field; auto). ring.
Qed.

Lemma rK_scale : forall n m msk w0 p c, c <> 0 -> rK_pix n m msk (map (Rmult c) w0) p = rK_pix n m msk w0 p / c.
Proof.
  intros n m msk w0 p c Hc. unfold rK_pix. rewrite rw_eff_scale.
  replace (rsum (map (fun j => if mskd m msk j p then 0 else nth j (map (Rmult c) (rw_eff n m msk w0)) 0) (seq 0 n)))
    with (c * rsum (map (fun j => if mskd m msk j p then 0 else nth j (rw_eff n m msk w0) 0) (seq 0 n))).
  2:{ rewrite <- rsum_map_scal. apply rsum_map_ext. intros j _. rewrite nth_scale. destruct (mskd m msk j p); ring. }
  unfold inv_or_0. set (s := rsum _).
  destruct (Req_EM_T (c * s) 0) as [E|E], (Req_EM_T s 0) as [E'|E']; try (field; auto).
  - apply Rmult_integral in E. tauto.
  - rewrite E', Rmult_0_r in E. contradiction.
Qed.

Lemma rmsf_pix_scale : forall n m msk l2 phi2 w0 L p c, c <> 0 ->
  rmsf_pix n m msk l2 phi2 (map (Rmult c) w0) L p = rmsf_pix n m msk l2 phi2 w0 L p.
Proof.
  intros n m msk l2 phi2 w0 L p c Hc. unfold rmsf_pix. rewrite rlam0_scale, rK_scale by auto.
  destruct (rlam0 _ _ _ _ _ _) as [l0|]; auto. unfold nufft1d3. rewrite !map_map. apply map_ext. intros f. f_equal.
  rewrite rw_eff_scale.
  set (S1 := csum _). set (S2 := csum (map _ (combine _ (map (fun j => RtoC (if mskd m msk j p then 0 else nth j (rw_eff n m msk w0) 0)) _)))).
  assert (S1 = (RtoC c * S2)%C) as ->.
  { unfold S1, S2. generalize (map (fun l => l - l0) l2) as xs. generalize (seq 0 n) as js.
    induction js as [|j js IH]; intros [|x xs]; simpl; rewrite ?csum_cons, ?csum_nil; try ring.
    rewrite IH, nth_scale. destruct (mskd m msk j p); rewrite ?RtoC_mult; ring. }
  unfold Rdiv. rewrite RtoC_mult.
  match goal with |- (?a * ?b * (?d * ?e))%C = _ => replace (a * b * (d * e))%C with ((a * e) * (b * d))%C by ring end.
  rewrite <- RtoC_mult, Rinv_r by auto. ring.
Qed.

Theorem rmsf_weight_scale : forall fit l2 phi w msk lam0in double fitRMSF c, c <> 0 ->
  get_rmsf_planes fit l2 phi (Some (map (scale_w c) w)) msk lam0in double fitRMSF =
  get_rmsf_planes fit l2 phi (Some w) msk lam0in double fitRMSF.
Proof.
  intros fit l2 phi w msk lam0in double fitRMSF c Hc. unfold get_rmsf_planes.
  destruct (phi2_grid double phi) as [phi2|]; auto.
  assert (P : prep_weights (length l2) (Some (map (scale_w c) w)) = map (Rmult c) (prep_weights (length l2) (Some w))).
  { simpl. rewrite !map_map. apply map_ext. intros [x|]; simpl; ring. }
  rewrite P, map_length. destruct (negb _); auto. set (mk := match msk with Some a => a | None => _ end).
  destruct (negb _); auto. destruct (negb _); auto. destruct l2 as [|x l2']; auto. set (l2 := x :: l2') in *.
  cbv zeta. rewrite rlam0_scale by auto. rewrite rmsf_1d_scale by auto.
  assert (SP : rmsf_pix (length l2) (prodn (tl (shape mk))) (flat mk) l2 phi2
      (map (Rmult c) (prep_weights (length l2) (Some w))) lam0in =
    rmsf_pix (length l2) (prodn (tl (shape mk))) (flat mk) l2 phi2 (prep_weights (length l2) (Some w)) lam0in)
    by (apply functional_extensionality; intros; now apply rmsf_pix_scale).
  rewrite SP. reflexivity.
Qed.

(* ------------------------------------------------ thin source and RMSF *)

Lemma RMSF_mask : forall n m Q U msk l2 w p l0 f,
  (forall j, (j < n)%nat -> nth (j * m + p) msk false =
     negb (finite (nth (j * m + p) Q None) && finite (nth (j * m + p) U None))) ->
  RMSF_spec (pixel_chans n m Q U l2 w p) l0 f = RMSF_spec (mask_chans n m msk l2 w p) l0 f /\
  wsum (pixel_chans n m Q U l2 w p) = wsum (mask_chans n m msk l2 w p).
Proof.
  intros n m Q U msk l2 w p l0 f H.
  assert (W : wsum (pixel_chans n m Q U l2 w p) = wsum (mask_chans n m msk l2 w p)).
  { unfold wsum, pixel_chans, mask_chans. rewrite !rsum_flat_map. apply rsum_map_ext. intros j Hj. apply in_seq in Hj.
    rewrite H by lia. destruct (nth (j * m + p) Q None), (nth (j * m + p) U None); reflexivity. }
  split; [|exact W]. unfold RMSF_spec. rewrite W. f_equal.
  unfold pixel_chans, mask_chans. rewrite !csum_flat_map. apply csum_map_ext. intros j Hj. apply in_seq in Hj.
  rewrite H by lia. destruct (nth (j * m + p) Q None), (nth (j * m + p) U None); reflexivity.
Qed.


Theorem synth_thin_is_shifted_rmsf :
  forall fit dataQ dataU l2 phi wA lam0in p amp psi RM msk double fitRMSF phi2,
  valid_synth dataQ dataU l2 wA -> antisym phi -> nonneg_w wA -> 0 <= amp ->
  (p < npix dataQ)%nat -> thin_pixel dataQ dataU l2 p amp psi RM ->
  l2 <> [] -> shape msk = shape dataQ ->
  (forall j, (j < length l2)%nat ->
     at2 (npix dataQ) false (flat msk) j p =
     negb (finite (at2 (npix dataQ) None (flat dataQ) j p) && finite (at2 (npix dataQ) None (flat dataU) j p))) ->
  phi2_grid double phi = Some phi2 ->
  0 < wsum (pixel_chans (length l2) (npix dataQ) (flat dataQ) (flat dataU) l2 (weights_of (length l2) wA) p) ->
  exists r s,
    do_rmsynth_planes dataQ dataU l2 phi wA lam0in = Some r /\
    get_rmsf_planes fit l2 phi wA (Some msk) (Some (synth_lam0 r)) double fitRMSF = RetOk s /\
    forall k i, (k < length phi)%nat -> (i < length phi2)%nat -> nth k phi 0 - RM = nth i phi2 0 ->
      exists g, at2 (npix dataQ) None (flat (RMSFcube s)) i p = Some g /\
        forall z, at2 (npix dataQ) None (flat (FDFcube r)) k p = Some z ->
          z = (RtoC amp * cis (2 * (psi + RM * synth_lam0 r)) * g)%C.
Proof.
  intros fit dataQ dataU l2 phi wA lam0in p amp psi RM msk double fitRMSF phi2 V A NW Ha Hp T NE SH MF HG W.
  destruct (synth_thin_source dataQ dataU l2 phi wA lam0in p amp psi RM V A NW Ha Hp T W) as (r & Er & F1 & _).
  assert (MP : mpix msk = npix dataQ) by (unfold mpix, npix; now rewrite SH).
  assert (VR : valid_rmsf l2 wA msk).
  { destruct V as (V1 & V2 & V3 & V4). split; [auto|]. rewrite SH. auto. }
  destruct (rmsf_refines fit l2 phi wA msk (Some (synth_lam0 r)) double fitRMSF phi2 VR HG) as (s & Es & _ & F2).
  exists r, s. split; [exact Er|]. split; [exact Es|].
  intros k i Hk Hi Hki.
  assert (L0 : rmsf_lam0 s = Some (synth_lam0 r)) by (rewrite (rmsf_lam0_ret _ _ _ _ _ _ _ _ _ Es); reflexivity).
  pose proof (RMSF_mask (length l2) (npix dataQ) (flat dataQ) (flat dataU) (flat msk) l2 (weights_of (length l2) wA) p
     (synth_lam0 r) (nth i phi2 0) MF) as [RE WE].
  specialize (F2 i p (synth_lam0 r) Hi). rewrite MP in F2. specialize (F2 Hp L0).
  cbv zeta in F2. rewrite <- WE in F2. specialize (F2 ltac:(lra) (or_introl A)).
  eexists. split; [exact F2|]. intros z Hz. destruct (F1 k z Hk Hz) as [-> _]. rewrite Hki. now rewrite RE.
Qed.

(* ------------------------------------------- RMSF facts at the API level *)

Theorem rmsf_norm_bound_sym : forall fit l2 phi wA msk lam0in double fitRMSF phi2 p,
  valid_rmsf l2 wA msk -> phi2_grid double phi = Some phi2 -> nonneg_w wA -> (p < mpix msk)%nat ->
  antisym phi ->
  0 < wsum (mask_chans (length l2) (mpix msk) (flat msk) l2 (weights_of (length l2) wA) p) ->
  exists r, get_rmsf_planes fit l2 phi wA (Some msk) lam0in double fitRMSF = RetOk r /\
    forall k, (k < length phi2)%nat -> rmsf_lam0 r <> None ->
      exists z, at2 (mpix msk) None (flat (RMSFcube r)) k p = Some z /\
        Cmod z <= 1 /\
        (nth k phi2 0 = 0 -> z = RtoC 1) /\
        at2 (mpix msk) None (flat (RMSFcube r)) (length phi2 - 1 - k) p = Some (Cconj z).
Proof.
  intros fit l2 phi wA msk lam0in double fitRMSF phi2 p V HG NW Hp A W.
  destruct (rmsf_refines fit l2 phi wA msk lam0in double fitRMSF phi2 V HG) as (r & E & _ & F).
  exists r. split; [exact E|]. intros k Hk L0. destruct (rmsf_lam0 r) as [l0|]; [|congruence].
  pose proof (F k p l0 Hk Hp eq_refl ltac:(lra) (or_introl A)) as Fk.
  pose proof (F (length phi2 - 1 - k)%nat p l0 ltac:(lia) Hp eq_refl ltac:(lra) (or_introl A)) as Fm.
  eexists. split; [exact Fk|]. split; [|split].
  - apply RMSF_le_1; auto. intros c Hc. unfold mask_chans in Hc. apply in_flat_map in Hc.
    destruct Hc as (j & _ & Hc). destruct (nth _ (flat msk) false); [destruct Hc|]. destruct Hc as [<-|[]]. simpl.
    change weights_of with prep_weights. now apply prep_nonneg.
  - intros ->. apply RMSF_at_0. lra.
  - rewrite Fm. f_equal. rewrite <- RMSF_conj. f_equal. apply (phi2_antisym phi phi2 double A HG). auto.
Qed.

(** Without a fit, or when the fit fails, the width is 3.8/(range of l2). *)
Lemma fold_max_ge : forall l x, x <= fold_left Rmax l x /\ (forall y, In y l -> y <= fold_left Rmax l x).
Proof.
  induction l as [|a l IH]; intros x; simpl; [split; [lra|contradiction]|].
  destruct (IH (Rmax x a)) as [H1 H2]. split.
  - eapply Rle_trans; [apply Rmax_l|exact H1].
  - intros y [<-|Hy]; auto. eapply Rle_trans; [apply Rmax_r|exact H1].
Qed.

(* ------------------------------------------------- cube pixel, flags removed *)

Theorem synth_cube_drop_flagged : forall dataQ dataU l2 phi wA lam0in p,
  valid_synth dataQ dataU l2 wA -> (p < npix dataQ)%nat ->
  exists r r1,
    let q := flat (column dataQ (length l2) p) in
    let u := flat (column dataU (length l2) p) in
    let g := good q u in
    do_rmsynth_planes dataQ dataU l2 phi wA lam0in = Some r /\
    do_rmsynth_planes (mk_nd [length (select g l2)] (select g q)) (mk_nd [length (select g l2)] (select g u))
       (select g l2) phi (option_map (select g) wA) (Some (synth_lam0 r)) = Some r1 /\
    forall k, (k < length phi)%nat ->
      at2 (npix dataQ) None (flat (FDFcube r)) k p = nth k (flat (FDFcube r1)) None.
Proof.
  intros dataQ dataU l2 phi wA lam0in p V Hp.
  destruct (synth_pixel_alone dataQ dataU l2 phi wA lam0in p V Hp) as (r & r1 & E & E1 & _ & H).
  exists r, r1. cbv zeta. split; [exact E|]. split; [|exact H].
  rewrite <- E1. unfold column at 5 6 7 8. symmetry.
  assert (HL : forall d, length (flat (column d (length l2) p)) = length l2)
    by (intros; unfold column; simpl; now rewrite map_length, seq_length).
  apply (synth_drop_flagged (flat (column dataQ (length l2) p)) (flat (column dataU (length l2) p)) l2 phi wA (Some (synth_lam0 r)));
    auto. apply V.
Qed.
