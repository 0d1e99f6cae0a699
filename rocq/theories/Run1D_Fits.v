(** The 1-D tool on a pixel of FITS cubes. *)
From Coq Require Import Reals List Arith ZArith Bool Lra Lia.
Set Warnings "-ambiguous-paths".
From Coquelicot Require Import Coquelicot.
From Verif Require Import CBase NdArray PyRes PyList PyList_Proofs Setup_Model Setup_Spec Setup_Proofs StokesI_Model Synth_Spec Clean_Grid Run1D_Model Run1D_Spec Run1D_Proofs Run1D_Total.
Import ListNotations.
Local Open Scope R_scope.

Lemma round_near : forall px n, Rabs (px - INR n) < 1 / 2 -> py_round px = Z.of_nat n.
Proof.
  intros px n H. pose proof (py_round_close px) as C. assert (D : Rabs (IZR (py_round px) - INR n) < 1).
  { replace (IZR (py_round px) - INR n) with ((IZR (py_round px) - px) + (px - INR n)) by ring. eapply Rle_lt_trans; [apply Rabs_triang|]. lra. }
  rewrite INR_IZR_INZ, <- minus_IZR, <- abs_IZR in D. apply lt_IZR in D. lia.
Qed.

Lemma asks_index : forall p y x, asks_for p y x -> pixel_index p = (Z.of_nat y, Z.of_nat x).
Proof.
  intros [px py|px py] y x [H1 H2]; cbn in *.
  - subst. rewrite !INR_IZR_INZ, <- !plus_IZR, !py_int_IZR. f_equal; lia.
  - now rewrite (round_near px x H1), (round_near py y H2).
Qed.

Lemma np_index_in : forall n i, (i < n)%nat -> np_index n (Z.of_nat i) = POk i.
Proof.
  intros n i H. unfold np_index. replace (Z.of_nat i <? 0)%Z with false by (symmetry; apply Z.ltb_ge; lia).
  replace (0 <=? Z.of_nat i)%Z with true by (symmetry; apply Z.leb_le; lia). replace (Z.of_nat i <? Z.of_nat n)%Z with true by (symmetry; apply Z.ltb_lt; lia).
  cbn. now rewrite Nat2Z.id.
Qed.
Lemma np_index_over : forall n i, (n <= i)%nat -> np_index n (Z.of_nat i) = PErr.
Proof.
  intros n i H. unfold np_index. replace (Z.of_nat i <? 0)%Z with false by (symmetry; apply Z.ltb_ge; lia).
  replace (Z.of_nat i <? Z.of_nat n)%Z with false by (symmetry; apply Z.ltb_ge; lia). now rewrite andb_false_r.
Qed.

Lemma data_at : forall c n ny nx y x, is_cube c n ny nx -> (y < ny)%nat -> (x < nx)%nat ->
  get_data_Q_U c (Z.of_nat y) (Z.of_nat x) = POk (spectrum_at c n ny nx y x).
Proof. intros c n ny nx y x [S _] Hy Hx. unfold get_data_Q_U. rewrite S, np_index_in, np_index_in by auto. reflexivity. Qed.

Lemma count_zero : forall l, Nat.eqb (length (filter nonzero l)) 0 = true <-> forall v, In v l -> v = Some 0.
Proof.
  intros l. rewrite Nat.eqb_eq. split.
  - intros H v Iv. assert (N : nonzero v <> true).
    { intros E. assert (I : In v (filter nonzero l)) by (apply filter_In; auto). destruct (filter nonzero l); [destruct I|discriminate]. }
    destruct v as [r|]; cbn in N; [|congruence]. destruct (Req_EM_T r 0); [congruence|contradiction].
  - intros H. induction l as [|v l IH]; [reflexivity|]. cbn. rewrite (H v) by now left. cbn. destruct (Req_EM_T 0 0); [|congruence]. apply IH. intros; apply H; now right.
Qed.

(** The columns are the spectra of the pixel asked for; the errors are one thousandth. *)
Theorem fits_pixel : forall freq Qc Uc Ic p n ny nx y x d, is_cube Qc n ny nx -> is_cube Uc n ny nx -> (forall c, Ic = Some c -> is_cube c n ny nx) ->
  asks_for p y x -> (y < ny)%nat -> (x < nx)%nat -> from_fits freq Qc Uc Ic p = POk d ->
  exists e, length e = length freq /\ (forall v, In v e -> v = Some (1 / 1000)) /\
    d = match Ic with
        | None => Data5 freq (spectrum_at Qc n ny nx y x) (spectrum_at Uc n ny nx y x) e e
        | Some c => Data7 freq (spectrum_at c n ny nx y x) (spectrum_at Qc n ny nx y x) (spectrum_at Uc n ny nx y x) e e e
        end.
Proof.
  intros freq Qc Uc Ic p n ny nx y x d HQ HU HI A Hy Hx H. unfold from_fits in H. rewrite (asks_index p y x A) in H.
  rewrite (data_at _ _ _ _ _ _ HQ Hy Hx), (data_at _ _ _ _ _ _ HU Hy Hx) in H. cbn [pybind] in H.
  destruct (_ && _)%bool; [discriminate|]. exists (map (fun _ => Some (1 / 1000)) freq). split; [apply map_length|]. split.
  { intros v I. apply in_map_iff in I. destruct I as (f & <- & _). reflexivity. }
  destruct Ic as [c|]; [|now injection H as <-]. rewrite (data_at _ _ _ _ _ _ (HI c eq_refl) Hy Hx) in H. now injection H as <-.
Qed.

(** What the check for blank pixels does: it looks at Q only. *)
Theorem fits_blank_rule : forall freq Qc Uc Ic p n ny nx y x, is_cube Qc n ny nx -> is_cube Uc n ny nx -> (forall c, Ic = Some c -> is_cube c n ny nx) ->
  asks_for p y x -> (y < ny)%nat -> (x < nx)%nat ->
  (from_fits freq Qc Uc Ic p = PErr <-> forall v, In v (spectrum_at Qc n ny nx y x) -> v = Some 0).
Proof.
  intros freq Qc Uc Ic p n ny nx y x HQ HU HI A Hy Hx. unfold from_fits. rewrite (asks_index p y x A).
  rewrite (data_at _ _ _ _ _ _ HQ Hy Hx), (data_at _ _ _ _ _ _ HU Hy Hx). cbn [pybind]. rewrite andb_diag.
  destruct (Nat.eqb _ 0) eqn:E; [rewrite count_zero in E; split; auto|]. split.
  - intros X. exfalso. destruct Ic as [c|]; [|discriminate]. rewrite (data_at _ _ _ _ _ _ (HI c eq_refl) Hy Hx) in X. discriminate.
  - intros X. exfalso. apply count_zero in X. congruence.
Qed.

(** A pixel that is blank in Q and U is refused. *)
Theorem fits_blank : forall freq Qc Uc Ic p n ny nx y x, is_cube Qc n ny nx -> is_cube Uc n ny nx -> (forall c, Ic = Some c -> is_cube c n ny nx) ->
  asks_for p y x -> (y < ny)%nat -> (x < nx)%nat ->
  (forall v, In v (spectrum_at Qc n ny nx y x) -> v = Some 0) -> (forall v, In v (spectrum_at Uc n ny nx y x) -> v = Some 0) ->
  from_fits freq Qc Uc Ic p = PErr.
Proof. intros. now apply (fits_blank_rule freq Qc Uc Ic p n ny nx y x). Qed.

(** A pixel past the edge is refused. *)
Theorem fits_outside : forall freq Qc Uc Ic p n ny nx y x, is_cube Qc n ny nx -> asks_for p y x -> (ny <= y)%nat \/ (nx <= x)%nat ->
  from_fits freq Qc Uc Ic p = PErr.
Proof.
  intros freq Qc Uc Ic p n ny nx y x [S _] A H. unfold from_fits. rewrite (asks_index p y x A). unfold get_data_Q_U at 1. rewrite S.
  destruct H as [H|H]; [rewrite np_index_over by auto; reflexivity|]. destruct (np_index ny (Z.of_nat y)); [|reflexivity]. cbn [pybind]. now rewrite np_index_over.
Qed.

(** The run is the run on those columns. *)
Theorem fits_run : forall mpfit fit freq Qc Uc Ic p o out, main_from_fits mpfit fit freq Qc Uc Ic p o = POk out <->
  exists d, from_fits freq Qc Uc Ic p = POk d /\ run_rmsynth mpfit fit d o = POk out.
Proof.
  intros. unfold main_from_fits. split; [apply pybind_ok|]. intros (d & -> & E). exact E.
Qed.

(** Not so: a pixel with signal in U only is refused. *)
Theorem fits_blank_refuted : exists freq Qc Uc p, is_cube Qc 1 1 1 /\ is_cube Uc 1 1 1 /\ asks_for p 0 0 /\
  spectrum_at Uc 1 1 1 0 0 = [Some 1] /\ from_fits freq Qc Uc None p = PErr.
Proof.
  exists [1], (mk_nd [1; 1; 1]%nat [Some 0]), (mk_nd [1; 1; 1]%nat [Some 1]), (ByPixel 1 1).
  assert (A : asks_for (ByPixel 1 1) 0 0) by (cbn; lra). split; [split; reflexivity|]. split; [split; reflexivity|]. split; [exact A|]. split; [reflexivity|].
  apply (fits_blank_rule [1] _ _ None _ 1 1 1 0 0); try (split; reflexivity); try lia; auto; [intros c [=]|]. intros v [<-|[]]. reflexivity.
Qed.

(** Not so: pixel 0 is no pixel of the image, but the tool takes the last column. *)
Theorem fits_pixel_zero_refuted : exists freq Qc Uc e, is_cube Qc 1 1 2 /\ is_cube Uc 1 1 2 /\
  from_fits freq Qc Uc None (ByPixel 0 1) = POk (Data5 freq (spectrum_at Qc 1 1 2 0 1) (spectrum_at Uc 1 1 2 0 1) e e).
Proof.
  exists [1], (mk_nd [1; 1; 2]%nat [Some 3; Some 4]), (mk_nd [1; 1; 2]%nat [Some 5; Some 6]), [Some (1 / 1000)]. split; [split; reflexivity|]. split; [split; reflexivity|].
  unfold from_fits, pixel_index. rewrite (py_int_IZR 0), (py_int_IZR 1). cbn. change (Pos.to_nat 1) with 1%nat. cbn. destruct (Req_EM_T 4 0); [lra|]. reflexivity.
Qed.

(** Not so: fractional pixel coordinates are cut off, not rounded. *)
Theorem fits_fraction_refuted : exists freq Qc Uc e, is_cube Qc 1 1 2 /\ is_cube Uc 1 1 2 /\
  from_fits freq Qc Uc None (ByPixel (19 / 10) 1) = POk (Data5 freq (spectrum_at Qc 1 1 2 0 0) (spectrum_at Uc 1 1 2 0 0) e e).
Proof.
  exists [1], (mk_nd [1; 1; 2]%nat [Some 3; Some 4]), (mk_nd [1; 1; 2]%nat [Some 5; Some 6]), [Some (1 / 1000)]. split; [split; reflexivity|]. split; [split; reflexivity|].
  assert (E : py_int (19 / 10) = 1%Z).
  { pose proof (py_int_pos (19 / 10) ltac:(lra)) as [H1 H2]. assert (A : (py_int (19 / 10) < 2)%Z) by (apply lt_IZR; lra). assert (B : (0 < py_int (19 / 10))%Z) by (apply lt_IZR; lra). lia. }
  unfold from_fits, pixel_index. rewrite E, (py_int_IZR 1). cbn. destruct (Req_EM_T 3 0); [lra|]. reflexivity.
Qed.
