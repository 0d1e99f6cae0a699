(** Proofs about pixelwise peak fitting. *)
From Coq Require Import Reals List Arith ZArith Bool Ascii String Lra Lia.
Set Warnings "-ambiguous-paths".
From Coquelicot Require Import Coquelicot.
From Verif Require Import CBase PyRes PyStr PyStr_Proofs PyList PyList_Proofs NdArray NdIndex Synth_Model CleanTop_Model Setup_Model Setup_Spec Setup_Proofs Cube_Model
  Measure_Model Measure_Proofs Run1D_Spec Pixfit_Model Pixfit_Spec.
Import ListNotations.
Local Open Scope R_scope.

(** ** Dictionaries *)
Lemma dget_In : forall {V} (d : list (str * V)) k v, dget d k = POk v -> In (k, v) d.
Proof.
  induction d as [|[k' v'] d IH]; cbn; intros k v H; [discriminate|]. destruct (str_eqb k k') eqn:E.
  - apply str_eqb_eq in E. injection H as <-. subst. now left.
  - right. now apply IH.
Qed.
Lemma dget_some : forall {V} (d : list (str * V)) k, In k (map fst d) -> exists v, dget d k = POk v.
Proof.
  induction d as [|[k' v'] d IH]; cbn; intros k H; [destruct H|]. destruct (str_eqb k k') eqn:E; [eexists; reflexivity|].
  destruct H as [->|H]; [rewrite str_eqb_refl in E; discriminate|auto].
Qed.
Lemma dget_nodup : forall {V} (d : list (str * V)) k v, NoDup (map fst d) -> In (k, v) d -> dget d k = POk v.
Proof.
  induction d as [|[k' v'] d IH]; cbn; intros k v N I; [destruct I|]. inversion N as [|? ? N1 N2]; subst. destruct I as [E|I].
  - injection E as -> ->. now rewrite str_eqb_refl.
  - rewrite str_eqb_neq; auto. intros ->. apply N1. apply in_map_iff. exists (k', v). auto.
Qed.
Lemma dset_keys : forall {V} (d : list (str * V)) k v n, In n (map fst (dset d k v)) <-> n = k \/ In n (map fst d).
Proof.
  induction d as [|[k' v'] d IH]; cbn; intros k v n; [intuition congruence|]. destruct (str_eqb k k') eqn:E; cbn.
  - apply str_eqb_eq in E. subst. intuition.
  - rewrite IH. intuition.
Qed.
Lemma dset_nodup : forall {V} (d : list (str * V)) k v, NoDup (map fst d) -> NoDup (map fst (dset d k v)).
Proof.
  induction d as [|[k' v'] d IH]; cbn; intros k v N; [constructor; auto|]. inversion N as [|? ? N1 N2]; subst. destruct (str_eqb k k') eqn:E; cbn.
  - constructor; auto.
  - constructor; auto. rewrite dset_keys. intros [->|H]; auto. now rewrite str_eqb_refl in E.
Qed.
Lemma dget_dset : forall {V} (d : list (str * V)) k v q, dget (dset d k v) q = if str_eqb q k then POk v else dget d q.
Proof.
  induction d as [|[k' v'] d IH]; cbn; intros k v q; [reflexivity|]. destruct (str_eqb k k') eqn:E; cbn.
  - apply str_eqb_eq in E. subst k'. destruct (str_eqb q k); reflexivity.
  - rewrite IH. destruct (str_eqb q k') eqn:E1, (str_eqb q k) eqn:E2; try reflexivity.
    apply str_eqb_eq in E1, E2. subst. now rewrite str_eqb_refl in E.
Qed.
Lemma dset_in : forall {V} (d : list (str * V)) k v n a, In (n, a) (dset d k v) -> (n = k /\ a = v) \/ In (n, a) d.
Proof.
  induction d as [|[k' v'] d IH]; cbn; intros k v n a I.
  - destruct I as [E|[]]. injection E as -> ->. auto.
  - destruct (str_eqb k k') eqn:E; cbn in I.
    + apply str_eqb_eq in E. subst. destruct I as [E|I]; [injection E as -> ->; auto|auto].
    + destruct I as [E'|I]; [auto|]. apply IH in I. tauto.
Qed.

(** ** Maps *)
Definition at_map (m : maps) (q : str) (x y : nat) : option R :=
  match dget m q with POk a => at_nd None a [x; y] | PErr => None end.

Section Maps.
  Variables (ny nx : nat) (ps : list str).

  Lemma set2_at : forall (a : nd (option R)) x y v x' y', shape a = [ny; nx] -> wf_nd a -> (x < ny)%nat -> (y < nx)%nat -> (x' < ny)%nat -> (y' < nx)%nat ->
    at_nd None (set2 a x y v) [x'; y'] = if ((x' =? x) && (y' =? y))%nat then v else at_nd None a [x'; y'].
  Proof.
    intros a x y v x' y' S W Hx Hy Hx' Hy'. unfold at_nd, set2. cbn [shape flat]. rewrite S.
    assert (V : valid [ny; nx] [x; y]) by (repeat constructor; auto). assert (V' : valid [ny; nx] [x'; y']) by (repeat constructor; auto).
    pose proof (ravel_lt _ _ V) as L. pose proof (ravel_lt _ _ V') as L'. unfold wf_nd in W. rewrite S in W.
    rewrite nth_upd by lia. destruct (Nat.eqb_spec (ravel [ny; nx] [x'; y']) (ravel [ny; nx] [x; y])) as [E|E].
    - apply ravel_inj in E; auto. injection E as -> ->. now rewrite !Nat.eqb_refl.
    - destruct (Nat.eqb_spec x' x) as [->|]; [|reflexivity]. destruct (Nat.eqb_spec y' y) as [->|]; [|reflexivity]. now destruct E.
  Qed.

  Lemma put_maps : forall m x y p v, maps_of ps ny nx m -> In p ps -> (x < ny)%nat -> (y < nx)%nat ->
    maps_of ps ny nx (put m x y p v) /\
    forall q x' y', In q ps -> (x' < ny)%nat -> (y' < nx)%nat ->
      at_map (put m x y p v) q x' y' = if (str_eqb q p && ((x' =? x) && (y' =? y))%nat)%bool then v else at_map m q x' y'.
  Proof.
    intros m x y p v (N & K & S) Ip Hx Hy. unfold put. destruct (dget_some m p) as [a Ea]; [now apply K|]. rewrite Ea.
    destruct (S p a (dget_In _ _ _ Ea)) as [Sa Wa]. split.
    - split; [now apply dset_nodup|]. split.
      + intros n. rewrite dset_keys, K. split; [intros [->|]; auto|auto].
      + intros n b I. apply dset_in in I. destruct I as [[-> ->]|I]; [|eauto]. split; [exact Sa|]. unfold wf_nd, set2. cbn [shape flat]. now rewrite length_upd.
    - intros q x' y' Iq Hx' Hy'. unfold at_map. rewrite dget_dset. destruct (str_eqb q p) eqn:E; [|reflexivity]. apply str_eqb_eq in E. subst q.
      cbn [andb]. rewrite Ea. now apply set2_at.
  Qed.

  Lemma blank_maps : forall l m x y, maps_of ps ny nx m -> (forall p, In p l -> In p ps) -> (x < ny)%nat -> (y < nx)%nat ->
    maps_of ps ny nx (blank m x y l) /\
    forall q x' y', In q ps -> (x' < ny)%nat -> (y' < nx)%nat ->
      at_map (blank m x y l) q x' y' = if (existsb (str_eqb q) l && ((x' =? x) && (y' =? y))%nat)%bool then None else at_map m q x' y'.
  Proof.
    unfold blank. induction l as [|p l IH]; intros m x y M I Hx Hy; [split; auto|]. cbn [fold_left].
    destruct (put_maps m x y p None M) as [M1 V1]; auto; [apply I; now left|].
    destruct (IH (put m x y p None) x y M1) as [M2 V2]; auto; [intros; apply I; now right|]. split; [exact M2|].
    intros q x' y' Iq Hx' Hy'. rewrite V2, V1 by auto. cbn [existsb].
    destruct (str_eqb q p), (existsb (str_eqb q) l), ((x' =? x)%nat && (y' =? y)%nat)%bool; reflexivity.
  Qed.

  Lemma fill_maps : forall D l m x y, maps_of ps ny nx m -> (forall p, In p l -> In p ps) -> (x < ny)%nat -> (y < nx)%nat ->
    maps_of ps ny nx (fst (fill m x y D l)) /\
    (snd (fill m x y D l) = true <-> forall p, In p l -> exists v, dget D p = POk v) /\
    forall q x' y', In q ps -> (x' < ny)%nat -> (y' < nx)%nat ->
      ((x', y') <> (x, y) -> at_map (fst (fill m x y D l)) q x' y' = at_map m q x' y') /\
      (snd (fill m x y D l) = true -> In q l -> POk (at_map (fst (fill m x y D l)) q x y) = dget D q).
  Proof.
    induction l as [|p l IH]; intros m x y M I Hx Hy.
    - cbn. split; [auto|]. split; [split; [intros _ ? []|auto]|]. intros. split; [auto|intros _ []].
    - cbn [fill]. destruct (dget D p) as [v|] eqn:Ep.
      2:{ cbn [fst snd]. split; [auto|]. split; [|intros; split; [auto|discriminate]]. split; [discriminate|]. intros H. destruct (H p (or_introl eq_refl)) as [v Ev]. congruence. }
      destruct (put_maps m x y p v M) as [M1 V1]; auto; [apply I; now left|].
      destruct (IH (put m x y p v) x y M1) as (M2 & K & V2); auto; [intros; apply I; now right|]. split; [exact M2|]. split.
      + rewrite K. split; intros H p' [<-|Ip'] || intros H p' Ip'; eauto. apply H. now right.
      + intros q x' y' Iq Hx' Hy'. destruct (V2 q x' y' Iq Hx' Hy') as [V3 V4]. split.
        * intros Ne. rewrite V3, V1 by auto. destruct (Nat.eqb_spec x' x) as [->|]; [|now rewrite andb_false_r].
          destruct (Nat.eqb_spec y' y) as [->|]; [now destruct Ne|now rewrite !andb_false_r].
        * intros T Iq'. destruct (in_dec (list_eq_dec Ascii.ascii_dec) q l) as [Il|Il]; [apply V4; auto|]. destruct Iq' as [<-|]; [|contradiction].
          assert (G : forall l m, maps_of ps ny nx m -> (forall p, In p l -> In p ps) -> ~ In p l -> at_map (fst (fill m x y D l)) p x y = at_map m p x y).
          { clear - Hx Hy Iq Ep. induction l as [|p' l IH]; intros m M I N; [reflexivity|]. cbn [fill]. destruct (dget D p'); [|reflexivity].
            destruct (put_maps m x y p' a M) as [M1 V1]; auto; [apply I; now left|]. rewrite IH; auto; [|intros; apply I; now right|intros X; apply N; now right].
            rewrite V1 by auto. rewrite str_eqb_neq; [reflexivity|]. intros ->. apply N. now left. }
          rewrite G; auto; [|intros; apply I; now right]. rewrite V1 by auto. rewrite str_eqb_refl, !Nat.eqb_refl. cbn. now rewrite Ep.
  Qed.

  Lemma init_maps : forall (a : nd (option R)), shape a = [ny; nx] -> wf_nd a -> maps_of ps ny nx (fold_left (fun m p => dset m p a) ps []).
  Proof.
    intros a S W. assert (G : forall l m seen, maps_of seen ny nx m -> maps_of (seen ++ l) ny nx (fold_left (fun m p => dset m p a) l m)).
    { induction l as [|p l IH]; intros m seen M; [now rewrite app_nil_r|]. cbn [fold_left]. replace (seen ++ p :: l) with ((seen ++ [p]) ++ l) by (rewrite <- app_assoc; reflexivity).
      apply IH. destruct M as (N & K & Sh). split; [now apply dset_nodup|]. split.
      - intros n. rewrite dset_keys, K, in_app_iff. cbn. intuition.
      - intros n b I. apply dset_in in I. destruct I as [[-> ->]|I]; eauto. }
    apply (G ps [] []). split; [constructor|]. split; [cbn; tauto|intros ? ? []].
  Qed.
End Maps.

(** ** The loop *)
Lemma get2_ok : forall {A} (d : A) (a : nd A) ny nx x y, shape a = [ny; nx] -> (x < ny)%nat -> (y < nx)%nat -> get2 d a x y = POk (at_nd d a [x; y]).
Proof.
  intros A d a ny nx x y S Hx Hy. unfold get2. rewrite S. destruct (Nat.ltb_spec x ny); [|lia]. destruct (Nat.ltb_spec y nx); [|lia]. reflexivity.
Qed.

Definition spec_at (FDF : nd (option C)) (nphi x y : nat) : list (option C) := map (fun k => at_nd None FDF [k; x; y]) (seq 0 nphi).

Definition noise_at (dFDF : option (nd (option R))) (x y : nat) : option (option R) :=
  match dFDF with None => None | Some a => Some (at_nd None a [x; y]) end.

Section Loop.
  Variables (FDF : nd (option C)) (phi : list R) (fwhm : nd (option R)) (l2 : list R) (lam0 : R) (ps : list str).
  Variables (I0 : nd (option R)) (dFDF : option (nd (option R))) (nphi ny nx : nat).
  Hypothesis HF : shape FDF = [nphi; ny; nx].
  Hypothesis Hw : shape fwhm = [ny; nx].
  Hypothesis Hd : match dFDF with None => True | Some a => shape a = [ny; nx] end.
  Hypothesis Hl : l2 <> [].

  Definition pixel_dict (x y : nat) : pyres (list (str * option R)) :=
    pybind (measure_FDF_parms (spec_at FDF nphi x y) phi (at_nd None fwhm [x; y]) (noise_at dFDF x y) l2 lam0 5)
      (fun p => pybind (get2 None I0 x y) (fun i0 => POk (m_dict p l2 lam0 (at_nd None fwhm [x; y]) i0 (noise_at dFDF x y)))).

  (** all names are keys of the pixel's dictionary *)
  Definition complete (x y : nat) : bool :=
    match pixel_dict x y with
    | POk D => forallb (fun p => match dget D p with POk _ => true | PErr => false end) ps
    | PErr => false
    end.
  Definition target (q : str) (x y : nat) : option R :=
    if complete x y then match pixel_dict x y with POk D => match dget D q with POk v => v | PErr => None end | PErr => None end else None.

  Lemma fit_pixel_spec : forall m x y, maps_of ps ny nx m -> (x < ny)%nat -> (y < nx)%nat ->
    exists m', fit_pixel FDF phi fwhm l2 lam0 ps I0 dFDF m (x, y) = POk m' /\ maps_of ps ny nx m' /\
      forall q x' y', In q ps -> (x' < ny)%nat -> (y' < nx)%nat ->
        at_map m' q x' y' = if ((x' =? x) && (y' =? y))%nat then target q x y else at_map m q x' y'.
  Proof.
    intros m x y M Hx Hy. unfold fit_pixel. rewrite HF. cbn [nth]. fold (spec_at FDF nphi x y). rewrite (get2_ok None fwhm ny nx) by auto. cbn [pybind].
    assert (ED : (match dFDF with None => POk None | Some a => pybind (get2 None a x y) (fun v => POk (Some v)) end) = POk (noise_at dFDF x y)).
    { unfold noise_at. destruct dFDF as [a|]; [|reflexivity]. rewrite (get2_ok None a ny nx) by auto. reflexivity. }
    rewrite ED. cbn [pybind].
    assert (EP : pybind (measure_FDF_parms (spec_at FDF nphi x y) phi (at_nd None fwhm [x; y]) (noise_at dFDF x y) l2 lam0 5)
       (fun p => pybind (get2 None I0 x y) (fun i0 => match l2 with [] => PErr | _ => POk (m_dict p l2 lam0 (at_nd None fwhm [x; y]) i0 (noise_at dFDF x y)) end))
       = pixel_dict x y).
    { unfold pixel_dict. destruct (measure_FDF_parms _ _ _ _ _ _ _); [|reflexivity]. cbn [pybind]. destruct l2; [now destruct Hl|reflexivity]. }
    rewrite EP. clear EP ED. unfold target, complete. destruct (pixel_dict x y) as [D|].
    - destruct (fill_maps ny nx ps D ps m x y M (fun p H => H) Hx Hy) as (M1 & K & V). destruct (fill m x y D ps) as [m1 ok]. cbn [fst snd] in M1, K, V.
      assert (EC : forallb (fun p => match dget D p with POk _ => true | PErr => false end) ps = ok).
      { apply Bool.eq_true_iff_eq. rewrite K, forallb_forall. split; intros H p Ip; specialize (H p Ip); destruct (dget D p); eauto; [discriminate|]. destruct H; discriminate. }
      rewrite EC. destruct ok.
      + exists m1. split; [reflexivity|]. split; [exact M1|]. intros q x' y' Iq Hx' Hy'. destruct (V q x' y' Iq Hx' Hy') as [V1 V2].
        destruct (Nat.eqb_spec x' x) as [->|]; cbn [andb]; [|apply V1; congruence]. destruct (Nat.eqb_spec y' y) as [->|]; [|apply V1; congruence].
        specialize (V2 eq_refl Iq). destruct (dget D q); [now injection V2|discriminate].
      + destruct (blank_maps ny nx ps ps m1 x y M1 (fun p H => H) Hx Hy) as [M2 V2]. exists (blank m1 x y ps). split; [reflexivity|]. split; [exact M2|].
        intros q x' y' Iq Hx' Hy'. rewrite V2 by auto. assert (existsb (str_eqb q) ps = true) as -> by (apply existsb_exists; exists q; split; [auto|apply str_eqb_refl]). cbn [andb].
        destruct (Nat.eqb_spec x' x) as [->|]; cbn [andb]; [|apply V; auto; congruence]. destruct (Nat.eqb_spec y' y) as [->|]; [reflexivity|apply V; auto; congruence].
    - destruct (blank_maps ny nx ps ps m x y M (fun p H => H) Hx Hy) as [M2 V2]. exists (blank m x y ps). split; [reflexivity|]. split; [exact M2|].
      intros q x' y' Iq Hx' Hy'. rewrite V2 by auto. assert (existsb (str_eqb q) ps = true) as -> by (apply existsb_exists; exists q; split; [auto|apply str_eqb_refl]). reflexivity.
  Qed.

  Lemma loop_spec : forall l m, maps_of ps ny nx m -> (forall x y, In (x, y) l -> (x < ny /\ y < nx)%nat) ->
    exists m', pyfold (fit_pixel FDF phi fwhm l2 lam0 ps I0 dFDF) l m = POk m' /\ maps_of ps ny nx m' /\
      forall q x y, In q ps -> (x < ny)%nat -> (y < nx)%nat ->
        (In (x, y) l -> at_map m' q x y = target q x y) /\ (~ In (x, y) l -> at_map m' q x y = at_map m q x y).
  Proof.
    induction l as [|[x0 y0] l IH]; intros m M I.
    - exists m. cbn. split; [reflexivity|]. split; [exact M|]. intros. split; [intros []|auto].
    - destruct (I x0 y0 (or_introl eq_refl)) as [Hx0 Hy0]. destruct (fit_pixel_spec m x0 y0 M Hx0 Hy0) as (m1 & E1 & M1 & V1).
      destruct (IH m1 M1) as (m2 & E2 & M2 & V2); [intros; apply I; now right|]. exists m2. cbn [pyfold]. rewrite E1. cbn [pybind]. split; [exact E2|]. split; [exact M2|].
      intros q x y Iq Hx Hy. destruct (V2 q x y Iq Hx Hy) as [V3 V4].
      assert (DEC : {In (x, y) l} + {~ In (x, y) l}) by (apply in_dec; decide equality; apply Nat.eq_dec).
      split.
      + intros [E|H]; [|auto]. injection E as -> ->. destruct DEC as [H|H]; [auto|]. rewrite V4, V1, !Nat.eqb_refl by auto. reflexivity.
      + intros N. rewrite V4 by (intros H; apply N; now right). rewrite V1 by auto.
        destruct (Nat.eqb_spec x x0) as [->|]; [|reflexivity]. destruct (Nat.eqb_spec y y0) as [->|]; [|reflexivity]. exfalso. apply N. now left.
  Qed.
End Loop.
