(** Laws of the 2-D header and of companion file names. *)
From Coq Require Import List Arith Bool Ascii String Lia.
From Verif Require Import PyRes PyStr PyStr_Proofs NdIndex Header_Model Header_Spec Cube_Proofs.
Import ListNotations.
Local Open Scope nat_scope.
Local Arguments s : simpl never.
Local Opaque s keys_to_remove wcs_keywords.

(** two lists of strings with the same members *)
Definition incl_b (l m : list str) : bool := forallb (fun k => existsb (str_eqb k) m) l.
Lemma incl_b_spec : forall l m, incl_b l m = true -> forall k, In k l -> In k m.
Proof.
  intros l m H k Hk. unfold incl_b in H. rewrite forallb_forall in H. specialize (H k Hk).
  apply existsb_exists in H. destruct H as (x & Hx & E). apply str_eqb_eq in E. subst x. exact Hx.
Qed.

Definition gen1 (ws : list string) (l : list nat) : list str := map (fun x => s (fst x) ++ str_of_nat (snd x)) (list_prod ws l).
Definition gen2 : list str :=
  map (fun x => s "PC" ++ str_of_nat (fst x) ++ s "_" ++ str_of_nat (snd x))
    (filter (fun x => (3 <=? fst x) || (3 <=? snd x)) (list_prod (seq 1 4) (seq 1 4))).
Definition gen3 : list str :=
  map (fun x => s (fst x) ++ str_of_nat (snd x) ++ s "_" ++ str_of_nat (snd x)) (list_prod ["PC"; "CD"]%string [1; 2]).

Lemma keys_axis : forall k, In k keys_to_remove <-> axis_key k.
Proof.
  intro k. transitivity (In k (gen1 ["NAXIS"; "CRPIX"; "CDELT"; "CUNIT"; "CTYPE"; "CRVAL"]%string [3; 4] ++ gen2)).
  - split; apply incl_b_spec; vm_compute; reflexivity.
  - rewrite in_app_iff. unfold axis_key, gen1, gen2. rewrite !in_map_iff. split.
    + intros [((w & a) & <- & H) | ((i & j) & <- & H)].
      * left. apply in_prod_iff in H. destruct H as [Hw Ha]. exists w, a. cbn [fst snd]. repeat split; auto. simpl in Ha. intuition lia.
      * right. apply filter_In in H. destruct H as [H Hf]. apply in_prod_iff in H. destruct H as [Hi Hj].
        apply in_seq in Hi. apply in_seq in Hj. cbn [fst snd] in Hf. apply orb_prop in Hf. rewrite !Nat.leb_le in Hf.
        exists i, j. repeat split; auto; lia.
    + intros [(w & a & Hw & Ha & ->) | (i & j & Hi & Hj & Hij & ->)].
      * left. exists (w, a). split; [reflexivity|]. apply in_prod_iff. split; auto. simpl. intuition lia.
      * right. exists (i, j). split; [reflexivity|]. apply filter_In. split.
        -- apply in_prod_iff. rewrite !in_seq. lia.
        -- cbn [fst snd]. apply orb_true_iff. rewrite !Nat.leb_le. exact Hij.
Qed.

Lemma wcs_celestial : forall k, In k wcs_keywords <-> celestial_key k.
Proof.
  intro k. transitivity (In k (gen1 ["CRPIX"; "CRVAL"; "CTYPE"; "CUNIT"]%string [1; 2] ++ gen3)).
  - split; apply incl_b_spec; vm_compute; reflexivity.
  - rewrite in_app_iff. unfold celestial_key, gen1, gen3. rewrite !in_map_iff. split.
    + intros [((w & a) & <- & H) | ((w & a) & <- & H)]; [left|right]; apply in_prod_iff in H; destruct H as [Hw Ha];
        exists w, a; cbn [fst snd]; repeat split; auto; simpl in Ha; intuition lia.
    + intros [(w & a & Hw & Ha & ->) | (w & a & Hw & Ha & ->)]; [left|right]; exists (w, a); (split; [reflexivity|]);
        apply in_prod_iff; split; auto; simpl; intuition lia.
Qed.

Definition memb (k : str) (l : list str) : bool := existsb (str_eqb k) l.
Lemma not_in_b : forall k l, memb k l = false -> ~ In k l.
Proof.
  intros k l H Q. unfold memb in H. assert (existsb (str_eqb k) l = true) as E; [|congruence].
  apply existsb_exists. exists k. split; auto. apply str_eqb_refl.
Qed.

Section H.
  Context {V : Type}.
  Implicit Types h : list (str * V).
  Implicit Types f : str -> bool.

  Lemma hpop_in : forall k h c, In c (hpop k h) <-> In c h /\ fst c <> k.
  Proof.
    intros k h c. unfold hpop. rewrite filter_In. rewrite negb_true_iff. split; intros [H1 H2]; split; auto.
    - intros E. subst k. rewrite str_eqb_refl in H2. discriminate.
    - apply str_eqb_neq. congruence.
  Qed.

  Lemma hpops_in : forall ks h c, In c (fold_left (fun h k => hpop k h) ks h) <-> In c h /\ ~ In (fst c) ks.
  Proof.
    induction ks as [|k ks IH]; intros h c; simpl.
    - tauto.
    - rewrite IH, hpop_in. intuition congruence.
  Qed.

  Lemma filter_hpop : forall f k h, f k = false -> filter (fun c => f (fst c)) (hpop k h) = filter (fun c => f (fst c)) h.
  Proof.
    intros f k h Hf. unfold hpop. induction h as [|c h IH]; simpl; auto.
    destruct (str_eqb k (fst c)) eqn:E; simpl.
    - apply str_eqb_eq in E. subst k. rewrite Hf. exact IH.
    - rewrite IH. reflexivity.
  Qed.

  Lemma filter_hpops : forall f ks h, (forall k, In k ks -> f k = false) ->
    filter (fun c => f (fst c)) (fold_left (fun h k => hpop k h) ks h) = filter (fun c => f (fst c)) h.
  Proof.
    intro f. induction ks as [|k ks IH]; intros h H; simpl; auto.
    rewrite IH by (intros; apply H; right; auto). apply filter_hpop, H. left; reflexivity.
  Qed.

  Lemma filter_hset : forall f k (v : V) h, f k = false -> filter (fun c => f (fst c)) (hset k v h) = filter (fun c => f (fst c)) h.
  Proof.
    intros f k v h Hf. induction h as [|[k' v'] h IH]; simpl.
    - rewrite Hf. reflexivity.
    - destruct (str_eqb k k') eqn:E; simpl.
      + apply str_eqb_eq in E. subst k'. rewrite Hf. reflexivity.
      + rewrite IH. reflexivity.
  Qed.

  Lemma hset_keys : forall k (v : V) h, In k (map fst h) -> map fst (hset k v h) = map fst h.
  Proof.
    intros k v h. induction h as [|[k' v'] h IH]; simpl; intros H; [destruct H|].
    destruct (str_eqb k k') eqn:E; simpl; auto. rewrite IH; auto.
    destruct H as [-> | H]; auto. rewrite str_eqb_refl in E. discriminate.
  Qed.

  Lemma hset_in : forall k (v : V) h c, In c (hset k v h) -> c = (k, v) \/ In c h.
  Proof.
    intros k v h c. induction h as [|[k' v'] h IH]; simpl; intros H.
    - destruct H as [<- | []]; auto.
    - destruct (str_eqb k k') eqn:E; simpl in H.
      + apply str_eqb_eq in E. subst k'. destruct H as [<- | H]; auto.
      + destruct H as [<- | H]; auto. destruct (IH H); auto.
  Qed.

  Lemma cards_hset_same : forall k (v : V) h, cards k (hset k v h) = (k, v) :: tl (cards k h).
  Proof.
    intros k v h. unfold cards. induction h as [|[k' v'] h IH]; simpl.
    - rewrite str_eqb_refl. reflexivity.
    - destruct (str_eqb k k') eqn:E; simpl.
      + rewrite E. simpl. apply str_eqb_eq in E. subst k'. reflexivity.
      + rewrite E. exact IH.
  Qed.

  Lemma hget_hset : forall k (v : V) h, hget k (hset k v h) = Some v.
  Proof.
    intros k v h. unfold hget. induction h as [|[k' v'] h IH]; simpl.
    - rewrite str_eqb_refl. reflexivity.
    - destruct (str_eqb k k') eqn:E; simpl; rewrite E; auto.
  Qed.

  Lemma index_of_some : forall k h i, index_of k h = Some i ->
    exists a c b, h = a ++ c :: b /\ List.length a = i /\ fst c = k /\ (forall x, In x a -> fst x <> k).
  Proof.
    intros k h. induction h as [|c h IH]; simpl; intros i H; [discriminate|].
    destruct (str_eqb k (fst c)) eqn:E.
    - injection H as <-. apply str_eqb_eq in E. exists [], c, h. simpl. repeat split; auto.
    - destruct (index_of k h) as [j|]; [|discriminate]. injection H as <-.
      destruct (IH j eq_refl) as (a & d & b & -> & <- & E2 & F). exists (c :: a), d, b. simpl. repeat split; auto.
      intros x [<- | Hx]; auto. intro Q. rewrite Q, str_eqb_refl in E. discriminate.
  Qed.

  Lemma index_of_none : forall k h, index_of k h = None -> forall x, In x h -> fst x <> k.
  Proof.
    intros k h. induction h as [|c h IH]; simpl; intros H x Hx; [destruct Hx|].
    destruct (str_eqb k (fst c)) eqn:E; [discriminate|].
    destruct (index_of k h); [discriminate|]. destruct Hx as [<- | Hx]; auto.
    intro Q. rewrite Q, str_eqb_refl in E. discriminate.
  Qed.

  (** fold form of insert_pos *)
  Lemma insert_pos_fold : forall h ks acc,
    let r := fold_left (fun acc k => match index_of k h, acc with
                            | None, _ => acc | Some i, None => Some i | Some i, Some j => Some (Nat.min j i) end) ks acc in
    match r with
    | None => acc = None /\ forall k, In k ks -> index_of k h = None
    | Some i => (acc = Some i \/ exists k, In k ks /\ index_of k h = Some i) /\
                (forall j, acc = Some j -> i <= j) /\ (forall k j, In k ks -> index_of k h = Some j -> i <= j)
    end.
  Proof.
    intros h. induction ks as [|k ks IH]; intros acc; simpl.
    - destruct acc as [i|].
      + split; [left; reflexivity|]. split; [intros j [= <-]; lia|intros k j []].
      + split; [reflexivity|]. intros k [].
    - set (acc' := match index_of k h with Some i => match acc with Some j => Some (Nat.min j i) | None => Some i end | None => acc end).
      specialize (IH acc'). simpl in IH. fold acc'.
      destruct (fold_left _ ks acc') as [i|].
      + destruct IH as (A & B & C). split; [|split].
        * destruct A as [A | (k' & Hk & A)]; [|right; exists k'; split; [right|]; auto].
          unfold acc' in A. destruct (index_of k h) as [n|] eqn:E; [|left; exact A].
          destruct acc as [m|].
          -- injection A as A. destruct (Nat.min_spec m n) as [[_ Q] | [_ Q]]; rewrite Q in A.
             ++ left. congruence.
             ++ right. exists k. split; [left; reflexivity|congruence].
          -- right. exists k. split; [left; reflexivity|congruence].
        * intros j ->. unfold acc' in B. destruct (index_of k h) as [n|]; auto.
          specialize (B _ eq_refl). lia.
        * intros k' j [<- | Hk] E; [|eapply C; eauto].
          unfold acc' in B. rewrite E in B. destruct acc as [m|]; specialize (B _ eq_refl); lia.
      + destruct IH as (A & B). unfold acc' in A. destruct (index_of k h) as [n|] eqn:E.
        * destruct acc; discriminate.
        * split; auto. intros k' [<- | Hk]; auto.
  Qed.

  Lemma insert_pos_spec : forall h,
    match insert_pos h with
    | None => forall c, In c h -> ~ celestial_key (fst c)
    | Some i => exists a c b, h = a ++ c :: b /\ List.length a = i /\ celestial_key (fst c) /\ forall x, In x a -> ~ celestial_key (fst x)
    end.
  Proof.
    intros h. unfold insert_pos. pose proof (insert_pos_fold h wcs_keywords None) as H. cbv zeta in H.
    destruct (fold_left _ wcs_keywords None) as [i|].
    - destruct H as ([H | (k & Hk & H)] & _ & L); [discriminate|].
      destruct (index_of_some _ _ _ H) as (a & c & b & -> & E & <- & F). exists a, c, b. repeat split; auto.
      + apply wcs_celestial; exact Hk.
      + intros x Hx Q. apply wcs_celestial in Q.
        destruct (index_of (fst x) (a ++ c :: b)) as [j|] eqn:Ej.
        * pose proof (L _ _ Q Ej) as Lj. destruct (index_of_some _ _ _ Ej) as (a' & c' & b' & E1 & E2 & E3 & F').
          destruct (in_split _ _ Hx) as (u & v & ->).
          assert (List.length u < j) as Lu by (rewrite app_length in E; simpl in E; lia).
          assert (In x a') as Hx'.
          { rewrite <- app_assoc in E1. simpl in E1.
            assert (nth (List.length u) (u ++ x :: v ++ c :: b) x = nth (List.length u) (a' ++ c' :: b') x) as N by (rewrite E1; reflexivity).
            rewrite app_nth2, Nat.sub_diag in N by lia. simpl in N.
            rewrite app_nth1 in N by lia. rewrite N. apply nth_In. lia. }
          exact (F' _ Hx' eq_refl).
        * eapply index_of_none; [exact Ej| |reflexivity]. apply in_or_app. left; exact Hx.
    - destruct H as (_ & H). intros c Hc Q. apply wcs_celestial in Q. eapply index_of_none; [apply H, Q|exact Hc|reflexivity].
  Qed.

  (** what is computed: h1 is the header before WCSAXES is inserted *)
  Lemma remove_eq : forall (two : V) h,
    let h1 := hpop (s "WCSAXES") (hset (s "WCSAXES") two (hpop (s "STOKES") (hset (s "NAXIS") two (fold_left (fun h k => hpop k h) keys_to_remove h)))) in
    remove_header_third_fourth_axis two h =
      match insert_pos h1 with None => PErr | Some i => POk (insert_at i (s "WCSAXES", two) h1) end.
  Proof.
    intros two h h1. unfold remove_header_third_fourth_axis, update_position_wcsaxes.
    rewrite hget_hset. fold h1. reflexivity.
  Qed.

  Lemma cards_hpop_other : forall k k' h, k <> k' -> cards k (hpop k' h) = cards k h.
  Proof. intros k k' h N. unfold cards. apply (filter_hpop (str_eqb k)). apply str_eqb_neq. exact N. Qed.
  Lemma cards_hset_other : forall k k' (v : V) h, k <> k' -> cards k (hset k' v h) = cards k h.
  Proof. intros k k' v h N. unfold cards. apply (filter_hset (str_eqb k)). apply str_eqb_neq. exact N. Qed.

  Lemma celestial_not_dropped : forall k, celestial_key k -> k <> s "WCSAXES" /\ k <> s "STOKES" /\ k <> s "NAXIS" /\ ~ In k keys_to_remove.
  Proof.
    intros k H. apply wcs_celestial in H.
    assert (F : forallb (fun k => negb (memb k (s "WCSAXES" :: s "STOKES" :: s "NAXIS" :: keys_to_remove))) wcs_keywords = true) by (vm_compute; reflexivity).
    rewrite forallb_forall in F. specialize (F k H). apply negb_true_iff, not_in_b in F. cbn [In] in F.
    repeat split; intro Q; apply F; auto.
  Qed.

  Lemma in_h1 : forall (two : V) h c,
    let h1 := hpop (s "WCSAXES") (hset (s "WCSAXES") two (hpop (s "STOKES") (hset (s "NAXIS") two (fold_left (fun h k => hpop k h) keys_to_remove h)))) in
    In c h1 -> fst c <> s "WCSAXES" /\ fst c <> s "STOKES" /\ ~ axis_key (fst c) /\ (c = (s "NAXIS", two) \/ In c h).
  Proof.
    intros two h c h1 H. unfold h1 in H. apply hpop_in in H. destruct H as [H N]. split; [exact N|].
    apply hset_in in H. destruct H as [-> | H]; [exfalso; apply N; reflexivity|].
    apply hpop_in in H. destruct H as [H N2]. split; [exact N2|].
    apply hset_in in H. destruct H as [-> | H].
    - split; [|left; reflexivity]. intro Q. apply keys_axis in Q. revert Q. apply not_in_b. vm_compute. reflexivity.
    - apply hpops_in in H. destruct H as [H N3]. split; [|right; exact H]. intro Q. apply N3, keys_axis, Q.
  Qed.

  (** C26 *)
  Theorem header_2d : forall (two : V) h h', remove_header_third_fourth_axis two h = POk h' ->
    (forall c, In c h' -> ~ axis_key (fst c) /\ fst c <> s "STOKES") /\
    cards (s "NAXIS") h' = (s "NAXIS", two) :: tl (cards (s "NAXIS") h) /\
    cards (s "WCSAXES") h' = [(s "WCSAXES", two)] /\
    (exists a c b, h' = a ++ (s "WCSAXES", two) :: c :: b /\ celestial_key (fst c) /\ forall x, In x a -> ~ celestial_key (fst x)) /\
    (forall f, (forall k, f k = true -> ~ axis_key k /\ k <> s "STOKES" /\ k <> s "WCSAXES" /\ k <> s "NAXIS") ->
       filter (fun c => f (fst c)) h' = filter (fun c => f (fst c)) h) /\
    (forall f, (forall k, f k = true -> ~ axis_key k /\ k <> s "STOKES" /\ k <> s "WCSAXES") -> In (s "NAXIS") (map fst h) ->
       filter f (map fst h') = filter f (map fst h)).
  Proof.
    intros two h h' H. rewrite remove_eq in H. cbv zeta in H.
    set (h1 := hpop (s "WCSAXES") _) in H.
    pose proof (insert_pos_spec h1) as S. pose proof (in_h1 two h) as I. cbv zeta in I. fold h1 in I.
    destruct (insert_pos h1) as [i|]; [|discriminate]. injection H as <-.
    destruct S as (a & c & b & E & L & Cc & Ca).
    assert (insert_at i (s "WCSAXES", two) h1 = a ++ (s "WCSAXES", two) :: c :: b) as E'.
    { rewrite E, <- L. apply insert_at_app. reflexivity. }
    rewrite E'.
    assert (NA : forall f, filter (fun c => f (fst c)) (a ++ (s "WCSAXES", two) :: c :: b) =
                 if f (s "WCSAXES") then filter (fun c => f (fst c)) a ++ (s "WCSAXES", two) :: filter (fun c => f (fst c)) (c :: b)
                 else filter (fun c => f (fst c)) h1).
    { intros f. rewrite filter_app. change (filter (fun c0 => f (fst c0)) ((s "WCSAXES", two) :: c :: b)) with
        (if f (s "WCSAXES") then (s "WCSAXES", two) :: filter (fun c0 => f (fst c0)) (c :: b) else filter (fun c0 => f (fst c0)) (c :: b)).
      destruct (f (s "WCSAXES")); [reflexivity|]. rewrite E, filter_app. reflexivity. }
    split; [|split; [|split; [|split; [|split]]]].
    - intros x Hx. apply in_app_or in Hx. cbn [In] in Hx.
      assert (x = (s "WCSAXES", two) \/ In x h1) as [-> | Hx1].
      { rewrite E. destruct Hx as [Hx | [Hx | Hx]]; [right; apply in_or_app; left; exact Hx|left; auto|right; apply in_or_app; right; exact Hx]. }
      + split; [|intro Q; vm_compute in Q; discriminate Q]. intro Q. apply keys_axis in Q. revert Q. apply not_in_b. vm_compute. reflexivity.
      + destruct (I _ Hx1) as (_ & S & A & _). split; [exact A|exact S].
    - unfold cards at 1. rewrite (NA (str_eqb (s "NAXIS"))).
      replace (str_eqb (s "NAXIS") (s "WCSAXES")) with false by reflexivity.
      change (cards (s "NAXIS") h1 = (s "NAXIS", two) :: tl (cards (s "NAXIS") h)).
      unfold h1. rewrite cards_hpop_other, cards_hset_other, cards_hpop_other, cards_hset_same
        by (intro Q; vm_compute in Q; discriminate Q).
      f_equal. f_equal. unfold cards. apply (filter_hpops (str_eqb (s "NAXIS"))).
      intros k Hk. apply str_eqb_neq. intros <-. revert Hk. apply not_in_b. vm_compute. reflexivity.
    - unfold cards. rewrite (NA (str_eqb (s "WCSAXES"))). rewrite str_eqb_refl.
      assert (Z : forall l, (forall x, In x l -> In x h1) -> filter (fun c0 => str_eqb (s "WCSAXES") (fst c0)) l = []).
      { induction l as [|x l IH]; intros Hl; [reflexivity|]. cbn [filter].
        destruct (I x (Hl x (or_introl eq_refl))) as (Nx & _).
        rewrite str_eqb_neq by congruence. apply IH. intros y Hy. apply Hl. right; exact Hy. }
      rewrite (Z a), (Z (c :: b)); [reflexivity| |]; intros x Hx; rewrite E; apply in_or_app; auto.
    - exists a, c, b. auto.
    - intros f Hf. rewrite NA.
      assert (F : forall k, axis_key k \/ k = s "STOKES" \/ k = s "WCSAXES" \/ k = s "NAXIS" -> f k = false).
      { intros k Hk. destruct (f k) eqn:Q; auto. destruct (Hf k Q) as (?&?&?&?). tauto. }
      rewrite (F (s "WCSAXES")) by tauto. unfold h1.
      rewrite filter_hpop, filter_hset, filter_hpop, filter_hset, filter_hpops; auto.
      intros k Hk. apply F. left. apply keys_axis, Hk.
    - intros f Hf Hn.
      assert (F : forall k, axis_key k \/ k = s "STOKES" \/ k = s "WCSAXES" -> f k = false).
      { intros k Hk. destruct (f k) eqn:Q; auto. destruct (Hf k Q) as (?&?&?). tauto. }
      assert (M : forall l : list (str * V), filter f (map fst l) = map fst (filter (fun c => f (fst c)) l)).
      { induction l as [|x l IH]; simpl; auto. destruct (f (fst x)); simpl; rewrite IH; reflexivity. }
      rewrite (M (a ++ _)), NA, (F (s "WCSAXES")) by tauto. unfold h1.
      rewrite filter_hpop, filter_hset, filter_hpop by (apply F; tauto).
      rewrite <- M, hset_keys, M, filter_hpops, <- M; auto.
      + intros k Hk. apply F. left. apply keys_axis, Hk.
      + apply in_map_iff in Hn. destruct Hn as (x & Ex & Hx). apply in_map_iff. exists x. split; auto.
        apply hpops_in. split; auto. rewrite Ex. apply not_in_b. vm_compute. reflexivity.
  Qed.

  (** it succeeds exactly when some celestial keyword is there *)
  Theorem header_2d_defined : forall (two : V) h,
    (exists h', remove_header_third_fourth_axis two h = POk h') <-> (exists c, In c h /\ celestial_key (fst c)).
  Proof.
    intros two h. rewrite remove_eq. cbv zeta. set (h1 := hpop (s "WCSAXES") _).
    pose proof (insert_pos_spec h1) as S. pose proof (in_h1 two h) as I. cbv zeta in I. fold h1 in I.
    destruct (insert_pos h1) as [i|].
    - destruct S as (a & c & b & E & _ & Cc & _). split; [|eauto]. intros _. exists c. split; [|exact Cc].
      destruct (celestial_not_dropped _ Cc) as (_ & _ & N & _).
      destruct (I c) as (_ & _ & _ & [-> | ?]); auto; [rewrite E; apply in_or_app; right; left; reflexivity|].
      exfalso. apply N. reflexivity.
    - split; [intros (h' & Q); discriminate|]. intros (c & Hc & Cc). exfalso. apply (S c); auto.
      destruct (celestial_not_dropped _ Cc) as (N1 & N2 & N3 & N4).
      unfold h1. apply hpop_in. split; auto.
      assert (T : forall k (v : V) l, In c l -> fst c <> k -> In c (hset k v l)).
      { intros k v l. induction l as [|[k' v'] l IH]; intros Hl Hn; [destruct Hl|]. simpl.
        destruct (str_eqb k k') eqn:E.
        - apply str_eqb_eq in E. subst k'. destruct Hl as [<- | Hl]; [exfalso; apply Hn; reflexivity|right; exact Hl].
        - destruct Hl as [<- | Hl]; [left; reflexivity|right; apply IH; auto]. }
      apply T; auto. apply hpop_in. split; auto. apply T; auto. apply hpops_in. auto.
  Qed.
End H.

(** ** Names *)
Local Transparent s.

(** no occurrence of [old] starts before y and ends inside it *)
Definition no_straddle (old y : str) : Prop := forall k, 1 <= k < List.length old -> startswith (skipn k old) y = false.

Lemma startswith_split : forall old w y, startswith old (w ++ y) = true ->
  startswith old w = true \/ (List.length w < List.length old /\ startswith (skipn (List.length w) old) y = true).
Proof.
  induction old as [|a old IH]; intros w y H; [left; destruct w; reflexivity|].
  destruct w as [|b w].
  - right. split; [simpl; lia|exact H].
  - simpl in H |- *. apply andb_prop in H. destruct H as [E H]. rewrite E. simpl.
    destruct (IH _ _ H) as [?|[L S]]; [left; auto|right; split; [lia|exact S]].
Qed.

Lemma startswith_more : forall old w y, startswith old w = true -> startswith old (w ++ y) = true.
Proof.
  induction old as [|a old IH]; intros w y H; [destruct (w ++ y); reflexivity|].
  destruct w as [|b w]; simpl in H; [discriminate|]. apply andb_prop in H. destruct H as [E H].
  simpl. rewrite E. simpl. apply IH, H.
Qed.

Lemma starts_before : forall old c w y, no_straddle old y -> contains old (c :: w) = false -> startswith old ((c :: w) ++ y) = false.
Proof.
  intros old c w y N F. destruct (startswith old ((c :: w) ++ y)) eqn:E; auto. exfalso.
  destruct (startswith_split _ _ _ E) as [H | [L H]].
  - cbn [contains] in F. rewrite H in F. discriminate.
  - rewrite N in H; [discriminate|]. simpl in L |- *. lia.
Qed.

Lemma contains_app : forall old w y, no_straddle old y -> contains old w = false -> contains old (w ++ y) = contains old y.
Proof.
  intros old w y N. induction w as [|c w IH]; intros F; [reflexivity|].
  pose proof (starts_before _ _ _ _ N F) as B. simpl app in *. cbn [contains].
  rewrite B. simpl. apply IH. cbn [contains] in F. apply orb_false_elim in F. apply F.
Qed.

Lemma replace_fuel_free : forall old new fuel x, contains old x = false -> replace_fuel fuel old new x = x.
Proof.
  intros old new. induction fuel as [|fuel IH]; intros x F; [reflexivity|].
  destruct x as [|a x]; [reflexivity|]. cbn [contains] in F. apply orb_false_elim in F. destruct F as [F1 F2].
  cbn [replace_fuel]. rewrite F1, IH; auto.
Qed.

Lemma replace_free : forall old new x, contains old x = false -> replace old new x = x.
Proof. intros. apply replace_fuel_free; auto. Qed.

Lemma skipn_len_app : forall (A : Type) (l r : list A), skipn (List.length l) (l ++ r) = r.
Proof. induction l; simpl; auto. Qed.

Lemma replace_one : forall old new w t, old <> [] -> no_straddle old (old ++ t) -> contains old w = false -> contains old t = false ->
  replace old new (w ++ old ++ t) = w ++ new ++ t.
Proof.
  intros old new w t Ho N Fw Ft. unfold replace.
  assert (G : forall fuel w, List.length (w ++ old ++ t) < fuel -> contains old w = false -> replace_fuel fuel old new (w ++ old ++ t) = w ++ new ++ t).
  { clear w Fw. induction fuel as [|fuel IH]; intros w L Fw; [lia|].
    destruct w as [|c w].
    - simpl app in *. destruct (old ++ t) as [|d u] eqn:E; [destruct old; [contradiction|discriminate]|].
      cbn [replace_fuel]. rewrite <- E. rewrite startswith_app. rewrite skipn_len_app. rewrite replace_fuel_free; auto.
    - pose proof (starts_before _ _ _ _ N Fw) as B. simpl app in *. cbn [replace_fuel]. rewrite B. f_equal. apply IH.
      + simpl in L. lia.
      + cbn [contains] in Fw. apply orb_false_elim in Fw. apply Fw. }
  apply G; auto.
Qed.

Lemma free_contains : forall m x, free_of m x <-> contains m x = false.
Proof.
  intros m x. unfold free_of. split.
  - intro H. destruct (contains m x) eqn:E; auto. exfalso. apply H, contains_spec, E.
  - intros E H. apply contains_spec in H. congruence.
Qed.

Ltac straddle := let k := fresh "k" in let Hk := fresh "Hk" in intros k Hk; cbv [s list_ascii_of_string List.length] in Hk;
  do 15 (destruct k as [|k]; [first [exfalso; lia | reflexivity]|]); exfalso; lia.

Section Names.
  Variables w t : str.
  Hypothesis Hw : free3 w.
  Hypothesis Ht : free3 t.

  Let cw : contains (s "_tot") w = false. Proof. apply free_contains, Hw. Qed.
  Let cw2 : contains (s "_real") w = false. Proof. apply free_contains, Hw. Qed.
  Let cw3 : contains (s "_im") w = false. Proof. apply free_contains, Hw. Qed.
  Let ct : contains (s "_tot") t = false. Proof. apply free_contains, Ht. Qed.
  Let ct2 : contains (s "_real") t = false. Proof. apply free_contains, Ht. Qed.
  Let ct3 : contains (s "_im") t = false. Proof. apply free_contains, Ht. Qed.

  Ltac side := first [assumption | discriminate | straddle].
  Ltac miss := rewrite (replace_free _ _ (w ++ _)) by (rewrite contains_app by side; cbn [s list_ascii_of_string app contains startswith]; simpl; assumption).
  Ltac hit := rewrite replace_one by side.

  Lemma real_name_ok : forall m, In m [s "_tot"; s "_real"; s "_im"] -> real_name (w ++ m ++ t) = w ++ s "_real" ++ t.
  Proof.
    intros m [<- | [<- | [<- | []]]]; unfold real_name.
    - hit. miss. reflexivity.
    - miss. miss. reflexivity.
    - miss. hit. reflexivity.
  Qed.
  Lemma imag_name_ok : forall m, In m [s "_tot"; s "_real"; s "_im"] -> imag_name (w ++ m ++ t) = w ++ s "_im" ++ t.
  Proof.
    intros m [<- | [<- | [<- | []]]]; unfold imag_name.
    - hit. miss. reflexivity.
    - miss. hit. reflexivity.
    - miss. miss. reflexivity.
  Qed.
  Lemma fwhm_name_ok : forall m, In m [s "_tot"; s "_real"; s "_im"] -> fwhm_name (w ++ m ++ t) = w ++ s "_FWHM" ++ t.
  Proof.
    intros m [<- | [<- | [<- | []]]]; unfold fwhm_name.
    - miss. miss. hit. reflexivity.
    - hit. miss. miss. reflexivity.
    - miss. hit. miss. reflexivity.
  Qed.
End Names.

(** the same for the names the tools write: pre is directory and prefix *)
Theorem companion_names : forall pre, free3 pre ->
  forall stem tail, In (stem, tail) [(s "FDF", s "_dirty.fits"); (s "FDF_clean", s ".fits"); (s "FDF_CC", s ".fits"); (s "RMSF", s ".fits")] ->
  forall m, In m [s "_tot"; s "_real"; s "_im"] ->
  real_name (pre ++ stem ++ m ++ tail) = pre ++ stem ++ s "_real" ++ tail /\
  imag_name (pre ++ stem ++ m ++ tail) = pre ++ stem ++ s "_im" ++ tail /\
  fwhm_name (pre ++ stem ++ m ++ tail) = pre ++ stem ++ s "_FWHM" ++ tail.
Proof.
  intros pre Hp stem tail Hs m Hm.
  assert (free3 (pre ++ stem) /\ free3 tail) as [Hw Ht].
  { destruct Hp as (P1 & P2 & P3). apply free_contains in P1, P2, P3. unfold free3. rewrite !free_contains.
    cbn [In] in Hs. repeat (destruct Hs as [Hs | Hs]; [injection Hs as <- <-; repeat split; try reflexivity;
      rewrite contains_app by first [assumption | straddle]; reflexivity|]). destruct Hs. }
  rewrite !(app_assoc pre stem). repeat split.
  - apply real_name_ok; auto.
  - apply imag_name_ok; auto.
  - apply fwhm_name_ok; auto.
Qed.

Lemma contains_prefix : forall p q x, contains p x = false -> contains (p ++ q) x = false.
Proof.
  intros p q x H. apply free_contains. intros (a & b & ->). rewrite <- app_assoc in H.
  assert (contains p (a ++ p ++ q ++ b) = true) as E; [|congruence]. apply contains_spec. eauto.
Qed.

(** RMpeakfit_3D: the width map that goes with the six kinds of FDF cube *)
Theorem peakfit_names : forall pre, free_of (s "FDF_") pre ->
  forall m, In m [s "FDF_tot_dirty"; s "FDF_real_dirty"; s "FDF_im_dirty"; s "FDF_clean_tot"; s "FDF_clean_real"; s "FDF_clean_im"] ->
  peakfit_fwhm_name (pre ++ m ++ s ".fits") = pre ++ s "RMSF_FWHM" ++ s ".fits".
Proof.
  intros pre Hp m Hm. apply free_contains in Hp.
  assert (C : forall q, contains (s "FDF_" ++ q) pre = false) by (intro; apply contains_prefix; exact Hp).
  pose proof (C (s "tot_dirty")) as C1. pose proof (C (s "real_dirty")) as C2. pose proof (C (s "im_dirty")) as C3.
  pose proof (C (s "clean_tot")) as C4. pose proof (C (s "clean_real")) as C5. pose proof (C (s "clean_im")) as C6.
  change (s "FDF_" ++ s "tot_dirty") with (s "FDF_tot_dirty") in C1. change (s "FDF_" ++ s "real_dirty") with (s "FDF_real_dirty") in C2.
  change (s "FDF_" ++ s "im_dirty") with (s "FDF_im_dirty") in C3. change (s "FDF_" ++ s "clean_tot") with (s "FDF_clean_tot") in C4.
  change (s "FDF_" ++ s "clean_real") with (s "FDF_clean_real") in C5. change (s "FDF_" ++ s "clean_im") with (s "FDF_clean_im") in C6.
  clear C Hp. unfold peakfit_fwhm_name. cbv zeta.
  cbn [In] in Hm.
  Local Ltac miss1 pre := rewrite (replace_free _ _ (pre ++ _)) by (rewrite contains_app by first [assumption | straddle]; reflexivity).
  Local Ltac hit1 := rewrite replace_one by first [assumption | discriminate | straddle | reflexivity].
  repeat (destruct Hm as [<- | Hm]; [repeat (first [hit1 | miss1 pre]); reflexivity|]). destruct Hm.
Qed.

(** a directory whose name contains a marker is not left alone *)
Lemma companion_dir_refuted :
  real_name (s "my_images/FDF_tot_dirty.fits") = s "my_realages/FDF_real_dirty.fits" /\
  imag_name (s "src_real/FDF_tot_dirty.fits") = s "src_im/FDF_im_dirty.fits" /\
  fwhm_name (s "my_images/RMSF_tot.fits") = s "my_FWHMages/RMSF_FWHM.fits".
Proof. repeat split; reflexivity. Qed.

(** CD terms and CROTA of the removed axes stay *)
Lemma cd_left_behind : forall V (two : V) v, exists h',
  remove_header_third_fourth_axis two [(s "NAXIS", v); (s "CRPIX1", v); (s "CD3_3", v); (s "CROTA3", v)] = POk h' /\
  In (s "WCSAXES", two) h' /\ In (s "CD3_3", v) h' /\ In (s "CROTA3", v) h'.
Proof.
  intros. exists [(s "NAXIS", two); (s "WCSAXES", two); (s "CRPIX1", v); (s "CD3_3", v); (s "CROTA3", v)].
  split; [vm_compute; reflexivity|]. repeat split.
  - right; left; reflexivity.
  - do 3 right; left; reflexivity.
  - do 4 right; left; reflexivity.
Qed.
