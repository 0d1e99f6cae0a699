(** RM-CLEAN of a cube: every pixel is the result of its own loop. *)
From Coq Require Import Reals List Arith ZArith Bool Lia Lra Permutation.
Set Warnings "-ambiguous-paths".
From Coquelicot Require Import Coquelicot.
From Verif Require Import PyRes CBase NdArray PyList PyList_Proofs Synth_Model Clean_Model Clean_Spec Clean_Proofs.
Import ListNotations.
Local Open Scope R_scope.

Lemma run_all_lookup : forall {A} (f : nat -> pyres A) ps outs, NoDup ps -> run_all f ps = POk outs ->
  forall p, (In p ps -> exists a, f p = POk a /\ lookup p (combine ps outs) = Some a) /\
            (~ In p ps -> lookup p (combine ps outs) = None).
Proof.
  intros A f ps outs ND H p.
  assert (L : length outs = length ps).
  { clear ND. revert outs H. induction ps as [|q ps IH]; intros outs H; simpl in H; [injection H as <-; auto|].
    destruct (f q); [|discriminate]. destruct (run_all f ps); [|discriminate]. injection H as <-. simpl. auto. }
  assert (G : forall q a, In (q, a) (combine ps outs) -> f q = POk a).
  { clear ND L. revert outs H. induction ps as [|x ps IH]; intros outs H q a Hin; simpl in *; [tauto|].
    destruct (f x) eqn:E; [|discriminate]. destruct (run_all f ps); [|discriminate].
    injection H as <-. destruct Hin as [Hin|Hin]; [injection Hin as <- <-; auto|eauto]. }
  unfold lookup. destruct (find _ (rev (combine ps outs))) as [[q a]|] eqn:E.
  - apply find_some in E. destruct E as [E1 E2]. simpl in E2. apply Nat.eqb_eq in E2. subst q.
    apply in_rev in E1. split; [|intros Hn; exfalso; apply Hn; eapply in_combine_l; eauto].
    intros _. exists a. split; auto.
  - assert (N : forall a, ~ In (p, a) (combine ps outs)).
    { intros a Hin. apply in_rev in Hin. eapply find_none in E; eauto. simpl in E. now rewrite Nat.eqb_refl in E. }
    split; auto. intros Hin. exfalso.
    destruct (In_nth ps p 0%nat Hin) as [i [Hi Ei]].
    destruct outs as [|o0 outs']; [simpl in L; lia|].
    apply (N (nth i (o0 :: outs') o0)). rewrite <- Ei, <- combine_nth by auto. apply nth_In.
    rewrite combine_length. lia.
Qed.

Lemma run_all_ext : forall {A} (f g : nat -> pyres A) ps, (forall p, In p ps -> f p = g p) -> run_all f ps = run_all g ps.
Proof.
  induction ps as [|p ps IH]; intros H; simpl; auto. rewrite (H p (or_introl eq_refl)), IH by (intros; apply H; now right).
  reflexivity.
Qed.

Lemma run_all_map : forall {A} (f : nat -> pyres A) (h : nat -> nat) l, run_all (fun i => f (h i)) l = run_all f (map h l).
Proof. induction l; simpl; auto. now rewrite IHl. Qed.

(** any completion order gives the serial result *)
Lemma pool_imap_serial : forall {A} (f : nat -> pyres A) ps sched,
  Permutation sched (seq 0 (length ps)) -> pool_imap f ps sched = run_all f ps.
Proof.
  intros A f ps sched HP. unfold pool_imap.
  rewrite (run_all_ext _ (fun i => f (nth i ps 0%nat))).
  - rewrite (run_all_map f (fun i => nth i ps 0%nat)). f_equal.
    apply nth_ext with 0%nat 0%nat; rewrite map_length, seq_length; auto.
    intros k Hk. rewrite nth_map_seq by auto. reflexivity.
  - intros i Hi.
    assert (Hs : In i sched) by (eapply Permutation_in; [apply Permutation_sym; exact HP|auto]).
    clear HP Hi. revert Hs.
    assert (G : forall l t, (In i l \/ exists r, find (fun x => Nat.eqb (fst x) i) t = Some (i, r) /\ r = f (nth i ps 0%nat)) ->
      match find (fun x => Nat.eqb (fst x) i) (fold_left (fun t i => (i, f (nth i ps 0%nat)) :: t) l t) with
      | Some x => snd x | None => PErr end = f (nth i ps 0%nat)).
    { induction l as [|q l IH]; intros t H; simpl.
      - destruct H as [[]|[r [E1 E2]]]. rewrite E1. auto.
      - apply IH. simpl. destruct (Nat.eqb_spec q i).
        + subst q. right. eexists; split; reflexivity.
        + destruct H as [[H|H]|H]; [congruence|now left|now right]. }
    intros Hs. apply G. now left.
Qed.

Lemma at2_combine_cadd : forall a b m k p, length a = length b -> (k * m + p < length a)%nat ->
  at2 m None (map (fun ab => cadd (fst ab) (snd ab)) (combine a b)) k p = cadd (at2 m None a k p) (at2 m None b k p).
Proof. intros. unfold at2. rewrite (nth_map_combine _ _ _ _ _ None None) by auto. reflexivity. Qed.

(** What a successful call returns, pixel by pixel. *)
Lemma rmclean_pixels : forall dirty phi RMSF phi2 fwhm cutoff maxIter gain msk pool window r,
  do_rmclean_hogbom dirty phi RMSF phi2 fwhm cutoff maxIter gain msk pool window = CRetOk r ->
  match pool with None => True | Some sched =>
     Permutation sched (seq 0 (length (rev (filter (fun p => above cutoff
        (col (prodn (tl (shape dirty))) None (flat dirty) (length phi) p)) (seq 0 (prodn (tl (shape dirty)))))))) end ->
  let m := prodn (tl (shape dirty)) in
  forall p, (p < m)%nat ->
  (above cutoff (col m None (flat dirty) (length phi) p) = true ->
   exists o, cleanloop_nan (col m None (flat dirty) (length phi) p) (col m None (flat RMSF) (length phi2) p) phi
                 (nth p fwhm None) gain cutoff window maxIter = POk o /\
     nth p (flat (iterCountArr r)) 0%nat = match pool with None => o_iter o | _ => 0%nat end /\
     forall k, (k < length phi)%nat ->
       at2 m None (flat (residFDF r)) k p = nth k (o_resid o) None /\
       at2 m None (flat (ccArr r)) k p = nth k (o_cc o) None /\
       at2 m None (flat (cleanFDF r)) k p = cadd (nth k (o_clean o) None) (nth k (o_resid o) None)) /\
  (above cutoff (col m None (flat dirty) (length phi) p) = false ->
     nth p (flat (iterCountArr r)) 0%nat = 0%nat /\
     forall k, (k < length phi)%nat ->
       at2 m None (flat (residFDF r)) k p = at2 m None (flat dirty) k p /\
       at2 m None (flat (ccArr r)) k p = Some (RtoC 0) /\
       at2 m None (flat (cleanFDF r)) k p = at2 m None (flat dirty) k p).
Proof.
  intros dirty phi RMSF phi2 fwhm cutoff maxIter gain msk pool window r H HS m p Hp.
  unfold do_rmclean_hogbom in H.
  do 7 match type of H with (if ?b then _ else _) = _ => destruct b; [discriminate|] end.
  fold m in H, HS. cbv zeta in H.
  set (coords := rev (filter _ (seq 0 m))) in *.
  set (task := fun p => cleanloop_nan _ _ _ (nth p fwhm None) _ _ _ _) in *.
  assert (HR : match pool with None => run_all task coords | Some sched => pool_imap task coords sched end = run_all task coords).
  { destruct pool as [sched|]; auto. apply pool_imap_serial. exact HS. }
  rewrite HR in H. clear HR.
  destruct (run_all task coords) as [outs|] eqn:E; [|discriminate].
  injection H as <-.
  assert (ND : NoDup coords) by (apply NoDup_rev, NoDup_filter, seq_NoDup).
  destruct (run_all_lookup task coords outs ND E p) as [L1 L2].
  assert (Hin : In p coords <-> above cutoff (col m None (flat dirty) (length phi) p) = true).
  { unfold coords. rewrite <- in_rev, filter_In, in_seq. split; [tauto|]. intros; split; [lia|auto]. }
  split; intros Ha.
  - destruct (L1 (proj2 Hin Ha)) as [o [Eo El]]. exists o. split; [exact Eo|].
    cbn [flat squeeze iterCountArr residFDF ccArr cleanFDF]. split.
    + rewrite nth_map_seq by auto. simpl. rewrite El. reflexivity.
    + intros k Hk. assert (Hb : (k * m + p < length phi * m)%nat) by nia.
      rewrite at2_combine_cadd by (rewrite !length_tab2; auto).
      rewrite !at2_tab2 by auto. rewrite El. auto.
  - assert (Hn : ~ In p coords) by (rewrite Hin; congruence).
    cbn [flat squeeze iterCountArr residFDF ccArr cleanFDF]. split.
    + rewrite nth_map_seq by auto. simpl. rewrite (L2 Hn). reflexivity.
    + intros k Hk. assert (Hb : (k * m + p < length phi * m)%nat) by nia.
      rewrite at2_combine_cadd by (rewrite !length_tab2; auto).
      rewrite !at2_tab2 by auto. rewrite (L2 Hn). repeat split; auto.
      destruct (at2 m None (flat dirty) k p); simpl; auto. f_equal. ring.
Qed.

(* ------------------------------------------------------ spec vocabulary *)
Lemma all_some_spec : forall {A} (l : list (option A)) (d : A) v, length l = length v ->
  (forall k, (k < length v)%nat -> nth k l None = Some (nth k v d)) -> all_some l = Some v.
Proof.
  induction l as [|x l IH]; intros d [|y v] HL H; simpl in *; try lia; auto.
  rewrite (H 0%nat ltac:(lia)). simpl. rewrite (IH d v); auto. intros k Hk. apply (H (S k)). lia.
Qed.

Lemma length_col : forall {A} m (d : A) l n p, length (col m d l n p) = n.
Proof. intros. unfold col. now rewrite map_length, seq_length. Qed.

Lemma nth_col : forall {A} m (d : A) l n p k e, (k < n)%nat -> nth k (col m d l n p) e = nth (k * m + p) l d.
Proof. intros. unfold col. now rewrite nth_map_seq. Qed.

Lemma has_spec_col : forall m p a l n, length l = n -> has_spec m p a l -> all_some (col m None a n p) = Some l.
Proof.
  intros m p a l n <- H. apply all_some_spec with czero; [apply length_col|].
  intros k Hk. rewrite nth_col by auto. now apply H.
Qed.

Lemma has_spec_map : forall m p (a : list (option C)) (o : list (option C)) l,
  o = map Some l -> (forall k, (k < length l)%nat -> at2 m None a k p = nth k o None) -> has_spec m p a l.
Proof.
  intros m p a o l -> H k Hk. unfold at2 in H. rewrite H by auto.
  rewrite nth_indep with (d' := Some czero) by (rewrite map_length; auto). now rewrite map_nth.
Qed.

Lemma above_reaches : forall cutoff m n p a, 0 < cutoff ->
  above cutoff (col m None a n p) = reaches m n p a cutoff.
Proof.
  intros cutoff m n p a Hc. unfold above, reaches.
  destruct (existsb _ _) eqn:E.
  - apply existsb_exists in E. destruct E as [k [Hk E]]. apply in_seq in Hk.
    destruct (nth (k * m + p) a None) as [z|] eqn:Ez; [|discriminate].
    destruct (Rle_dec cutoff (Cmod z)); [|discriminate].
    destruct Rle_dec as [|N]; auto. exfalso. apply N. eapply Rle_trans; [exact r|]. apply maxabs_ge.
    apply in_map_iff. exists (Some z). split; [reflexivity|]. rewrite <- Ez.
    unfold col. apply in_map_iff. exists k. split; [reflexivity|]. apply in_seq. lia.
  - destruct Rle_dec as [L|]; auto. exfalso.
    assert (maxabs (map nan_to_num (col m None a n p)) < cutoff); [|lra].
    apply maxabs_lt; auto. intros z Hz. apply in_map_iff in Hz. destruct Hz as [x [<- Hx]].
    unfold col in Hx. apply in_map_iff in Hx. destruct Hx as [k [<- Hk]].
    destruct (at2 m None a k p) as [z|] eqn:Ez; simpl; [|rewrite Cmod_0; auto].
    apply Rnot_le_lt. intros L2.
    assert (existsb (fun k => match nth (k * m + p) a None with
         | Some z => if Rle_dec cutoff (Cmod z) then true else false | None => false end) (seq 0 n) = true); [|congruence].
    apply existsb_exists. exists k. split; auto. unfold at2 in Ez. rewrite Ez. destruct Rle_dec; auto.
Qed.
