(** Common vocabulary: complex exponentials and finite sums over lists.
    Nothing here models a particular function of RM-Tools. Complex numbers are
    Coquelicot's pairs of reals. *)
From Coq Require Import Reals List Lra Lia Psatz.
Set Warnings "-ambiguous-paths".
From Coquelicot Require Import Coquelicot.
Import ListNotations.
Local Open Scope R_scope.

(** [cis t] is exp(i t). *)
Definition cis (t : R) : C := (cos t, sin t).

(** Sums of lists of reals and of complex numbers (numpy.sum). *)
Definition rsum (l : list R) : R := fold_right Rplus 0 l.
Definition csum (l : list C) : C := fold_right Cplus (RtoC 0) l.
Arguments rsum : simpl never.
Arguments csum : simpl never.

(* ---------------------------------------------------------------- cis *)

Lemma cis_0 : cis 0 = RtoC 1.
Proof. unfold cis. rewrite cos_0, sin_0. reflexivity. Qed.

Lemma cis_plus : forall a b, cis (a + b) = (cis a * cis b)%C.
Proof.
  intros. unfold cis, Cmult; simpl. rewrite cos_plus, sin_plus.
  f_equal; ring.
Qed.

Lemma cis_opp : forall a, cis (- a) = Cconj (cis a).
Proof. intros. unfold cis, Cconj; simpl. now rewrite cos_neg, sin_neg. Qed.

Lemma Cmod_cis : forall a, Cmod (cis a) = 1.
Proof.
  intros. unfold Cmod, cis; simpl.
  replace (cos a * (cos a * 1) + sin a * (sin a * 1)) with 1.
  - apply sqrt_1.
  - generalize (sin2_cos2 a). unfold Rsqr. lra.
Qed.

Lemma cis_neq_0 : forall a, cis a <> RtoC 0.
Proof.
  intros a H. generalize (Cmod_cis a). rewrite H, Cmod_0. lra.
Qed.

Lemma cis_inv_l : forall a, (cis (- a) * cis a)%C = RtoC 1.
Proof. intros. rewrite <- cis_plus. replace (- a + a) with 0 by ring. apply cis_0. Qed.

Lemma cis_2PI : forall a, cis (a + 2 * PI) = cis a.
Proof. intros. unfold cis. rewrite cos_plus, sin_plus, cos_2PI, sin_2PI. f_equal; ring. Qed.

Lemma cis_period : forall (k : nat) a, cis (a + 2 * INR k * PI) = cis a.
Proof. intros. unfold cis. now rewrite cos_period, sin_period. Qed.

Lemma cis_period_Z : forall (k : Z) a, cis (a + 2 * IZR k * PI) = cis a.
Proof.
  intros k a. destruct (Z_le_dec 0 k) as [H|H].
  - rewrite <- (Z2Nat.id k) by lia. rewrite <- INR_IZR_INZ. apply cis_period.
  - replace a with ((a + 2 * IZR k * PI) + 2 * INR (Z.to_nat (- k)) * PI) at 2.
    + now rewrite cis_period.
    + rewrite INR_IZR_INZ, Z2Nat.id by lia. rewrite opp_IZR. ring.
Qed.

Lemma cis_PI : cis PI = RtoC (-1).
Proof. unfold cis. now rewrite cos_PI, sin_PI. Qed.

(* ---------------------------------------------------------------- rsum *)

Lemma rsum_nil : rsum [] = 0. Proof. reflexivity. Qed.
Lemma rsum_cons : forall x l, rsum (x :: l) = x + rsum l. Proof. reflexivity. Qed.

Lemma rsum_app : forall l1 l2, rsum (l1 ++ l2) = rsum l1 + rsum l2.
Proof. induction l1; intros; simpl app; [rewrite rsum_nil; ring|]. rewrite !rsum_cons, IHl1. ring. Qed.

Lemma rsum_map_scal : forall {A} (f : A -> R) c l, rsum (map (fun x => c * f x) l) = c * rsum (map f l).
Proof. induction l; simpl; rewrite ?rsum_cons, ?rsum_nil; [ring|]. rewrite IHl. ring. Qed.

Lemma rsum_map_plus : forall {A} (f g : A -> R) l,
  rsum (map (fun x => f x + g x) l) = rsum (map f l) + rsum (map g l).
Proof. induction l; simpl; rewrite ?rsum_cons, ?rsum_nil; [ring|]. rewrite IHl. ring. Qed.

Lemma rsum_map_ext : forall {A} (f g : A -> R) l,
  (forall x, In x l -> f x = g x) -> rsum (map f l) = rsum (map g l).
Proof. intros. f_equal. now apply map_ext_in. Qed.

Lemma rsum_nonneg : forall l, (forall x, In x l -> 0 <= x) -> 0 <= rsum l.
Proof.
  induction l; intros H; [unfold rsum; simpl; lra|]. rewrite rsum_cons.
  assert (0 <= a) by (apply H; now left).
  assert (0 <= rsum l) by (apply IHl; intros; apply H; now right). lra.
Qed.

Lemma rsum_le : forall {A} (f g : A -> R) l,
  (forall x, In x l -> f x <= g x) -> rsum (map f l) <= rsum (map g l).
Proof.
  induction l; intros H; [simpl; lra|]. simpl. rewrite !rsum_cons.
  assert (f a <= g a) by (apply H; now left).
  assert (rsum (map f l) <= rsum (map g l)) by (apply IHl; intros; apply H; now right). lra.
Qed.

Lemma rsum_zero : forall {A} (f : A -> R) l, (forall x, In x l -> f x = 0) -> rsum (map f l) = 0.
Proof.
  induction l; intros H; [reflexivity|]. simpl. rewrite rsum_cons, IHl, H; try ring.
  now left. intros; apply H; now right.
Qed.

(* ---------------------------------------------------------------- csum *)

Lemma csum_nil : csum [] = RtoC 0. Proof. reflexivity. Qed.
Lemma csum_cons : forall x l, csum (x :: l) = (x + csum l)%C. Proof. reflexivity. Qed.

Lemma csum_app : forall l1 l2, csum (l1 ++ l2) = (csum l1 + csum l2)%C.
Proof. induction l1; intros; simpl app; [rewrite csum_nil; ring|]. rewrite !csum_cons, IHl1. ring. Qed.

Lemma csum_map_scal : forall {A} (f : A -> C) c l, csum (map (fun x => c * f x)%C l) = (c * csum (map f l))%C.
Proof. induction l; simpl; rewrite ?csum_cons, ?csum_nil; [ring|]. rewrite IHl. ring. Qed.

Lemma csum_map_plus : forall {A} (f g : A -> C) l,
  csum (map (fun x => f x + g x)%C l) = (csum (map f l) + csum (map g l))%C.
Proof. induction l; simpl; rewrite ?csum_cons, ?csum_nil; [ring|]. rewrite IHl. ring. Qed.

Lemma csum_map_ext : forall {A} (f g : A -> C) l,
  (forall x, In x l -> f x = g x) -> csum (map f l) = csum (map g l).
Proof. intros. f_equal. now apply map_ext_in. Qed.

Lemma csum_zero : forall {A} (f : A -> C) l, (forall x, In x l -> f x = RtoC 0) -> csum (map f l) = RtoC 0.
Proof.
  induction l; intros H; [reflexivity|]. simpl. rewrite csum_cons, IHl, H; try ring.
  now left. intros; apply H; now right.
Qed.

Lemma csum_RtoC : forall l, csum (map RtoC l) = RtoC (rsum l).
Proof. induction l; simpl; [reflexivity|]. rewrite csum_cons, rsum_cons, IHl. now rewrite RtoC_plus. Qed.

Lemma csum_map_RtoC : forall {A} (f : A -> R) l, csum (map (fun x => RtoC (f x)) l) = RtoC (rsum (map f l)).
Proof. intros. rewrite <- csum_RtoC, map_map. reflexivity. Qed.

Lemma csum_swap : forall {A B} (f : A -> B -> C) (la : list A) (lb : list B),
  csum (map (fun a => csum (map (fun b => f a b) lb)) la) =
  csum (map (fun b => csum (map (fun a => f a b) la)) lb).
Proof.
  induction la; intros; simpl.
  - rewrite csum_nil. symmetry. apply csum_zero. reflexivity.
  - rewrite csum_cons, IHla, <- csum_map_plus. apply csum_map_ext. intros. now rewrite csum_cons.
Qed.

Lemma Cmod_csum_le : forall {A} (f : A -> C) l, Cmod (csum (map f l)) <= rsum (map (fun x => Cmod (f x)) l).
Proof.
  induction l; simpl; [rewrite csum_nil, Cmod_0, rsum_nil; apply Rle_refl|].
  rewrite csum_cons, rsum_cons. eapply Rle_trans; [apply Cmod_triangle|]. lra.
Qed.

Lemma Cconj_csum : forall {A} (f : A -> C) l, Cconj (csum (map f l)) = csum (map (fun x => Cconj (f x)) l).
Proof.
  induction l; simpl.
  - unfold Cconj, csum; simpl. now rewrite Ropp_0.
  - rewrite !csum_cons, <- IHl. unfold Cconj, Cplus; simpl. f_equal. ring.
Qed.

Lemma Cconj_mult' : forall a b, Cconj (a * b)%C = (Cconj a * Cconj b)%C.
Proof. intros [a1 a2] [b1 b2]. unfold Cconj, Cmult; simpl. f_equal; ring. Qed.

Lemma Cconj_RtoC' : forall r, Cconj (RtoC r) = RtoC r.
Proof. intros. unfold Cconj, RtoC; simpl. now rewrite Ropp_0. Qed.

(* sums over filtered lists *)
Lemma csum_filter : forall {A} (p : A -> bool) (f : A -> C) l,
  csum (map f (filter p l)) = csum (map (fun x => if p x then f x else RtoC 0) l).
Proof.
  induction l; simpl; [reflexivity|]. destruct (p a); simpl; rewrite !csum_cons, IHl; ring.
Qed.

Lemma rsum_filter : forall {A} (p : A -> bool) (f : A -> R) l,
  rsum (map f (filter p l)) = rsum (map (fun x => if p x then f x else 0) l).
Proof.
  induction l; simpl; [reflexivity|]. destruct (p a); simpl; rewrite !rsum_cons, IHl; ring.
Qed.
