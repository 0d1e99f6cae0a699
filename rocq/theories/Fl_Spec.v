(** Vocabulary for statements about rounding. Nothing here comes from the model. *)
From Coq Require Import Reals List Arith.
Set Warnings "-ambiguous-paths".
From Coquelicot Require Import Coquelicot.
From Verif Require Import CBase Synth_Spec.
Import ListNotations.
Local Open Scope R_scope.

(** a rounding with relative error u *)
Definition rounds (r : R -> R) (u : R) : Prop := forall x, Rabs (r x - x) <= u * Rabs x.

(** a summation of n numbers with error g relative to the sum of their sizes *)
Definition sums (sumf : list R -> R) (n : nat) (g : R) : Prop :=
  forall l, length l = n -> Rabs (sumf l - rsum l) <= g * rsum (map Rabs l).

(** a transform with tolerance eps, relative to the sum of the sizes of the strengths *)
Definition transforms (nufft : list R -> list C -> list R -> list C) (eps : R) : Prop :=
  forall x c s, length c = length x ->
    length (nufft x c s) = length s /\
    forall k, (k < length s)%nat ->
      Cmod (nth k (nufft x c s) (RtoC 0) -
            csum (map (fun j => nth j c (RtoC 0) * cis (nth k s 0 * nth j x 0)) (seq 0 (length x))))%C <= eps * rsum (map Cmod c).

(** an exponential with error e *)
Definition exps (expf : R -> C) (e : R) : Prop := forall t, Cmod (expf t - cis t)%C <= e.

(** weighted mean polarised intensity of the channels of a pixel *)
Definition mean_P (chs : list chan) : R := rsum (map (fun c => c_w c * Cmod (c_P c)) chs) / wsum chs.

(** relative error of the dispersion function: u, v roundings of data and
    wavelengths, g of the sum, eps of the transform, x the largest phase *)
Definition synth_err (u v g eps x : R) : R :=
  (1 + u) ^ 3 / (1 - g) * (1 + eps + ((1 + u) ^ 2 * (1 + v) - 1) * x) - 1.

(** summation trees: some order of pairwise additions *)
Inductive stree := Leaf (x : R) | Node (a b : stree).
Fixpoint leaves (t : stree) : list R := match t with Leaf x => [x] | Node a b => leaves a ++ leaves b end.
Fixpoint depth (t : stree) : nat := match t with Leaf _ => 0 | Node a b => S (Nat.max (depth a) (depth b)) end.
Fixpoint fsum (r : R -> R) (t : stree) : R := match t with Leaf x => x | Node a b => r (fsum r a + fsum r b) end.

(** the spread function of weights w at wavelengths l2: its channels, and its
    relative error (e is the error of the exponential) *)
Definition wl_chans (w l2 : list R) : list chan := map (fun wl => mk_chan (snd wl) (fst wl) (RtoC 0)) (combine w l2).
Definition rmsf_err (u v g e x : R) : R :=
  (1 + v) ^ 2 / (1 - g) * ((1 + 2 * g) * (1 + v) * (1 + e) + ((1 + u) * (1 + v) ^ 2 - 1) * x) - 1.
