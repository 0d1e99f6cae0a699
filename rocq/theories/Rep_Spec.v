(** Vocabulary of the statements about rmtools_calcRMSF. Nothing here comes from
    the model. *)
From Coq Require Import Reals List Arith ZArith Bool Permutation Sorting.Sorted.
Set Warnings "-ambiguous-paths".
From Coquelicot Require Import Coquelicot.
From Verif Require Import CBase Synth_Spec.
Import ListNotations.
Local Open Scope R_scope.

(** The squared wavelength of a frequency in Hz. *)
Definition wavelength2 (f : R) : R := (299792458 / f) ^ 2.

(** Largest minus smallest. *)
Definition span (l : list R) (s : R) : Prop :=
  exists hi lo, In hi l /\ In lo l /\ (forall x, In x l -> lo <= x <= hi) /\ s = hi - lo.

(** Sample [i] is higher than its two neighbours. *)
Definition sharp_max (y : list R) (i : nat) : Prop :=
  (1 <= i)%nat /\ (i + 1 < length y)%nat /\ nth (i - 1) y 0 < nth i y 0 /\ nth (i + 1) y 0 < nth i y 0.

(** The first of the highest of them. *)
Definition highest_max (y : list R) (i : nat) : Prop :=
  sharp_max y i /\ (forall j, sharp_max y j -> nth j y 0 <= nth i y 0) /\ forall j, sharp_max y j -> (j < i)%nat -> nth j y 0 < nth i y 0.

(** The channels with their weights. *)
Definition weighted (l2 w : list R) : list chan := map (fun lw => mk_chan (fst lw) (snd lw) (RtoC 0)) (combine l2 w).

(** The value asked for, or [c] times 2 sqrt 3 over the span. *)
Definition chosen (c s : R) (o : option R) (v : R) : Prop :=
  match o with Some x => v = x | None => s <> 0 /\ v = c * (2 * sqrt 3) / s end.

(** The middle of the sorted values (of the two in the middle, their mean). *)
Definition middle (l : list R) (m : R) : Prop :=
  l <> [] /\ exists v, Permutation l v /\ StronglySorted Rle v /\
    m = (nth ((length v - 1) / 2) v 0 + nth (length v / 2) v 0) / 2.

(** The distances of neighbours. *)
Definition steps (l : list R) : list R := map (fun i => Rabs (nth (S i) l 0 - nth i l 0)) (seq 0 (length l - 1)).

(** [n] values from [a] on, [d] apart, with [e] more before and after. *)
Definition padded_axis (a d : R) (n e : nat) : list R := map (fun k => a + (INR k - INR e) * d) (seq 0 (2 * e + n)).

(** The modulus of the spread function at 203 depths around zero, [d] apart. *)
Definition spread (chs : list chan) (d : R) : list R := map (fun k => Cmod (RMSF_spec chs (mean_l2 chs) ((INR k - 101) * d))) (seq 0 203).
