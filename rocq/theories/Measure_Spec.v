(** Vocabulary for statements about measurements. *)
From Coq Require Import Reals List Arith ZArith Bool.
Set Warnings "-ambiguous-paths".
From Coquelicot Require Import Coquelicot.
From Verif Require Import CBase Setup_Spec.
Import ListNotations.
Local Open Scope R_scope.

(** two angles in degrees that name the same orientation *)
Definition same_angle (a b : R) : Prop := exists k : Z, a = b + 180 * IZR k.

Definition quad (a b c x : R) : R := a * x ^ 2 + b * x + c.

(** the parabola a x^2 + b x + c goes through three points *)
Definition through (a b c x1 y1 x2 y2 x3 y3 : R) : Prop :=
  quad a b c x1 = y1 /\ quad a b c x2 = y2 /\ quad a b c x3 = y3.

(** orientation of a complex polarisation, in degrees *)
Definition orientation (z : C) (a : R) : Prop := exists r, 0 <= r /\ z = (RtoC r * cis (2 * (a * PI / 180)))%C.

(** increasing depths *)
Definition increasing (l : list R) : Prop := forall i j, (i < j < length l)%nat -> nth i l 0 < nth j l 0.

(** Gaussian likelihood of data y with errors dy and an additional scatter s,
    times the scale prior 1/s *)
Definition gauss (r v : R) : R := exp (- r ^ 2 / (2 * v)) / sqrt (2 * PI * v).
Definition likelihood (data : list (R * R)) (mean s : R) : R :=
  / s * fold_right Rmult 1 (map (fun yd => gauss (fst yd - mean) (snd yd ^ 2 + s ^ 2)) data).

(** channel [i] of [n], with value [z], is the first of the non-edge channels
    with the largest amplitude; blank channels do not count *)
Definition peak_channel (FDF : list (option C)) (n i : nat) (z : C) : Prop :=
  (0 < i < n - 1)%nat /\ nth i FDF None = Some z /\
  (forall j w, (0 < j < n - 1)%nat -> nth j FDF None = Some w -> Cmod w <= Cmod z) /\
  (forall j w, (0 < j < i)%nat -> nth j FDF None = Some w -> Cmod w < Cmod z).

Definition uniform (l : list R) (x0 d : R) : Prop := forall k, (k < length l)%nat -> nth k l 0 = x0 + INR k * d.

(** (y, dy) pairs that are both finite *)
Definition pairs (y dy : list (option R)) : list (R * R) :=
  flat_map (fun ab => match ab with (Some a, Some b) => [(a, b)] | _ => [] end) (combine y dy).

(** highest y + dy minus lowest y - dy *)
Definition is_range (d : list (R * R)) (rng : R) : Prop :=
  exists hi lo, rng = hi - lo /\ is_max (map (fun ab => fst ab + snd ab) d) hi /\ is_min (map (fun ab => fst ab - snd ab) d) lo.

(** the finite samples outside the channels i - 2 w ... i + 2 w - 1 *)
Definition off_peak (FDF : list (option C)) (i w : Z) : list C :=
  flat_map (fun jz => if ((i - 2 * w <=? Z.of_nat (fst jz)) && (Z.of_nat (fst jz) <? i + 2 * w))%Z then []
                      else match snd jz with Some z => [z] | None => [] end) (combine (seq 0 (length FDF)) FDF).
(** real and imaginary parts *)
Definition both_parts (l : list C) : list (option R) := map (fun z => Some (fst z)) l ++ map (fun z => Some (snd z)) l.

(** variance of a sample *)
Definition sample_variance (l : list R) : R :=
  rsum (map (fun x => (x - rsum l / INR (length l)) ^ 2) l) / (INR (length l) - 1).
