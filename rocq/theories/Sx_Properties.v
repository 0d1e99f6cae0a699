(** Angles and numbers written out for people: claim C85. *)
From Coq Require Import Reals List Arith ZArith Lia Lra Bool Permutation.
Set Warnings "-ambiguous-paths".
From Coquelicot Require Import Coquelicot.
From Verif Require Import PyRes PyStr PyStr_Proofs PyList PyList_Proofs Setup_Model Setup_Proofs Sx_Model Sx_Spec Sx_Proofs.
From Coq Require Import String Ascii.
Import ListNotations.
Local Open Scope R_scope.

(** C85. Degrees and minutes of a position: two digits each or more, minutes below 60, the minute below the angle (or above, if within 0.005 seconds). *)
Theorem C85_dms : forall deg, 0 <= deg -> exists D M n m, label_dms (Some deg) = POk (D ++ s "d" ++ M ++ s "m")%list /\
  numeral 2 D n /\ numeral 2 M m /\ (m < 60)%nat /\ - (5 / 1000 / 3600) <= deg - (INR n + INR m / 60) < 1 / 60.
Proof. exact @dms_label_pos. Qed.
Print Assumptions C85_dms.
Example C85_dms_nonvacuous : 0 <= 12 + 59 / 60 + 30 / 3600.
Proof. lra. Qed.


(** C85. The same for negative angles. Without a whole degree there is no sign. *)
Theorem C85_dms_negative : forall deg, deg < 0 -> exists D M n m, label_dms (Some deg) = POk ((if (n =? 0)%nat then s "000" else s "-" ++ D) ++ s "d" ++ M ++ s "m")%list /\
  numeral 2 D n /\ numeral 2 M m /\ (m < 60)%nat /\ - (5 / 1000 / 3600) <= - deg - (INR n + INR m / 60) < 1 / 60.
Proof. exact @dms_label_neg. Qed.
Print Assumptions C85_dms_negative.


(** C85. Equal labels stand for angles that differ by less than a minute. *)
Theorem C85_dms_close : forall x y t, 0 <= x -> 0 <= y -> label_dms (Some x) = POk t -> label_dms (Some y) = POk t -> Rabs (x - y) < 1 / 60 + 5 / 1000 / 3600.
Proof. exact @dms_close. Qed.
Print Assumptions C85_dms_close.


(** C85. Hours, minutes and seconds, within half a second. *)
Theorem C85_hms : forall deg, 0 <= deg -> exists D M S n m k, label_hms (Some deg) = POk (D ++ s "h" ++ M ++ s "m" ++ S ++ s "s")%list /\
  numeral 2 D n /\ numeral 2 M m /\ numeral 2 S k /\ (m < 60)%nat /\ (k <= 60)%nat /\ Rabs (deg / 15 - (INR n + INR m / 60 + INR k / 3600)) <= 1 / 7200.
Proof. exact @hms_label_pos. Qed.
Print Assumptions C85_hms.


(** C85. The same for negative angles. *)
Theorem C85_hms_negative : forall deg, deg < 0 -> exists D M S n m k, label_hms (Some deg) = POk ((if (n =? 0)%nat then s "000" else s "-" ++ D) ++ s "h" ++ M ++ s "m" ++ S ++ s "s")%list /\
  numeral 2 D n /\ numeral 2 M m /\ numeral 2 S k /\ (m < 60)%nat /\ (k <= 60)%nat /\ Rabs (- (deg / 15) - (INR n + INR m / 60 + INR k / 3600)) <= 1 / 7200.
Proof. exact @hms_label_neg. Qed.
Print Assumptions C85_hms_negative.


(** C85. No label for NaN or infinities, and one for every number. *)
Theorem C85_labels_defined : label_dms None = PErr /\ label_hms None = PErr /\ (forall d, exists t, label_dms (Some d) = POk t) /\ forall d, exists t, label_hms (Some d) = POk t.
Proof. exact @labels_invalid. Qed.
Print Assumptions C85_labels_defined.


(** C85. The converter of degrees: sign, fields, and the angle within half of the last place. The seconds carry a minus sign exactly if they were within 0.005 of 60. *)
Theorem C85_deg2dms : forall deg delim doSign p, exists pre D M S n m k neg, deg2dms (Some deg) delim doSign p =
    Some (pre ++ D ++ delim ++ M ++ delim ++ (if neg : bool then s "-" else []) ++ S)%list /\
  (deg < 0 -> pre = s "-") /\ (0 <= deg -> pre = if doSign then s "+" else []) /\
  numeral 2 D n /\ numeral 2 M m /\ (m < 60)%nat /\ decimal (if neg then 1 else 2) (Z.to_nat p) S k /\
  Rabs (Rabs deg - (INR n + INR m / 60 + (if neg then -1 else 1) * (INR k / 10 ^ Z.to_nat p) / 3600)) <= / 2 / 10 ^ Z.to_nat p / 3600 /\
  (neg = true <-> exists n' m' u, Rabs deg = INR n' + INR m' / 60 + u / 3600 /\ (m' < 60)%nat /\ 59995 / 1000 <= u < 60).
Proof. exact @deg2dms_spec. Qed.
Print Assumptions C85_deg2dms.


(** C85. It gives None for NaN and infinities. *)
Theorem C85_deg2dms_invalid : forall delim b p, deg2dms None delim b p = None.
Proof. exact @deg2dms_invalid. Qed.
Print Assumptions C85_deg2dms_invalid.


(** C85. Plain degrees: three places. *)
Theorem C85_deg : forall deg, exists y k, label_deg deg = ((if Rlt_dec deg 0 then s "-" else []) ++ y)%list /\ decimal 0 3 y k /\ Rabs (INR k / 1000 - Rabs deg) <= 5 / 10000.
Proof. exact @deg_label. Qed.
Print Assumptions C85_deg.


(** C85. Powers of ten on logarithmic axes: the exponent is that of the number, cut towards zero. *)
Theorem C85_exp : forall g sw x, x <> 0 -> sw <= Rabs (log10 (Rabs x)) -> exists z, label_exp g sw (Some x) =
    POk (s "$" ++ (if Rlt_dec x 0 then s "-" else []) ++ s "10^{" ++ (if (z <? 0)%Z then s "-" else []) ++ str_of_nat (Z.to_nat (Z.abs z)) ++ s "}$")%list /\
  (1 <= Rabs x -> (0 <= z)%Z /\ IZR z <= log10 (Rabs x) < IZR z + 1) /\ (Rabs x < 1 -> (z <= 0)%Z /\ IZR z - 1 < log10 (Rabs x) <= IZR z).
Proof. exact @exp_label. Qed.
Print Assumptions C85_exp.
Example C85_exp_nonvacuous : 100000 <> 0 /\ 3 <= Rabs (log10 (Rabs 100000)).
Proof.
  split; [lra|]. assert (L : 0 < ln 10) by (rewrite <- ln_1; apply ln_increasing; lra). rewrite (Rabs_pos_eq 100000) by lra.
  assert (E : log10 100000 = 5). { unfold log10. replace 100000 with (10 ^ 5) by lra. rewrite ln_pow by lra. cbn [INR]. field. lra. }
  rewrite E, Rabs_pos_eq; lra.
Qed.


(** C85. Other numbers are written by the plain format. *)
Theorem C85_exp_plain : forall g sw x, Rabs (if Req_EM_T x 0 then 0 else log10 (Rabs x)) < sw -> label_exp g sw (Some x) = POk (s "$" ++ (if Rlt_dec x 0 then s "-" else []) ++ g (Rabs x) ++ s "$")%list.
Proof. exact @exp_label_plain. Qed.
Print Assumptions C85_exp_plain.


(** C85. Exactly when there is such a label. *)
Theorem C85_exp_defined : forall g sw num, (exists t, label_exp g sw num = POk t) <-> exists x, num = Some x /\ (x <> 0 \/ 0 < sw).
Proof. exact @exp_label_defined. Qed.
Print Assumptions C85_exp_defined.


(** C85. Refuted: a negative angle has a minus sign. Within a degree below zero it has none. *)
Theorem C85_sign_refuted : forall deg, -1 + 1 / 60 < deg < 0 -> exists M, label_dms (Some deg) = POk (s "000d" ++ M)%list.
Proof. exact @dms_sign_lost. Qed.
Print Assumptions C85_sign_refuted.
Example C85_sign_refuted_case : -1 + 1 / 60 < -1 / 2 < 0.
Proof. lra. Qed.


(** C85. Refuted: the seconds of an hour label stay below 60. *)
Theorem C85_sixty_refuted : forall deg n m t, 0 <= deg -> deg / 15 = INR n + INR m / 60 + t / 3600 -> (m < 60)%nat -> 595 / 10 <= t < 59995 / 1000 ->
  exists D M, label_hms (Some deg) = POk (D ++ s "h" ++ M ++ s "m60s")%list /\ numeral 2 D n /\ numeral 2 M m.
Proof. exact @hms_sixty. Qed.
Print Assumptions C85_sixty_refuted.
Example C85_sixty_refuted_case : 0 <= 15 * (2 + 3 / 60 + 597 / 10 / 3600) /\ 15 * (2 + 3 / 60 + 597 / 10 / 3600) / 15 = INR 2 + INR 3 / 60 + 597 / 10 / 3600 /\ 595 / 10 <= 597 / 10 < 59995 / 1000.
Proof. cbn [INR]. repeat split; lra. Qed.


(** C85. Refuted: the converter writes seconds without a sign. A carry is written -0.00. *)
Theorem C85_minus_zero_refuted : forall deg delim b n m u, Rabs deg = INR n + INR m / 60 + u / 3600 -> (m < 60)%nat -> 59995 / 1000 <= u < 60 ->
  exists x, deg2dms (Some deg) delim b 2 = Some (x ++ s "-0.00")%list.
Proof. exact @deg2dms_minus_zero. Qed.
Print Assumptions C85_minus_zero_refuted.
Example C85_minus_zero_refuted_case : Rabs (10 + 59 / 60 + 59998 / 1000 / 3600) = INR 10 + INR 59 / 60 + 59998 / 1000 / 3600 /\ 59995 / 1000 <= 59998 / 1000 < 60.
Proof. rewrite Rabs_pos_eq by lra. rewrite !INR_IZR_INZ. change (Z.of_nat 10) with 10%Z. change (Z.of_nat 59) with 59%Z. repeat split; lra. Qed.

