(** Vocabulary for statements about headers and file names. *)
From Coq Require Import List Arith Bool Ascii String.
From Verif Require Import PyStr.
Import ListNotations.

(** keyword of axis 3 or 4: NAXIS3, CRPIX4, ..., and the PC terms *)
Definition axis_key (k : str) : Prop :=
  (exists w a, In w ["NAXIS"; "CRPIX"; "CDELT"; "CUNIT"; "CTYPE"; "CRVAL"]%string /\ (a = 3 \/ a = 4) /\ k = s w ++ str_of_nat a) \/
  (exists i j, 1 <= i <= 4 /\ 1 <= j <= 4 /\ (3 <= i \/ 3 <= j) /\ k = s "PC" ++ str_of_nat i ++ s "_" ++ str_of_nat j).

(** the coordinate keywords of the first two axes that WCSAXES has to precede *)
Definition celestial_key (k : str) : Prop :=
  (exists w a, In w ["CRPIX"; "CRVAL"; "CTYPE"; "CUNIT"]%string /\ (a = 1 \/ a = 2) /\ k = s w ++ str_of_nat a) \/
  (exists w a, In w ["PC"; "CD"]%string /\ (a = 1 \/ a = 2) /\ k = s w ++ str_of_nat a ++ s "_" ++ str_of_nat a).

(** the cards whose keyword is k *)
Definition cards {V} (k : str) (h : list (str * V)) : list (str * V) := filter (fun c => str_eqb k (fst c)) h.

(** no occurrence of a marker in a string *)
Definition free_of (m x : str) : Prop := ~ exists a b, x = a ++ m ++ b.

(** free of the three component markers *)
Definition free3 (x : str) : Prop := free_of (s "_tot") x /\ free_of (s "_real") x /\ free_of (s "_im") x.
