(** Vocabulary for statements about frequency files. *)
From Coq Require Import Reals List Arith ZArith Bool Ascii String.
From Verif Require Import PyStr Cat_Spec.
Import ListNotations.
Local Notation length := List.length.
Local Open Scope R_scope.

(** a binary number of p digits, a multiple of 2^emin, below 2^emax *)
Definition binary (p emin emax : Z) (x : R) : Prop :=
  (exists m e : Z, x = IZR m * powerRZ 2 e /\ (Z.abs m < 2 ^ p)%Z /\ (emin <= e)%Z) /\ Rabs x < powerRZ 2 emax.
Definition is_double := binary 53 (-1074) 1024.
Definition is_single := binary 24 (-149) 128.

(** y is one of the numbers of P closest to x *)
Definition closest (P : R -> Prop) (x y : R) : Prop := P y /\ forall z, P z -> Rabs (y - x) <= Rabs (z - x).

(** a line of a table: numbers with blanks before each (between two of them at
    least one), blanks and perhaps a comment at the end *)
Fixpoint spaced (row : list (str * numeral)) : str :=
  match row with [] => [] | (b, n) :: t => (b ++ show n ++ spaced t)%list end.
Definition columns (row : list numeral) (line : str) : Prop :=
  exists cells tail c, map snd cells = row /\ List.Forall (fun q => pad (fst q)) cells /\ List.Forall (fun q => fst q <> []) (tl cells) /\ pad tail /\ remark c /\
    line = (spaced cells ++ tail ++ c)%list.
(** the rows of a file, lines that say nothing left out *)
Inductive table : list str -> list (list numeral) -> Prop :=
| t_nil : table [] []
| t_skip line lines rows : columns [] line -> table lines rows -> table (line :: lines) rows
| t_row line row lines rows : row <> [] -> List.Forall num_ok row -> columns row line -> table lines rows -> table (line :: lines) (row :: rows).
(** the axes of a table of r rows and c columns once those of length one are gone *)
Definition kept (r c : nat) : list nat := ((if (r =? 1)%nat then [] else [r]) ++ (if (c =? 1)%nat then [] else [c]))%list.
