(** Vocabulary for statements about FITS headers, beams and cut-outs. *)
From Coq Require Import Reals List Arith ZArith Bool Ascii String.
From Verif Require Import PyStr.
Import ListNotations.
Local Open Scope nat_scope.

(** keyword of axis i *)
Definition axis_kw (k : str) (i : nat) : Prop :=
  exists w, In w ["NAXIS"; "CRVAL"; "CRPIX"; "CDELT"; "CTYPE"; "CROTA"; "CD1_"; "CD2_"; "CUNIT"]%string /\ k = (s w ++ str_of_nat i)%list.
(** term i, j of the rotation in the notation of AIPS: PC001002 *)
Definition pc_term (k : str) (i j : nat) : Prop :=
  k = (s "PC" ++ format0 3 i ++ format0 3 j)%list.
(** the same in the notation of the standard: CD1_2, PC1_2 *)
Definition std_term (k : str) (i j : nat) : Prop :=
  exists w, In w ["CD"; "PC"]%string /\ k = (s w ++ str_of_nat i ++ s "_" ++ str_of_nat j)%list.

(** a keyword left alone when m axes are kept *)
Definition untouched (m : nat) (k : str) : Prop :=
  k <> s "NAXIS" /\ k <> s "WCSAXES" /\ (forall i, m < i -> ~ axis_kw k i) /\ (forall i j, m < i \/ m < j -> ~ pc_term k i j).

(** blanks, and words *)
Definition blank (c : ascii) : Prop := let n := nat_of_ascii c in n = 32 \/ 9 <= n <= 13 \/ 28 <= n <= 31.
Definition blanks (x : str) : Prop := x <> [] /\ Forall blank x.
Definition a_word (x : str) : Prop := x <> [] /\ Forall (fun c => ~ blank c) x.
(** a line of history with the beam of CLEAN *)
Definition beam_text (line b m p : str) : Prop :=
  a_word b /\ a_word m /\ a_word p /\
  exists s1 c s2 s3 s4 s5 s6 rest,
    blanks s1 /\ blank c /\ blanks s2 /\ blanks s3 /\ blanks s4 /\ blanks s5 /\ blanks s6 /\ (rest = [] \/ exists d t, rest = d :: t /\ blank d) /\
    line = (s "AIPS" ++ s1 ++ s "CLEAN" ++ [c] ++ s "BMAJ=" ++ s2 ++ b ++ s3 ++ s "BMIN=" ++ s4 ++ m ++ s5 ++ s "BPA=" ++ s6 ++ p ++ rest)%list.

(** the integer nearest to x *)
Definition nearest (x : R) (n : Z) : Prop := (Rabs (IZR n - x) <= 1 / 2)%R.
(** the least number of steps of length d that cover r *)
Definition covers (r d : R) (n : Z) : Prop := (IZR (n - 1) * d < r <= IZR n * d)%R.
