(** Vocabulary for statements about written numbers. *)
From Coq Require Import Reals List Arith ZArith Bool Ascii String.
From Verif Require Import PyStr.
Import ListNotations.
Local Open Scope nat_scope.

(** what a row of digits stands for *)
Definition value (x : str) : nat := fold_left (fun a c => 10 * a + (nat_of_ascii c - 48)) x 0.
Definition digits (x : str) : Prop := List.Forall (fun c => 48 <= nat_of_ascii c <= 57) x.

(** [x] is the number [n] in decimal, with zeros in front only to make [w] digits *)
Definition numeral (w : nat) (x : str) (n : nat) : Prop :=
  digits x /\ value x = n /\ w <= List.length x /\ x <> [] /\ (Nat.max 1 w < List.length x -> hd_error x <> Some "0"%char).

(** [x] is n / 10^p with p places, [w] digits or more before the point *)
Definition decimal (w p : nat) (x : str) (n : nat) : Prop :=
  exists a b, x = (a ++ (if p =? 0 then [] else "."%char :: b))%list /\ numeral w a (value a) /\ digits b /\ List.length b = p /\ n = value a * 10 ^ p + value b.
