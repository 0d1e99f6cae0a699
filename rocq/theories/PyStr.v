(** Python strings as lists of characters, and the few operations on file names
    the tools use. *)
From Coq Require Import List Arith ZArith Bool Ascii String.
Import ListNotations.

Definition str := list ascii.
(** literals: [s "abc"] *)
Definition s (x : string) : str := list_ascii_of_string x.

Definition ch_eqb : ascii -> ascii -> bool := Ascii.eqb.
Fixpoint str_eqb (a b : str) : bool :=
  match a, b with
  | [], [] => true
  | x :: a, y :: b => ch_eqb x y && str_eqb a b
  | _, _ => false
  end.

(** a < b, by code point *)
Fixpoint str_ltb (a b : str) : bool :=
  match a, b with
  | _, [] => false
  | [], _ :: _ => true
  | x :: a, y :: b => (nat_of_ascii x <? nat_of_ascii y)%nat || (ch_eqb x y && str_ltb a b)
  end.

(** list.sort() on strings *)
Fixpoint insert (x : str) (l : list str) : list str :=
  match l with
  | [] => [x]
  | y :: t => if str_ltb y x then y :: insert x t else x :: l
  end.
Definition sort (l : list str) : list str := fold_right insert [] l.

Fixpoint startswith (p x : str) : bool :=
  match p, x with
  | [], _ => true
  | a :: p, b :: x => ch_eqb a b && startswith p x
  | _ :: _, [] => false
  end.
Definition endswith (p x : str) : bool := startswith (rev p) (rev x).

Definition is_digit (c : ascii) : bool := (48 <=? nat_of_ascii c)%nat && (nat_of_ascii c <=? 57)%nat.
(** str.isnumeric for ASCII text: non-empty and all digits *)
Definition isnumeric (x : str) : bool := match x with [] => false | _ => forallb is_digit x end.

(** x.split(c) for a one-character separator *)
Fixpoint split (c : ascii) (x : str) : list str :=
  match x with
  | [] => [[]]
  | a :: t => if ch_eqb a c then [] :: split c t
              else match split c t with w :: ws => (a :: w) :: ws | [] => [[a]] end
  end.
(** sep.join(l) *)
Fixpoint join (sep : str) (l : list str) : str :=
  match l with
  | [] => []
  | [x] => x
  | x :: t => x ++ sep ++ join sep t
  end.

(** decimal digits of n *)
Definition digit (n : nat) : ascii := ascii_of_nat (48 + n).
Fixpoint dec (fuel n : nat) : str :=
  match fuel with
  | O => []
  | S fuel => if n <? 10 then [digit n] else dec fuel (n / 10) ++ [digit (n mod 10)]
  end.
Definition str_of_nat (n : nat) : str := dec (S n) n.
(** "{:0<d>d}".format(n) *)
Definition format0 (d n : nat) : str :=
  let x := str_of_nat n in repeat "0"%char (d - List.length x) ++ x.

(** x.replace(old, new): leftmost non-overlapping occurrences; [old] not empty *)
Fixpoint replace_fuel (fuel : nat) (old new x : str) : str :=
  match fuel with
  | O => x
  | S fuel =>
      match x with
      | [] => []
      | a :: t => if startswith old x then new ++ replace_fuel fuel old new (skipn (List.length old) x)
                  else a :: replace_fuel fuel old new t
      end
  end.
Definition replace (old new x : str) : str := replace_fuel (S (List.length x)) old new x.

(** substring test: old in x *)
Fixpoint contains (old x : str) : bool :=
  startswith old x || match x with [] => false | _ :: t => contains old t end.
