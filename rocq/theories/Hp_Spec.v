(** Vocabulary for the small helpers. *)
From Coq Require Import Reals List Arith ZArith Bool Ascii String.
From Verif Require Import PyRes PyStr Cat_Spec Hp_Model.
Import ListNotations.
Local Notation length := List.length.

(** what \s matches in ASCII *)
Definition white (c : ascii) : Prop := In (nat_of_ascii c) [9; 10; 11; 12; 13; 28; 29; 30; 31; 32].
(** a digit 0..9 *)
Definition a_digit (c : ascii) : Prop := exists d, (d < 10)%nat /\ c = digit d.

(* ----------------------------------------------------- configuration files *)

(** no white space, comma, bar, quote or comment sign *)
Definition plain (c : ascii) : Prop := ~ white c /\ ~ In c [","; "|"; "'"; "#"]%char.
Definition word (w : str) : Prop := w <> [] /\ Forall plain w.
Definition keyword (k : str) : Prop := word k /\ ~ In "="%char k.
(** between two words: blanks, or a comma and perhaps blanks *)
Definition gap (x : str) : Prop := (pad x /\ x <> []) \/ exists b, pad b /\ x = ","%char :: b.
(** a comma or one space *)
Definition short_gap (x : str) : str := match x with c :: _ => if Ascii.eqb c ","%char then s "," else s " " | [] => [] end.
Definition value_text (w : str) (l : list (str * str)) : str := (w ++ flat_map (fun gw => fst gw ++ snd gw) l)%list.
(** the line sets [k] to the words; [t] is the value with short gaps *)
Definition sets_line (k : str) (ws : list str) (t line : str) : Prop :=
  exists b1 b2 b3 b4 w l r, pad b1 /\ pad b2 /\ pad b3 /\ pad b4 /\ keyword k /\ word w /\
    Forall (fun gw => gap (fst gw) /\ word (snd gw)) l /\ remark r /\ ws = w :: map snd l /\
    t = value_text w (map (fun gw => (short_gap (fst gw), snd gw)) l) /\
    line = (b1 ++ k ++ b2 ++ s "=" ++ b3 ++ value_text w l ++ b4 ++ r)%list.
(** no equals sign, only one at the start or the end, or a comment *)
Definition silent_line (line : str) : Prop :=
  (exists t, line = "#"%char :: t) \/ ~ In "="%char line \/
  exists x, ~ In "="%char x /\ (line = ("="%char :: x) \/ line = (x ++ ["="%char])%list).
Definition config (text : str) (sets : list (str * (list str * str))) : Prop :=
  exists lines said, lines <> [] /\ Forall (fun l => ~ In "010"%char l) lines /\ text = join ["010"%char] lines /\
    Forall2 (fun l r => match r with Some (k, (ws, t)) => sets_line k ws t l | None => silent_line l end) lines said /\
    sets = flat_map (fun r => match r with Some e => [e] | None => [] end) said.
(** the last thing said about k *)
Definition last_said {A} (sets : list (str * A)) (k : str) (a : A) : Prop :=
  exists l1 l2, sets = (l1 ++ (k, a) :: l2)%list /\ ~ In k (map fst l2).
(** one word by itself, several as a list *)
Definition as_value (ws : list str) : cvalue := match ws with [w] => One w | _ => Many ws end.

(* -------------------------------------------------------------------- text *)

(** the words of a text *)
Definition white_b (c : ascii) : bool := existsb (Nat.eqb (nat_of_ascii c)) [9; 10; 11; 12; 13; 28; 29; 30; 31; 32].
Fixpoint chop (x : str) : list str :=
  match x with
  | [] => [[]]
  | c :: t => if white_b c then [] :: chop t
              else match chop t with w :: ws => (c :: w) :: ws | [] => [[c]] end
  end.
Definition words_of (x : str) : list str := filter (fun w => negb (str_eqb w [])) (chop x).
Definition no_pair (P : ascii -> Prop) (x : str) : Prop := forall u v a b, x = (u ++ a :: b :: v)%list -> ~ (P a /\ P b).

(** single spaces and line ends, and neither at the edges *)
Definition tidy (x : str) : Prop :=
  (forall c, In c x -> white c -> c = " "%char \/ c = "010"%char) /\
  no_pair (fun c => c = " "%char) x /\ no_pair (fun c => c = "010"%char) x /\
  (forall c t, x = c :: t -> ~ white c) /\ (forall t c, x = (t ++ [c])%list -> ~ white c).

(* ------------------------------------------------------------ natural order *)

(** by code point; a prefix comes first *)
Definition text_lt (x y : str) : Prop :=
  (exists c t, y = (x ++ c :: t)%list) \/
  exists p a b u v, x = (p ++ a :: u)%list /\ y = (p ++ b :: v)%list /\ (nat_of_ascii a < nat_of_ascii b)%nat.
(** the text before each number, the digits of the number, and the text after the last *)
Definition digitless (x : str) : Prop := Forall (fun c => ~ a_digit c) x.
Definition cut (x : str) (l : list (str * list nat)) (rest : str) : Prop :=
  x = (flat_map (fun td => fst td ++ map digit (snd td)) l ++ rest)%list /\
  Forall (fun td => digitless (fst td) /\ snd td <> [] /\ Forall (fun d => d < 10)%nat (snd td)) l /\ digitless rest /\
  Forall (fun td => fst td <> []) (tl l).
Fixpoint less (l : list (str * list nat)) (t : str) (m : list (str * list nat)) (u : str) : Prop :=
  match l, m with
  | [], [] => text_lt t u
  | [], (u', _) :: _ => text_lt t u' \/ t = u'
  | (t', _) :: _, [] => text_lt t' u
  | (t', d) :: l, (u', e) :: m =>
      text_lt t' u' \/ (t' = u' /\ ((wholeZ d < wholeZ e)%Z \/ (wholeZ d = wholeZ e /\ less l t m u)))
  end.
Definition smaller (x y : str) : Prop := exists l t m u, cut x l t /\ cut y m u /\ less l t m u.
Definition ends_digitless (p : str) : Prop := forall q c, p = (q ++ [c])%list -> ~ a_digit c.
Definition starts_digitless (q : str) : Prop := forall c t, q = c :: t -> ~ a_digit c.

(* ----------------------------------------------------------------- records *)

(** the cell is of the type the letter names *)
Definition fits (e : str * str * option (list nat)) (c : cell) : Prop :=
  snd e = None /\ exists o k rest, snd (fst e) = o :: k :: rest /\
  match c with
  | CInt _ => k = "i"%char \/ k = "u"%char
  | CFloat _ => k = "f"%char
  | CBytes _ => k = "S"%char
  | CText _ => k = "U"%char
  | CElse _ => ~ In k ["i"; "u"; "f"; "S"; "U"]%char
  end.
(** integers and floats as Python's own, with the same value; bytes as they
    print; other cells as they are *)
Definition became (c : cell) (v : pyval) : Prop :=
  match c with
  | CInt z => v = PyInt z
  | CFloat x => v = PyFloat x
  | CBytes b => v = PyStr ("b"%char :: "'"%char :: b ++ ["'"%char])
  | _ => v = PySame c
  end.
Definition by_offset (l : fields) : Prop :=
  forall u v a b, l = (u ++ a :: b :: v)%list -> (snd (snd a) <= snd (snd b))%nat.
