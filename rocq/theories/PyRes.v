(** Result of a Python call: a value, or an escaping exception. *)
Inductive pyres (A : Type) := POk (a : A) | PErr.
Arguments POk {A} a.
Arguments PErr {A}.

Definition pybind {A B} (x : pyres A) (f : A -> pyres B) : pyres B :=
  match x with POk a => f a | PErr => PErr end.
