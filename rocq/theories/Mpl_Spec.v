(** Vocabulary for the statements about fits with limits. *)
From Coq Require Import Reals List Arith ZArith Bool.
From Verif Require Import Mp_Model Mpl_Model.
Import ListNotations.
Local Open Scope R_scope.

(** the starting value of parameter i *)
Definition start_value (xall : option (list value)) (ps : list entry) (i : nat) : option R :=
  match xall with
  | Some x => option_map val_R (nth_error x i)
  | None => match nth_error ps i with Some e => option_map val_R (e_value e) | None => None end
  end.

(** which sides of a parameter are limited, and where *)
Definition flags (e : entry) : Z * Z := match e_limited e with Some q => q | None => (0, 0)%Z end.
Definition sides (e : entry) : R * R := match e_limits e with Some p => p | None => (0, 0) end.

Definition flag01 (q : Z) : Prop := q = 0%Z \/ q = 1%Z.
Definition plain_flags (e : entry) : Prop := flag01 (fst (flags e)) /\ flag01 (snd (flags e)).

(** v is between the limits of the parameter *)
Definition obeys (e : entry) (v : R) : Prop :=
  (fst (flags e) = 1%Z -> fst (sides e) <= v) /\ (snd (flags e) = 1%Z -> v <= snd (sides e)).

Definition is_fixed (e : entry) : Prop := e_fixed e = Some 1%Z.

(** both sides limited, and no room between them *)
Definition no_room (e : entry) : Prop :=
  fst (flags e) = 1%Z /\ snd (flags e) = 1%Z /\ snd (sides e) <= fst (sides e).

Definition keywords_ok (k : keywords) : Prop :=
  0 < k_ftol k /\ 0 < k_xtol k /\ 0 < k_gtol k /\ (0 <= k_maxiter k)%Z /\ 0 < k_factor k.

(** an entry with the keys "value" and "fixed" only, as RM-Tools passes them *)
Definition bare (e : entry) : Prop :=
  e_limited e = None /\ e_limits e = None /\ e_step e = None /\ e_relstep e = None /\ e_side e = None /\
  e_maxstep e = None.

(** [free] lists the parameters not fixed, in order *)
Definition frees (ps : list entry) (free : list nat) : Prop :=
  free = filter (fun i => match nth_error ps i with
                          | Some e => negb (match e_fixed e with Some z => Z.eqb z 1 | None => false end)
                          | None => false end) (seq 0 (length ps)).

(** reasons to refuse a fit *)
Definition all_fixed (ps : list entry) : Prop := forall e, In e ps -> is_fixed e.
Definition some_outside (ps : list entry) (vals : list R) : Prop :=
  exists i e, nth_error ps i = Some e /\ ~ obeys e (nth i vals 0).
Definition some_no_room (ps : list entry) : Prop := exists e, In e ps /\ no_room e /\ ~ is_fixed e.

(** the size of the step for the derivative by parameter k at the value x *)
Definition step_size (b : bounds) (k : nat) (x h : R) : Prop :=
  (0 < b_rel b k -> x <> 0 -> h = b_rel b k * Rabs x) /\
  (0 < b_rel b k -> x = 0 -> h = sqrt machep) /\
  (b_rel b k <= 0 -> 0 < b_step b k -> h = b_step b k) /\
  (b_rel b k <= 0 -> b_step b k <= 0 -> x <> 0 -> h = sqrt machep * Rabs x) /\
  (b_rel b k <= 0 -> b_step b k <= 0 -> x = 0 -> h = sqrt machep).
