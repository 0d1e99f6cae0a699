(** Vocabulary for statements about the headers of the 3-D products. *)
From Coq Require Import Reals List Arith ZArith Bool Ascii String.
From Verif Require Import PyStr Fits_Model Header_Spec Cube_Spec.
Import ListNotations.
Local Open Scope nat_scope.

(** keyword of an axis: CTYPE3 *)
Definition key (w : string) (i : nat) : str := (s w ++ str_of_nat i)%list.

(** the first card with keyword [k] has the value [v]; no card has keyword [k] *)
Definition says (h : fheader) (k : str) (v : hval) : Prop := hd_error (cards k h) = Some (k, v).
Definition lacks (h : fheader) (k : str) : Prop := cards k h = [].

(** every card whose keyword is not [touched] is still there, in the same order,
    and there is no other *)
Definition same_but (touched : str -> Prop) (h h' : fheader) : Prop :=
  forall p : str -> bool, (forall k, touched k -> p k = false) -> filter (fun c => p (fst c)) h' = filter (fun c => p (fst c)) h.

(** the CTYPEs of axes 1 to n, as texts *)
Definition type_list (h : fheader) (n : nat) (l : list (option str)) : Prop :=
  List.length l = n /\
  forall i, 1 <= i <= n -> forall t, nth (i - 1) l None = Some t <-> says h (key "CTYPE" i) (HStr t).

Definition has_part (m x : str) : Prop := exists a b, x = (a ++ m ++ b)%list.

(** [a] is the last of the axes 1 to n, other than [f], whose CTYPE contains STOKES *)
Definition stokes_at (h : fheader) (n f a : nat) : Prop :=
  1 <= a <= n /\ a <> f /\ (exists t, says h (key "CTYPE" a) (HStr t) /\ has_part (s "STOKES") t) /\
  forall j t, a < j <= n -> j <> f -> says h (key "CTYPE" j) (HStr t) -> ~ has_part (s "STOKES") t.
Definition no_stokes (h : fheader) (n f : nat) : Prop :=
  forall j t, 1 <= j <= n -> j <> f -> says h (key "CTYPE" j) (HStr t) -> ~ has_part (s "STOKES") t.

(** axis [f] is a linear axis in Faraday depth with the samples [phi] *)
Definition depth_axis (h : fheader) (f : nat) (phi : list R) : Prop :=
  says h (key "CTYPE" f) (HStr (s "FDEP")) /\ says h (key "CUNIT" f) (HStr (s "rad/m^2")) /\
  says h (key "NAXIS" f) (HInt (Z.of_nat (List.length phi))) /\
  says h (key "CDELT" f) (HNum (nth 1 phi 0 - nth 0 phi 0)%R) /\
  exists c, says h (key "CRPIX" f) (HInt (Z.of_nat c)) /\ 1 <= c <= List.length phi /\ says h (key "CRVAL" f) (HNum (nth (c - 1) phi 0%R)).

(** the six cards of an axis *)
Definition axis_card (f : nat) (k : str) : Prop := exists w, In w ["CTYPE"; "CUNIT"; "NAXIS"; "CDELT"; "CRPIX"; "CRVAL"]%string /\ k = key w f.

(** the header of the real (2), imaginary (3) or total (0) part *)
Definition stokes_cards (x : fheader) (n f : nat) (tmpl : fheader) (num : Z) : Prop :=
  forall a, stokes_at tmpl n f a -> says x (key "CRPIX" a) (HNum 1) /\ says x (key "CRVAL" a) (HInt num).
Definition stokes_touched (tmpl : fheader) (n f : nat) (k : str) : Prop :=
  k = s "STOKES" \/ exists a, stokes_at tmpl n f a /\ (k = key "CRPIX" a \/ k = key "CRVAL" a).

(** the lines of history, oldest first *)
Definition history (h : fheader) : list hval := map snd (cards (s "HISTORY") h).

(* ---------------------------------------------------------- RM-synthesis *)

(** the cards RM-synthesis may change in its cubes *)
Definition synth_touched (tmpl : fheader) (n f : nat) (k : str) : Prop :=
  axis_card f k \/ stokes_touched tmpl n f k \/ In k (map s ["LAMSQ0"; "DATAMAX"; "DATAMIN"; "BUNIT"]%string).

(** common to the cubes of RM-synthesis *)
Definition cube_header (tmpl : fheader) (n f : nat) (phi : list R) (lam0 : option R) (x : fheader) : Prop :=
  says x (s "NAXIS") (HInt (Z.of_nat n)) /\ depth_axis x f phi /\
  says x (s "LAMSQ0") (HNum (match lam0 with Some l => l | None => 0%R end)) /\
  lacks x (s "DATAMAX") /\ lacks x (s "DATAMIN") /\ same_but (synth_touched tmpl n f) tmpl x.

(** real, imaginary and total part: Stokes Q, Stokes U, neither *)
Definition three_parts (tmpl : fheader) (n f : nat) (t : fheader * fheader * fheader) (P : fheader -> Prop) : Prop :=
  let '(q, u, p) := t in
  P q /\ P u /\ P p /\
  says q (s "STOKES") (HStr (s "Q")) /\ says u (s "STOKES") (HStr (s "U")) /\ lacks p (s "STOKES") /\
  stokes_cards q n f tmpl 2 /\ stokes_cards u n f tmpl 3 /\ stokes_cards p n f tmpl 0.

(** the unit of the map, per RMSF *)
Definition unit_rmsf (tmpl x : fheader) : Prop :=
  (forall u, says tmpl (s "BUNIT") (HStr u) -> says x (s "BUNIT") (HStr (u ++ s "/RMSF")%list)) /\
  (lacks tmpl (s "BUNIT") -> lacks x (s "BUNIT")).

(** the template RM-synthesis can work with *)
Definition usable (tmpl : fheader) (n f : nat) : Prop :=
  1 <= n /\ (forall i, 1 <= i <= n -> ~ lacks tmpl (key "NAXIS" i)) /\
  (lacks tmpl (s "BUNIT") \/ exists u, says tmpl (s "BUNIT") (HStr u)) /\
  (forall i, 1 <= i <= n -> i <> f -> exists t, says tmpl (key "CTYPE" i) (HStr t)).

(** cards that a map without axes 3 and 4 has lost or changed *)
Definition flat_touched (k : str) : Prop := axis_key k \/ In k (map s ["NAXIS"; "WCSAXES"; "STOKES"]%string).

(** the axis [f] is reduced to one plane *)
Definition degenerate (x : fheader) (f : nat) : Prop :=
  says x (key "NAXIS" f) (HInt 1) /\ says x (key "CTYPE" f) (HStr (s "DEGENERATE")) /\ says x (key "CUNIT" f) (HStr []).

(** the four cards from which a linear axis is computed, and the samples they stand for *)
Definition pixel_world (x : fheader) (f i : nat) (v : R) : Prop :=
  exists c r d, (says x (key "CRPIX" f) (HInt c)) /\ says x (key "CRVAL" f) (HNum r) /\ says x (key "CDELT" f) (HNum d) /\
    v = (r + (IZR (Z.of_nat i) - IZR c) * d)%R.

(** the cards RM-CLEAN may change in its cubes *)
Definition clean_touched (tmpl : fheader) (n : nat) (k : str) : Prop := k = s "HISTORY" \/ stokes_touched tmpl n 0 k.

(** what the maps of the Stokes I fit share *)
Definition fit_map (tmpl : fheader) (lines : list str) (x : fheader) : Prop :=
  says x (s "NAXIS") (HInt 2) /\ cards (s "WCSAXES") x = [(s "WCSAXES", HInt 2)] /\ lacks x (s "STOKES") /\ (forall k, axis_key k -> lacks x k) /\
  history x = (history tmpl ++ map HStr lines)%list /\
  same_but (fun k => flat_touched k \/ In k (map s ["BUNIT"; "BTYPE"; "HISTORY"; "DATAMAX"; "DATAMIN"]%string)) tmpl x.
