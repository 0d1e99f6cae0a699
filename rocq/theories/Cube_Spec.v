(** Vocabulary for statements about cubes: axes by FITS number, voxels by their
    coordinate on each axis. Nothing here comes from the model of the tools. *)
From Coq Require Import Reals List Arith ZArith Bool Ascii String.
Set Warnings "-ambiguous-paths".
From Coquelicot Require Import Coquelicot.
From Verif Require Import PyStr NdArray NdIndex Cube_Model Synth_Spec.
Import ListNotations.
Local Open Scope nat_scope.

(** letter [c] is [u] or its lower case *)
Definition same_letter (c u : ascii) : Prop :=
  c = u \/ (65 <= nat_of_ascii u <= 90 /\ nat_of_ascii c = nat_of_ascii u + 32).

(** a CTYPE that contains [pat] in any capitalisation *)
Definition mentions (pat : str) (c : option str) : Prop :=
  exists a m b, c = Some (a ++ m ++ b) /\ Forall2 same_letter m pat.

(** The spectral axis: the last one that mentions [pat], or else the last axis. *)
Definition spectral_axis (pat : str) (ctype : list (option str)) (k : nat) : Prop :=
  1 <= k <= List.length ctype /\
  (forall j, k < j <= List.length ctype -> ~ mentions pat (nth (j - 1) ctype None)) /\
  (mentions pat (nth (k - 1) ctype None) \/
   k = List.length ctype /\ forall j, 1 <= j <= List.length ctype -> ~ mentions pat (nth (j - 1) ctype None)).

(** all axes but k, in FITS order *)
Definition others (k N : nat) : list nat := filter (fun a => negb (a =? k)) (seq 1 N).

(** length of FITS axis a *)
Definition len (naxis : list nat) (a : nat) : nat := nth (a - 1) naxis 0.

(** A voxel is a coordinate (from zero) for each FITS axis. *)
Definition in_image (naxis : list nat) (p : nat -> nat) : Prop :=
  forall a, 1 <= a <= List.length naxis -> p a < len naxis a.

(** the value of a voxel of a FITS image *)
Definition vox {A} (d : A) (f : image A) (p : nat -> nat) : A :=
  at_nd d (i_data f) (map p (rev (seq 1 (List.length (i_naxis f))))).

Definition wf_image {A} (f : image A) : Prop :=
  shape (i_data f) = rev (i_naxis f) /\ wf_nd (i_data f) /\ List.length (i_ctype f) = List.length (i_naxis f).

(** the same sky position, another channel *)
Definition at_chan (p : nat -> nat) (k j : nat) : nat -> nat := fun a => if a =? k then j else p a.

(** the axes that are longer than one *)
Definition long_axes (naxis : list nat) (axes : list nat) : list nat := filter (fun a => negb (len naxis a =? 1)) axes.

(** naxis with the length of axis k replaced *)
Definition with_len (naxis : list nat) (k n : nat) : list nat :=
  map (fun a => if a =? k then n else len naxis a) (seq 1 (List.length naxis)).

(** The good channels of a sky position, read directly from two images. *)
Definition image_chans (Q U : image (option R)) (k : nat) (l2 w : list R) (p : nat -> nat) : list chan :=
  flat_map (fun j =>
    match vox None Q (at_chan p k j), vox None U (at_chan p k j) with
    | Some q, Some u => [mk_chan (nth j l2 0%R) (nth j w 0%R) (q, u)]
    | _, _ => []
    end) (seq 0 (List.length l2)).

(** Axes of length one come first in numpy order, apart from axis k. *)
Definition degenerate_first (naxis : list nat) (k : nat) : Prop :=
  exists m l, map (len naxis) (rev (others k (List.length naxis))) = repeat 1 m ++ l /\ forall n, In n l -> n <> 1.
