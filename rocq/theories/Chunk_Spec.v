(** Vocabulary for the chunk theorems; independent of the model's functions
    (only the file record and the directory type are shared). *)
From Coq Require Import List Arith ZArith Bool Ascii String.
From Verif Require Import PyRes PyStr NdArray Chunk_Model.
Import ListNotations.

(** w is a non-empty string of decimal digits *)
Definition numeral (w : str) : Prop := w <> [] /\ forall c, In c w -> 48 <= nat_of_ascii c <= 57.

(** No dot-separated piece of the name is C followed by digits. *)
Definition marker_free (x : str) : Prop :=
  forall a w b, s "." ++ x ++ s "." = a ++ s ".C" ++ w ++ s "." ++ b -> ~ numeral w.

(** pre.C<anything without a slash>.fits *)
Definition looks_like_chunk (prefix name : str) : Prop :=
  exists mid, ~ In "/"%char mid /\ name = prefix ++ s ".C" ++ mid ++ s ".fits".

(** The data fill the axes. *)
Definition well_formed {A H} (f : @fits A H) : Prop := List.length (f_data f) = prodn (f_naxis f).

(** files of directory [d] with another name are the same in [d'] *)
Definition others_same {A H} (names : list str) (d d' : @fs A H) : Prop :=
  forall n, ~ In n names -> fs_get n d' = fs_get n d.
