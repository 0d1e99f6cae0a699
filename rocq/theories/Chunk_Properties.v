(** Splitting a cube into chunks and back: the theorems that count. *)
From Coq Require Import List Arith ZArith Bool Ascii String Lia.
From Verif Require Import PyRes PyStr NdArray Chunk_Model Chunk_Spec Chunk_Proofs Chunk_Laws.
Import ListNotations.

(** C21. create_chunks then assemble_chunks gives back axes, other keywords and data, whichever chunk is named, and touches no other file. The directory may already hold chunks of the same names. *)
Theorem C21_chunk_round_trip : forall (A H : Type) (zero : A), forall infile prefix N (d : @fs A H) (f : @fits A H) nx ny rest,
    fs_get infile d = Some f -> f_naxis f = nx :: ny :: rest -> List.length rest <= 2 -> well_formed f ->
    1 <= N < nx * ny -> NoDup (map fst d) -> marker_free prefix ->
    let num := ceil_div (nx * ny) N in
    let name := chunk_name prefix (n_digits num) in
    (forall n, In n (map fst d) -> looks_like_chunk prefix n -> exists i, i < num /\ n = name i) ->
    exists d1, create_chunks zero infile prefix (Z.of_nat N) d = (d1, POk tt) /\
      others_same (map name (seq 0 num)) d d1 /\
      forall i out overwrite, i < num -> (forall j, j < num -> out <> name j) ->
        (fs_get out d1 = None \/ overwrite = true) ->
        exists d2, assemble_chunks zero (name i) (Some out) overwrite d1 = (d2, POk tt) /\
          fs_get out d2 = Some (mk_fits (f_naxis f) None (f_rest f) (f_data f)) /\
          others_same [out] d1 d2.
Proof. exact @chunk_round_trip. Qed.
Print Assumptions C21_chunk_round_trip.
Lemma x_marker_free : marker_free (s "x").
Proof. apply marker_free_noC. intros [K|[]]. discriminate. Qed.

Example C21_nonvacuous : forall f : @fits nat unit, f_naxis f = [3; 2; 2] -> f_data f = seq 0 12 ->
  fs_get (s "x.fits") [(s "x.fits", f)] = Some f /\ well_formed f /\ 1 <= 4 < 3 * 2 /\
  NoDup (map fst [(s "x.fits", f)]) /\ marker_free (s "x") /\
  (forall n, In n (map fst [(s "x.fits", f)]) -> looks_like_chunk (s "x") n -> exists i, i < ceil_div (3 * 2) 4 /\ n = chunk_name (s "x") 1 i).
Proof.
  intros f E1 E2. split; [reflexivity|]. split; [unfold well_formed; rewrite E1, E2; reflexivity|]. split; [lia|].
  split; [repeat constructor; intros []|]. split; [exact x_marker_free|].
  intros n [<-|[]] (mid & _ & E). exfalso. cbn in E. discriminate.
Qed.


(** C21. The default output name is the name of the chunks without the marker. *)
Theorem C21_default_output_name : forall prefix w, marker_free prefix -> numeral w ->
  default_output (prefix ++ s ".C" ++ w ++ s ".fits") = prefix ++ s ".fits".
Proof. exact @default_output_name. Qed.
Print Assumptions C21_default_output_name.
Example C21_default_nonvacuous : marker_free (s "x") /\ numeral (s "07").
Proof. split; [exact x_marker_free|]. split; [discriminate|]. intros c [<-|[<-|[]]]; cbn; lia. Qed.


(** C21. Finding: an image that fits in one chunk makes create_chunks fail. *)
Theorem C21_single_chunk_refuted : forall (A H : Type) (zero : A), forall infile prefix N (d : @fs A H) (f : @fits A H) nx ny rest,
    fs_get infile d = Some f -> f_naxis f = nx :: ny :: rest -> 1 <= nx * ny <= N ->
    create_chunks zero infile prefix (Z.of_nat N) d = (d, PErr).
Proof. exact @single_chunk_error. Qed.
Print Assumptions C21_single_chunk_refuted.
Example C21_single_nonvacuous : 1 <= 3 * 2 <= 6.
Proof. lia. Qed.


(** C21. Finding: a prefix that contains a chunk marker. *)
Theorem C21_marker_prefix_refuted : exists d1,
  create_chunks 0 (s "x.fits") (s "x.C5") 1 [(s "x.fits", img)] = (d1, POk tt) /\
  fs_get (s "x.C5.C0.fits") d1 <> None /\
  snd (assemble_chunks 0 (s "x.C5.C0.fits") (Some (s "y.fits")) false d1) = PErr.
Proof. exact @marker_prefix_refuted. Qed.
Print Assumptions C21_marker_prefix_refuted.


(** C21. Finding: products derived from a chunk are taken for chunks; the output is overwritten with a blank image. *)
Theorem C21_sibling_product_refuted : exists d1,
  create_chunks 0 (s "x.fits") (s "x") 1 [(s "x.fits", img)] = (d1, POk tt) /\
  let d2 := fs_put (s "x.C0.FDF_tot_dirty.fits") (mk_fits [1; 1] (Some (2, 1)) tt [9]) d1 in
  let r := assemble_chunks 0 (s "x.C0.fits") None true d2 in
  snd r = PErr /\ fs_get (s "x.fits") (fst r) = Some (mk_fits [2; 1] None tt [0; 0]).
Proof. exact @sibling_product_refuted. Qed.
Print Assumptions C21_sibling_product_refuted.


(** C22. Any chunk missing: always an exception; an existing output is kept unless overwriting was allowed. Finding: otherwise a blank image is left behind. *)
Theorem C22_missing_chunk_refuted : forall (A H : Type) (zero : A), forall infile prefix N (d : @fs A H) (f : @fits A H) nx ny rest,
    fs_get infile d = Some f -> f_naxis f = nx :: ny :: rest -> List.length rest <= 2 ->
    1 <= N < nx * ny -> marker_free prefix ->
    let num := ceil_div (nx * ny) N in
    let name := chunk_name prefix (n_digits num) in
    exists d1, create_chunks zero infile prefix (Z.of_nat N) d = (d1, POk tt) /\
      forall d', NoDup (map fst d') ->
        (forall n, In n (map fst d') -> looks_like_chunk prefix n -> exists i, i < num /\ n = name i) ->
        (forall i, i < num -> fs_get (name i) d' = None \/ fs_get (name i) d' = fs_get (name i) d1) ->
        (exists i, i < num /\ fs_get (name i) d' = None) ->
        forall i out overwrite, i < num ->
          let r := assemble_chunks zero (name i) (Some out) overwrite d' in
          snd r = PErr /\
          ((exists g, fs_get out d' = Some g) /\ overwrite = false -> fst r = d') /\
          ((exists j, j < num /\ fs_get (name j) d' <> None) -> fs_get out d' = None \/ overwrite = true ->
            exists b, fs_get out (fst r) = Some b /\ f_naxis b = f_naxis f /\ forall v, In v (f_data b) -> v = zero).
Proof. exact @missing_chunk. Qed.
Print Assumptions C22_missing_chunk_refuted.
Example C22_nonvacuous : forall d1 f0 f1, d1 = [(s "x.C0.fits", f0 : @fits nat unit); (s "x.C1.fits", f1)] ->
  let d' := [(s "x.C1.fits", f1)] in
  NoDup (map fst d') /\ fs_get (s "x.C0.fits") d' = None /\ fs_get (s "x.C1.fits") d' = fs_get (s "x.C1.fits") d1.
Proof. intros d1 f0 f1 -> d'. split; [repeat constructor; intros []|]. split; reflexivity. Qed.

