(** Model of create_chunks.py and assemble_chunks.py (RMtools_3D).

    A FITS file is its axis lengths, the two keywords that remember the size of
    the whole image, all other keywords (opaque) and its data in C order. A
    directory is a list of named files. Errors come with the state of the
    directory at the time they are raised.

    Not modelled: memory mapping, data types and scaling keywords, further HDUs,
    progress bars, argument parsing. *)
From Coq Require Import Reals List Arith ZArith Bool Ascii String.
From Verif Require Import PyRes PyList PyStr NdArray.
Import ListNotations.

Section Chunks.
  Context {A H : Type}.
  (** a byte of zeros read as a pixel value *)
  Variable zero : A.

  Record fits := mk_fits { f_naxis : list nat; f_old : option (nat * nat); f_rest : H; f_data : list A }.
  Definition fs := list (str * fits).

  (** opening a file by name *)
  Fixpoint fs_get (n : str) (d : fs) : option fits :=
    match d with [] => None | (m, f) :: t => if str_eqb n m then Some f else fs_get n t end.
  (** writing a file: replaces one of the same name *)
  Fixpoint fs_put (n : str) (f : fits) (d : fs) : fs :=
    match d with
    | [] => [(n, f)]
    | (m, g) :: t => if str_eqb n m then (m, f) :: t else (m, g) :: fs_put n f t
    end.

  (** floor(log10(n)) + 1, create_chunks.py:85 *)
  Definition n_digits (n : nat) : nat := Z.to_nat (Rfloor (ln (INR n) / ln 10) + 1).

  (** "{}.C{:0<d>d}.fits".format(prefix, i), create_chunks.py:107,115 *)
  Definition chunk_name (prefix : str) (d i : nat) : str := prefix ++ s ".C" ++ format0 d i ++ s ".fits".

  (** ceil(Npix / N) *)
  Definition ceil_div (p n : nat) : nat := (p + n - 1) / n.

  (** np.array(range(N)) + i*N, create_chunks.py:92,103; the last one is cut at
      the number of pixels (111). *)
  Definition chunk_idx (N i : nat) : list nat := map (fun j => j + i * N) (seq 0 N).
  Definition last_idx (N i npix : nat) : list nat := filter (fun k => k <? npix) (chunk_idx N i).

  (** Position, in the C-ordered image, of pixel (x, y) = (idx // ny, idx % ny)
      of plane r. *)
  Definition pix_pos (nx ny r idx : nat) : nat := (r * ny + idx mod ny) * nx + idx / ny.

  (** np.transpose(np.expand_dims(data[xarr, yarr], 1)) with data transposed,
      create_chunks.py:104-106: shape (planes..., 1, len(idx)). *)
  Definition take_chunk (nx ny m : nat) (data : list A) (idx : list nat) : list A :=
    flat_map (fun r => map (fun k => nth (pix_pos nx ny r k) data zero) idx) (seq 0 m).

  (** pf.writeto: the axis lengths written are those of the data *)
  Definition chunk_file (f : fits) (nx ny : nat) (idx : list nat) : fits :=
    let rest := skipn 2 (f_naxis f) in
    mk_fits (List.length idx :: 1 :: rest) (Some (nx, ny)) (f_rest f)
      (take_chunk nx ny (prodn rest) (f_data f) idx).

  (** create_chunks.py:62-117. N is the number after int(). A negative or zero N
      fails in the division or in log10. One single chunk fails because the loop
      variable is never set (line 109). *)
  Definition create_chunks (infile prefix : str) (N : Z) (d : fs) : fs * pyres unit :=
    match fs_get infile d with
    | None => (d, PErr)
    | Some f =>
        match f_naxis f with
        | nx :: ny :: _ =>
            if (N <=? 0)%Z then (d, PErr)
            else
              let N := Z.to_nat N in
              let npix := nx * ny in
              let num := ceil_div npix N in
              if num =? 0 then (d, PErr)
              else
                let dg := n_digits num in
                let d1 := fold_left (fun acc i => fs_put (chunk_name prefix dg i) (chunk_file f nx ny (chunk_idx N i)) acc)
                            (seq 0 (num - 1)) d in
                if num =? 1 then (d1, PErr)
                else (fs_put (chunk_name prefix dg (num - 1)) (chunk_file f nx ny (last_idx N (num - 1) npix)) d1, POk tt)
        | _ => (d, PErr)
        end
    end.

  (** re.search("\.C\d+\.", x): what comes before and after the first match *)
  Fixpoint digits_dot (x : str) : option str :=
    match x with
    | [] => None
    | c :: t => if is_digit c then digits_dot t else if ch_eqb c "."%char then Some t else None
    end.
  Definition match_here (x : str) : option str :=
    match x with
    | a :: b :: c :: t => if ch_eqb a "."%char && ch_eqb b "C"%char && is_digit c then digits_dot (c :: t) else None
    | _ => None
    end.
  Fixpoint re_search (x : str) : option (str * str) :=
    match match_here x with
    | Some post => Some ([], post)
    | None => match x with
              | [] => None
              | c :: t => match re_search t with Some (pre, post) => Some (c :: pre, post) | None => None end
              end
    end.

  (** glob(pre + ".C*." + post): the star matches anything but a slash. For
      names without the glob characters star, question mark and bracket. *)
  Definition glob_match (pre post name : str) : bool :=
    let p := pre ++ s ".C" in
    let q := "."%char :: post in
    startswith p name && endswith q name &&
    (List.length p + List.length q <=? List.length name) &&
    forallb (fun c => negb (ch_eqb c "/"%char)) (firstn (List.length name - List.length p - List.length q) (skipn (List.length p) name)).

  (** assemble_chunks.py:54-62 *)
  Definition default_output (chunkname : str) : str :=
    join (s ".") (filter (fun x => negb (startswith (s "C") x && isnumeric (tl x))) (split "."%char chunkname)).

  (** large[0].data[..., yarr, xarr] = chunk[0].data[..., 0, :],
      assemble_chunks.py:132-137 and 150-155 *)
  Definition assign (nx ny m : nat) (idx : list nat) (chunk large : list A) : list A :=
    let K := List.length idx in
    fold_left (fun acc (pv : nat * A) => upd acc (fst pv) (fun _ => snd pv))
      (flat_map (fun r => map (fun jk => (pix_pos nx ny r (snd jk), nth (r * K + fst jk) chunk zero)) (combine (seq 0 K) idx)) (seq 0 m))
      large.

  (** One turn of the loop. A chunk whose shape differs from the target is an
      exception (numpy would broadcast an axis of length one). *)
  Definition put_chunk (nx ny : nat) (rest : list nat) (file : str) (idx : list nat) (d : fs) (large : list A) : pyres (list A) :=
    match fs_get file d with
    | None => PErr
    | Some c =>
        if list_eq_dec Nat.eq_dec (f_naxis c) (List.length idx :: 1 :: rest)
        then POk (assign nx ny (prodn rest) idx (f_data c) large)
        else PErr
    end.

  (** assemble_chunks.py:54-159. When a chunk cannot be placed the output file
      is shown as the blank one; the code may by then have written some of the
      earlier chunks to it. *)
  Definition assemble_chunks (chunkname : str) (output : option str) (overwrite : bool) (d : fs) : fs * pyres unit :=
    let out := match output with None => default_output chunkname | Some o => o end in
    match re_search chunkname with
    | None => (d, PErr)
    | Some (pre, post) =>
        let chunkfiles := sort (filter (glob_match pre post) (map fst d)) in
        match chunkfiles with
        | [] => (d, PErr)
        | c0 :: _ =>
            match fs_get c0 d with
            | None => (d, PErr)
            | Some h =>
                match f_old h, f_naxis h with
                | Some (nx, ny), N :: naxis' =>
                    if (N =? 0) || (4 <? S (List.length naxis')) || (S (List.length naxis') <? 2) then (d, PErr)
                    else
                      let rest := skipn 1 naxis' in
                      let npix := nx * ny in
                      let num := ceil_div npix N in
                      let blank := mk_fits (nx :: ny :: rest) None (f_rest h) (repeat zero (prodn rest * (ny * nx))) in
                      if (match fs_get out d with Some _ => true | None => false end) && negb overwrite then (d, PErr)
                      else
                        let d1 := fs_put out blank d in
                        if negb (List.length chunkfiles =? num) then (d1, PErr)
                        else if num <=? 1 then (d1, PErr)
                        else
                          let body := fold_left (fun acc i => pybind acc (fun large =>
                                        put_chunk nx ny rest (nth i chunkfiles []) (chunk_idx N i) d1 large))
                                      (seq 0 (num - 1)) (POk (f_data blank)) in
                          match pybind body (fun large => put_chunk nx ny rest (nth (num - 1) chunkfiles []) (last_idx N (num - 1) npix) d1 large) with
                          | PErr => (d1, PErr)
                          | POk large => (fs_put out (mk_fits (nx :: ny :: rest) None (f_rest h) large) d1, POk tt)
                          end
                | _, _ => (d, PErr)
                end
            end
        end
    end.
End Chunks.
