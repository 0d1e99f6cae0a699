(** Frequencies in text files: claim C87. *)
From Coq Require Import Reals List Arith ZArith Lia Lra Bool Permutation.
Set Warnings "-ambiguous-paths".
From Coquelicot Require Import Coquelicot.
From Verif Require Import PyRes PyStr NdArray Cat_Spec Fq_Model Fq_Spec Fq_Proofs Fq_Files Fq_Main.
From Coq Require Import String Ascii.
Local Notation length := List.length.
Import ListNotations.
Local Open Scope R_scope.

(** C87. The text of a number: a decimal numeral of one digit and as many places as asked, within half of the last. *)
Theorem C87_text : forall p x, (1 <= p)%nat -> exists n d f g, fmt_e p x = show n /\ num_ok n /\ n_int n = [d] /\ n_frac n = Some f /\ length f = p /\ n_exp n = Some g /\
  (n_sign n = Some true <-> x < 0) /\ (x <> 0 -> d <> 0%nat) /\ Rabs (num_value n - x) <= Rabs x / 2 / 10 ^ p.
Proof. exact @fmt_e_spec. Qed.
Print Assumptions C87_text.


(** C87. The file has a line for each channel, in order, with 19 digits. *)
Theorem C87_lines : forall world n, length (save_freq_file world n) = n /\ forall i, (i < n)%nat -> exists m, nth_error (save_freq_file world n) i = Some (show m) /\ num_ok m /\
  length (n_int m) = 1%nat /\ length (frac_digits m) = 18%nat /\ Rabs (num_value m - world i) <= Rabs (world i) / 2 / 10 ^ 18.
Proof. exact @lines_saved. Qed.
Print Assumptions C87_lines.


(** C87. A table is read row by row, each number as the closest double; axes of length one are dropped. *)
Theorem C87_table : forall lines rows c, table lines rows -> rows <> [] -> List.Forall (fun r => length r = c) rows ->
  List.Forall (fun n => Rabs (num_value n) < powerRZ 2 1023) (List.concat rows) ->
  exists a, readFreqFile lines = POk a /\ shape a = kept (length rows) c /\ List.Forall2 (fun n y => exists z, y = Some z /\ closest is_double (num_value n) z) (List.concat rows) (flat a).
Proof. exact @table_read. Qed.
Print Assumptions C87_table.
Example C87_table_case : table [s "# MHz"; s " 1.5"; s "2 # end"] [[mk_num None [1%nat] (Some [5%nat]) None]; [mk_num None [2%nat] None None]].
Proof.
  apply t_skip; [exists [], [], (s "# MHz"); split; [|split; [|split; [|split; [|split]]]]; try reflexivity; try (apply Forall_nil); right; eexists; reflexivity|].
  apply t_row; [discriminate|repeat constructor; discriminate| |].
  - exists [(s " ", mk_num None [1%nat] (Some [5%nat]) None)], [], []. split; [|split; [|split; [|split; [|split]]]]; try reflexivity; try (apply Forall_nil); [|left; reflexivity].
    repeat constructor.
  - apply t_row; [discriminate|repeat constructor; discriminate| |constructor].
    exists [([], mk_num None [2%nat] None None)], (s " "), (s "# end"). split; [|split; [|split; [|split; [|split]]]]; try reflexivity; try (apply Forall_nil); [| |right; eexists; reflexivity]; repeat constructor.
Qed.


(** C87. Rows of different lengths raise. *)
Theorem C87_ragged : forall lines rows r q, table lines rows -> In r rows -> In q rows -> length r <> length q -> readFreqFile lines = PErr.
Proof. exact @ragged_fails. Qed.
Print Assumptions C87_ragged.


(** C87. Frequencies written to a file are read back exactly. *)
Theorem C87_round_trip : forall xs, List.Forall is_double xs -> length xs <> 1%nat -> readFreqFile (savetxt xs) = POk (mk_nd [length xs] (map Some xs)).
Proof. exact @round_trip. Qed.
Print Assumptions C87_round_trip.
Example C87_doubles : List.Forall is_double [1400000001; 1400000002].
Proof. repeat constructor; apply int_double; reflexivity. Qed.


(** C87. Refuted: this holds for one channel. The result has no axis. *)
Theorem C87_round_trip_one_refuted : forall x, is_double x -> readFreqFile (savetxt [x]) = POk (mk_nd [] [Some x]).
Proof. exact @round_trip_one. Qed.
Print Assumptions C87_round_trip_one_refuted.


(** C87. When the fitting tool accepts a table. *)
Theorem C87_accepts : forall lines rows c nchan rest b, In (Z.abs b) [16; 32; 64]%Z -> table lines rows -> rows <> [] -> List.Forall (fun r => length r = c) rows ->
  (exists a, get_frequencies (nchan :: rest) b lines = POk a) <-> (length rows = nchan /\ nchan <> 1%nat) \/ (length rows = 1%nat /\ c = nchan /\ nchan <> 1%nat).
Proof. exact @freqs_accepts. Qed.
Print Assumptions C87_accepts.


(** C87. A cube of doubles gets the frequencies of the file. *)
Theorem C87_double : forall nchan rest xs, List.Forall is_double xs -> length xs = nchan -> nchan <> 1%nat ->
  get_frequencies (nchan :: rest) (-64) (savetxt xs) = POk (mk_nd [nchan] (map Some xs)).
Proof. exact @freqs_double. Qed.
Print Assumptions C87_double.


(** C87. A cube of singles gets the closest singles, within one part in 2^24. *)
Theorem C87_single : forall nchan rest xs, List.Forall is_double xs -> length xs = nchan -> nchan <> 1%nat -> List.Forall (fun x => powerRZ 2 (-126) <= Rabs x < powerRZ 2 128 - powerRZ 2 103) xs ->
  exists ys, get_frequencies (nchan :: rest) (-32) (savetxt xs) = POk (mk_nd [nchan] (map Some ys)) /\
    List.Forall2 (fun x y => closest is_single x y /\ Rabs (y - x) <= Rabs x / 2 ^ 24) xs ys.
Proof. exact @freqs_single. Qed.
Print Assumptions C87_single.
Example C87_single_nonvacuous : powerRZ 2 (-126) <= Rabs 1400000001 < powerRZ 2 128 - powerRZ 2 103.
Proof.
  rewrite (Rabs_pos_eq 1400000001) by lra. split.
  - rewrite <- bpow2. apply Rle_trans with (Raux.bpow Zaux.radix2 0); [apply Raux.bpow_le; lia|cbn; lra].
  - rewrite <- !bpow2. assert (Raux.bpow Zaux.radix2 103 <= Raux.bpow Zaux.radix2 127) by (apply Raux.bpow_le; lia).
    assert (Raux.bpow Zaux.radix2 40 <= Raux.bpow Zaux.radix2 127) by (apply Raux.bpow_le; lia). rewrite (half_step 128). change (128 - 1)%Z with 127%Z.
    assert (1400000001 < Raux.bpow Zaux.radix2 40) by (cbn; lra). lra.
Qed.


(** C87. Another number of channels is refused. *)
Theorem C87_count : forall nchan rest b xs, List.Forall is_double xs -> length xs <> nchan -> get_frequencies (nchan :: rest) b (savetxt xs) = PErr.
Proof. exact @freqs_count. Qed.
Print Assumptions C87_count.


(** C87. Refuted: every type of cube is served. One of bytes raises. *)
Theorem C87_bytes_refuted : forall cube b lines, ~ In (Z.abs b) [16; 32; 64]%Z -> get_frequencies cube b lines = PErr.
Proof. exact @bitpix_fails. Qed.
Print Assumptions C87_bytes_refuted.
Example C87_bytes_case : ~ In (Z.abs 8) [16; 32; 64]%Z.
Proof. cbn. intuition discriminate. Qed.


(** C87. Refuted: a cube of one channel is served. *)
Theorem C87_one_refuted : forall cube b x, is_double x -> get_frequencies cube b (savetxt [x]) = PErr.
Proof. exact @one_channel_fails. Qed.
Print Assumptions C87_one_refuted.


(** C87. Refuted: a cube of short integers gets the frequencies of the file. All are infinite. *)
Theorem C87_short_refuted : forall nchan rest xs, List.Forall is_double xs -> length xs = nchan -> nchan <> 1%nat -> List.Forall (fun x => 65520 < x) xs ->
  get_frequencies (nchan :: rest) 16 (savetxt xs) = POk (mk_nd [nchan] (repeat None nchan)).
Proof. exact @freqs_short. Qed.
Print Assumptions C87_short_refuted.
Example C87_short_case : List.Forall (fun x => 65520 < x) [1400000001; 1400000002] /\ List.Forall is_double [1400000001; 1400000002].
Proof. split; [repeat constructor; lra|apply C87_doubles]. Qed.


(** C87. Refuted: a table of several columns is refused. *)
Theorem C87_columns_refuted : forall lines rows c rest b, Z.abs b = 64%Z -> table lines rows -> List.Forall (fun r => length r = c) rows -> (2 <= length rows)%nat -> (2 <= c)%nat ->
  exists a, get_frequencies (length rows :: rest) b lines = POk a /\ shape a = [length rows; c].
Proof. exact @freqs_columns. Qed.
Print Assumptions C87_columns_refuted.
Example C87_columns_case : let n d := mk_num None [d] None None in table [s "1 2"; s "3 4"] [[n 1%nat; n 2%nat]; [n 3%nat; n 4%nat]].
Proof.
  apply t_row; [discriminate|repeat constructor; discriminate| |apply t_row; [discriminate|repeat constructor; discriminate| |constructor]].
  - exists [([], mk_num None [1%nat] None None); (s " ", mk_num None [2%nat] None None)], [], []. split; [|split; [|split; [|split; [|split]]]]; try reflexivity; try (apply Forall_nil); [| |left; reflexivity]; repeat constructor; discriminate.
  - exists [([], mk_num None [3%nat] None None); (s " ", mk_num None [4%nat] None None)], [], []. split; [|split; [|split; [|split; [|split]]]]; try reflexivity; try (apply Forall_nil); [| |left; reflexivity]; repeat constructor; discriminate.
Qed.


(** C87. With the file made from the header the tool works on what the header says. *)
Theorem C87_same : forall world nchan rest, (forall i, (i < nchan)%nat -> is_double (world i)) -> nchan <> 1%nat ->
  main_freqs (nchan :: rest) (-64) (Some (save_freq_file world nchan)) world nchan = main_freqs (nchan :: rest) (-64) None world nchan.
Proof. exact @file_or_header. Qed.
Print Assumptions C87_same.
Example C87_same_nonvacuous : forall i, (i < 4)%nat -> is_double (IZR (1400000000 + 1000000 * Z.of_nat i)).
Proof. intros i H. apply int_double. lia. Qed.


(** C87. Refuted: for cubes of singles too. *)
Theorem C87_same_single_refuted : exists world nchan rest, (forall i, (i < nchan)%nat -> is_double (world i)) /\ nchan <> 1%nat /\
  main_freqs (nchan :: rest) (-32) (Some (save_freq_file world nchan)) world nchan <> main_freqs (nchan :: rest) (-32) None world nchan.
Proof. exact @file_or_header_single. Qed.
Print Assumptions C87_same_single_refuted.

