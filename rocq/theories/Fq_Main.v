(** What the two tools read from a frequency file. *)
From Coq Require Import Reals Lra Lia List Arith ZArith Bool Ascii String.
From Flocq Require Import Core Relative.
Set Warnings "-ambiguous-paths".
From Verif Require Import PyRes PyStr PyList NdArray Setup_Model Cube_Model Cat_Model Cat_Spec Cat_Text Sx_Model Fq_Model Fq_Spec Fq_Proofs Fq_Files.
Import ListNotations.
Local Notation length := List.length.
Local Open Scope R_scope.

Definition some_closest (n : numeral) (y : option R) : Prop := exists z, y = Some z /\ closest is_double (num_value n) z.

Lemma limit_double : forall v, Rabs v < powerRZ 2 1023 -> Rabs v < limit double.
Proof.
  intros v H. rewrite <- bpow2 in H. unfold limit. change (i_emax double - i_prec double - 1)%Z with 970%Z. change (i_emax double) with 1024%Z.
  assert (bpow radix2 970 < bpow radix2 1023) by (apply bpow_lt; lia). rewrite (half_step 1024). change (1024 - 1)%Z with 1023%Z. lra.
Qed.
Lemma conv_closest : forall n, Rabs (num_value n) < powerRZ 2 1023 -> some_closest n (conv double (num_value n)).
Proof.
  intros n H. destruct (cast_closest double (num_value n) double_good (limit_double _ H)) as (y & C & B). unfold conv. rewrite C.
  exists y. split; [|exact B]. apply cast_exact; [cbn; lia|apply B].
Qed.
Lemma same_length : forall (rows : list (list numeral)) c, List.Forall (fun r => length r = c) rows -> rows <> [] ->
  forallb (fun r => (length r =? length (hd [] rows))%nat) rows = true /\ length (hd [] rows) = c.
Proof.
  intros rows c H NE. destruct rows as [|r rows]; [congruence|]. inversion H as [|? ? E _]; subst. cbn [hd]. split; [|reflexivity].
  apply forallb_forall. rewrite Forall_forall in H. intros q I. apply Nat.eqb_eq. now apply H.
Qed.
Lemma squeezed : forall {A} r c (l : list A), squeeze (mk_nd [r; c] l) = mk_nd (kept r c) l.
Proof. intros A r c l. unfold squeeze, kept. cbn [shape flat filter]. destruct (r =? 1)%nat, (c =? 1)%nat; reflexivity. Qed.
Lemma load_even : forall f lines rows c, table lines rows -> rows <> [] -> List.Forall (fun r => length r = c) rows ->
  loadtxt f lines = POk (mk_nd (kept (length rows) c) (map (fun n => conv f (num_value n)) (List.concat rows))).
Proof. intros f lines rows c T NE E. destruct (same_length rows c E NE) as [FB L]. rewrite (load_table f lines rows T NE), FB, L, squeezed. reflexivity. Qed.

Theorem table_read : forall lines rows c, table lines rows -> rows <> [] -> List.Forall (fun r => length r = c) rows ->
  List.Forall (fun n => Rabs (num_value n) < powerRZ 2 1023) (List.concat rows) ->
  exists a, readFreqFile lines = POk a /\ shape a = kept (length rows) c /\ List.Forall2 (fun n y => exists z, y = Some z /\ closest is_double (num_value n) z) (List.concat rows) (flat a).
Proof.
  intros lines rows c T NE E B. unfold readFreqFile. rewrite (load_even double lines rows c T NE E). eexists. split; [reflexivity|]. cbn [shape flat]. split; [reflexivity|].
  induction B as [|n l H B IH]; cbn [map]; constructor; auto. now apply conv_closest.
Qed.
Theorem ragged_fails : forall lines rows r q, table lines rows -> In r rows -> In q rows -> length r <> length q -> readFreqFile lines = PErr.
Proof.
  intros lines rows r q T Ir Iq N. unfold readFreqFile. rewrite (load_table double lines rows T) by (intros ->; destruct Ir).
  destruct (forallb _ rows) eqn:F; [|reflexivity]. rewrite forallb_forall in F. apply F in Ir. apply F in Iq. apply Nat.eqb_eq in Ir, Iq. congruence.
Qed.

Lemma doubles_cast : forall xs, List.Forall is_double xs -> map (cast double) xs = map Some xs.
Proof. induction 1 as [|x l D H IH]; [reflexivity|]. cbn [map]. rewrite IH. f_equal. apply cast_exact; [cbn; lia|exact D]. Qed.
(** nothing is lost on the way through a file *)
Theorem round_trip : forall xs, List.Forall is_double xs -> length xs <> 1%nat -> readFreqFile (savetxt xs) = POk (mk_nd [length xs] (map Some xs)).
Proof. intros xs D N. unfold readFreqFile. rewrite (load_saved double xs D), doubles_cast by auto. destruct (Nat.eqb_spec (length xs) 1); [contradiction|reflexivity]. Qed.
Theorem round_trip_one : forall x, is_double x -> readFreqFile (savetxt [x]) = POk (mk_nd [] [Some x]).
Proof. intros x D. unfold readFreqFile. rewrite (load_saved double [x]) by auto. rewrite doubles_cast by auto. reflexivity. Qed.
Theorem lines_saved : forall world n, length (save_freq_file world n) = n /\ forall i, (i < n)%nat -> exists m, nth_error (save_freq_file world n) i = Some (show m) /\ num_ok m /\
  length (n_int m) = 1%nat /\ length (frac_digits m) = 18%nat /\ Rabs (num_value m - world i) <= Rabs (world i) / 2 / 10 ^ 18.
Proof.
  intros world n. unfold save_freq_file, savetxt, get_freq_array. rewrite !map_length, seq_length. split; [reflexivity|]. intros i H.
  destruct (fmt_e_spec 18 (world i) ltac:(lia)) as (m & d & f & g & E & OK & A & B & C & _ & _ & _ & V). exists m. split; [|split; [exact OK|split; [rewrite A; reflexivity|split; [|exact V]]]].
  - rewrite map_map. rewrite nth_error_map. rewrite (nth_error_nth' (seq 0 n) 0%nat) by (rewrite seq_length; exact H). rewrite seq_nth by exact H. cbn [option_map plus]. now rewrite E.
  - unfold frac_digits. rewrite B. exact C.
Qed.

(* ------------------------------------------------------- the fitting tool *)

Lemma dtype64 : forall b, Z.abs b = 64%Z -> float_dtype (Z.abs b) = POk double. Proof. intros b ->. reflexivity. Qed.
Theorem bitpix_fails : forall cube b lines, ~ In (Z.abs b) [16; 32; 64]%Z -> get_frequencies cube b lines = PErr.
Proof.
  intros cube b lines N. unfold get_frequencies, float_dtype. destruct (Z.eqb_spec (Z.abs b) 16) as [E|E1]; [exfalso; apply N; rewrite E; cbn; auto|].
  destruct (Z.eqb_spec (Z.abs b) 32) as [E|E2]; [exfalso; apply N; rewrite E; cbn; auto|]. destruct (Z.eqb_spec (Z.abs b) 64) as [E|E3]; [exfalso; apply N; rewrite E; cbn; auto|]. reflexivity.
Qed.
Lemma freqs_saved : forall f nchan rest b xs, float_dtype (Z.abs b) = POk f -> List.Forall is_double xs ->
  get_frequencies (nchan :: rest) b (savetxt xs) = if (length xs =? 1)%nat then PErr else if (nchan =? length xs)%nat then POk (mk_nd [length xs] (map (cast f) xs)) else PErr.
Proof.
  intros f nchan rest b xs F D. unfold get_frequencies. rewrite F. cbn [pybind]. rewrite (load_saved f xs D). cbn [pybind shape].
  destruct (length xs =? 1)%nat; [reflexivity|]. reflexivity.
Qed.
Theorem freqs_double : forall nchan rest xs, List.Forall is_double xs -> length xs = nchan -> nchan <> 1%nat ->
  get_frequencies (nchan :: rest) (-64) (savetxt xs) = POk (mk_nd [nchan] (map Some xs)).
Proof.
  intros nchan rest xs D <- N. rewrite (freqs_saved double) by auto. destruct (Nat.eqb_spec (length xs) 1); [contradiction|]. rewrite Nat.eqb_refl, doubles_cast by auto. reflexivity.
Qed.
(** another number of channels is refused, whatever the type *)
Theorem freqs_count : forall nchan rest b xs, List.Forall is_double xs -> length xs <> nchan -> get_frequencies (nchan :: rest) b (savetxt xs) = PErr.
Proof.
  intros nchan rest b xs D N. destruct (float_dtype (Z.abs b)) as [f|] eqn:F; [|unfold get_frequencies; rewrite F; reflexivity].
  rewrite (freqs_saved f) by auto. destruct (length xs =? 1)%nat; [reflexivity|]. destruct (Nat.eqb_spec nchan (length xs)); [congruence|reflexivity].
Qed.
Theorem one_channel_fails : forall cube b x, is_double x -> get_frequencies cube b (savetxt [x]) = PErr.
Proof.
  intros cube b x D. destruct (float_dtype (Z.abs b)) as [f|] eqn:F; [|unfold get_frequencies; rewrite F; reflexivity].
  destruct cube as [|n rest]; [unfold get_frequencies; rewrite F; reflexivity|]. rewrite (freqs_saved f) by auto. reflexivity.
Qed.
Lemma limit_single : limit single = powerRZ 2 128 - powerRZ 2 103.
Proof. unfold limit. cbn [i_emax i_prec single]. rewrite !bpow2. reflexivity. Qed.
Theorem freqs_single : forall nchan rest xs, List.Forall is_double xs -> length xs = nchan -> nchan <> 1%nat -> List.Forall (fun x => powerRZ 2 (-126) <= Rabs x < powerRZ 2 128 - powerRZ 2 103) xs ->
  exists ys, get_frequencies (nchan :: rest) (-32) (savetxt xs) = POk (mk_nd [nchan] (map Some ys)) /\
    List.Forall2 (fun x y => closest is_single x y /\ Rabs (y - x) <= Rabs x / 2 ^ 24) xs ys.
Proof.
  intros nchan rest xs D <- N B. rewrite (freqs_saved single) by auto. destruct (Nat.eqb_spec (length xs) 1); [contradiction|]. rewrite Nat.eqb_refl.
  assert (E : exists ys, map (cast single) xs = map Some ys /\ List.Forall2 (fun x y => closest is_single x y /\ Rabs (y - x) <= Rabs x / 2 ^ 24) xs ys).
  { clear - B. induction B as [|x l [B1 B2] B (ys & E & F)]; [exists []; split; constructor|]. rewrite <- limit_single in B2.
    destruct (cast_closest single x single_good B2) as (y & C & Y). exists (y :: ys). split; [cbn [map]; rewrite E, C; reflexivity|]. constructor; [|exact F]. split; [exact Y|].
    destruct (cast_in single x single_good B2) as [C' _]. rewrite C in C'. injection C' as ->.
    assert (PG : Prec_gt_0 24) by (red; lia). pose proof (relative_error_N_FLT radix2 (-149) 24 PG (fun t => negb (Z.even t)) x) as RE.
    change (-149 + 24 - 1)%Z with (-126)%Z in RE. rewrite bpow2 in RE. specialize (RE B1). change (Z.opp 24 + 1)%Z with (-23)%Z in RE.
    change (i_emin single) with (-149)%Z. change (i_prec single) with 24%Z. eapply Rle_trans; [exact RE|]. assert (EB : bpow radix2 (-23) = / 8388608) by reflexivity. rewrite EB. lra. }
  destruct E as (ys & E & F). exists ys. rewrite E. auto.
Qed.
Lemma limit_half : limit half = 65520.
Proof. unfold limit. cbn [i_emax i_prec half]. change (16 - 11 - 1)%Z with 4%Z. replace (bpow radix2 16) with 65536 by (cbn; lra). replace (bpow radix2 4) with 16 by (cbn; lra). lra. Qed.
(** a cube of short integers: every frequency is lost *)
Theorem freqs_short : forall nchan rest xs, List.Forall is_double xs -> length xs = nchan -> nchan <> 1%nat -> List.Forall (fun x => 65520 < x) xs ->
  get_frequencies (nchan :: rest) 16 (savetxt xs) = POk (mk_nd [nchan] (repeat None nchan)).
Proof.
  intros nchan rest xs D <- N B. rewrite (freqs_saved half) by auto. destruct (Nat.eqb_spec (length xs) 1); [contradiction|]. rewrite Nat.eqb_refl. f_equal. f_equal.
  clear - B. induction B as [|x l H B IH]; [reflexivity|]. cbn [map length repeat]. rewrite IH. f_equal. apply cast_out; [exact half_good|]. rewrite limit_half. rewrite Rabs_pos_eq by lra. exact H.
Qed.
(** a table of several columns passes *)
Theorem freqs_columns : forall lines rows c rest b, Z.abs b = 64%Z -> table lines rows -> List.Forall (fun r => length r = c) rows -> (2 <= length rows)%nat -> (2 <= c)%nat ->
  exists a, get_frequencies (length rows :: rest) b lines = POk a /\ shape a = [length rows; c].
Proof.
  intros lines rows c rest b Hb T E Lr Lc. unfold get_frequencies. rewrite dtype64 by auto. cbn [pybind]. rewrite (load_even double lines rows c) by (auto; intros ->; cbn in Lr; lia). cbn [pybind shape].
  assert (K : kept (length rows) c = [length rows; c]). { unfold kept. destruct (Nat.eqb_spec (length rows) 1); [lia|]. destruct (Nat.eqb_spec c 1); [lia|reflexivity]. }
  rewrite K, Nat.eqb_refl. eexists. split; [reflexivity|]. reflexivity.
Qed.
(** when a table is accepted *)
Theorem freqs_accepts : forall lines rows c nchan rest b, In (Z.abs b) [16; 32; 64]%Z -> table lines rows -> rows <> [] -> List.Forall (fun r => length r = c) rows ->
  (exists a, get_frequencies (nchan :: rest) b lines = POk a) <-> (length rows = nchan /\ nchan <> 1%nat) \/ (length rows = 1%nat /\ c = nchan /\ nchan <> 1%nat).
Proof.
  intros lines rows c nchan rest b Hb T NE E. assert (F : exists f, float_dtype (Z.abs b) = POk f).
  { destruct Hb as [<-|[<-|[<-|[]]]]; eexists; reflexivity. }
  destruct F as [f F]. unfold get_frequencies. rewrite F. cbn [pybind]. rewrite (load_even f lines rows c) by auto. cbn [pybind shape]. unfold kept.
  destruct (Nat.eqb_spec (length rows) 1) as [R|R].
  - destruct (Nat.eqb_spec c 1) as [C|C]; cbn [app].
    + split; [intros [a A]; discriminate A|]. lia.
    + destruct (Nat.eqb_spec nchan c) as [N|N]; split; [intros _; right; lia|eauto|intros [a A]; discriminate A|lia].
  - cbn [app]. destruct (Nat.eqb_spec nchan (length rows)) as [N|N]; split; [intros _; left; lia|eauto|intros [a A]; discriminate A|lia].
Qed.

(** the file of one tool and the header of the cube say the same *)
Theorem file_or_header : forall world nchan rest, (forall i, (i < nchan)%nat -> is_double (world i)) -> nchan <> 1%nat ->
  main_freqs (nchan :: rest) (-64) (Some (save_freq_file world nchan)) world nchan = main_freqs (nchan :: rest) (-64) None world nchan.
Proof.
  intros world nchan rest D N. assert (L : length (get_freq_array world nchan) = nchan) by (unfold get_freq_array; now rewrite map_length, seq_length).
  unfold main_freqs, save_freq_file. rewrite (freqs_double nchan rest); auto. unfold get_freq_array. rewrite Forall_forall. intros x I. apply in_map_iff in I. destruct I as (i & <- & I). apply in_seq in I. apply D. lia.
Qed.
Lemma int_double : forall z, (Z.abs z < 2 ^ 53)%Z -> is_double (IZR z).
Proof.
  intros z H. split.
  - exists z, 0%Z. cbn [powerRZ]. rewrite Rmult_1_r. split; [reflexivity|]. split; [exact H|lia].
  - rewrite <- abs_IZR. apply Rlt_trans with (IZR (2 ^ 53)); [now apply IZR_lt|]. rewrite <- bpow2. change (IZR (2 ^ 53)) with (bpow radix2 53). apply bpow_lt. lia.
Qed.
Theorem file_or_header_single : exists world nchan rest, (forall i, (i < nchan)%nat -> is_double (world i)) /\ nchan <> 1%nat /\
  main_freqs (nchan :: rest) (-32) (Some (save_freq_file world nchan)) world nchan <> main_freqs (nchan :: rest) (-32) None world nchan.
Proof.
  exists (fun i => IZR (1400000001 + Z.of_nat i)), 2%nat, [3%nat; 4%nat].
  assert (D : forall i, (i < 2)%nat -> is_double (IZR (1400000001 + Z.of_nat i))) by (intros i H; apply int_double; lia). split; [exact D|]. split; [lia|].
  unfold main_freqs, save_freq_file. rewrite (freqs_saved single); [|reflexivity|].
  - unfold get_freq_array. cbn [seq map length Nat.eqb]. assert (C : cast single (IZR (1400000001 + Z.of_nat 0)) = Some 1400000000).
    { apply cast_keeps; [cbn; lia| |].
      - split.
        + exists 10937500%Z, 7%Z. cbn [i_prec i_emin single]. split; [rewrite <- bpow2; change (bpow radix2 7) with 128; lra|]. split; [reflexivity|lia].
        + cbn [i_emax single]. rewrite Rabs_pos_eq by lra. rewrite <- bpow2. apply Rlt_trans with (bpow radix2 40); [cbn; lra|apply bpow_lt; lia].
      - cbn [Z.of_nat Z.add i_prec single]. change (bpow radix2 (Z.opp 24)) with (/ 16777216). rewrite (Rabs_pos_eq (1400000001 - 1400000000)), (Rabs_pos_eq 1400000000) by lra. lra. }
    rewrite C. cbn [Z.of_nat Z.add]. intros E. assert (H : Some 1400000000 = Some 1400000001) by (apply (f_equal (fun a => match a with POk b => hd None (flat b) | PErr => None end)) in E; exact E).
    injection H. lra.
  - unfold get_freq_array. cbn [seq map]. constructor; [apply (D 0%nat); lia|]. constructor; [apply (D 1%nat); lia|constructor].
Qed.
