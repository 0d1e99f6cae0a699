(** rmtools_calcRMSF: claim C78. *)
From Coq Require Import Reals List Arith ZArith Lia Lra Bool Permutation.
Set Warnings "-ambiguous-paths".
From Coquelicot Require Import Coquelicot.
From Verif Require Import CBase PyRes PyList NdArray Synth_Model Synth_Spec Measure_Model Setup_Model Clean_Spec Ref_Spec Mp_Model Lobe_Spec Lobe_Model Rep_Spec Rep_Model Rep_Proofs Rep_Report Rep_Default Rep_Example.
Import ListNotations.
Local Open Scope R_scope.

(** C78. Two columns of one type: frequencies and weights. *)
Theorem C78_two_columns : forall c d fp, is_int c = is_int d -> col_len c <> 1%nat ->
  inputs (Some [c; d]) fp None = POk (c, reals d).
Proof. exact @two_columns. Qed.
Print Assumptions C78_two_columns.
Example C78_two_columns_nonvacuous : inputs (Some [CFloat [1; 2]; CFloat [3; 4]]) None None = POk (CFloat [1; 2], [3; 4]).
Proof. reflexivity. Qed.


(** C78. One column: equal weights. *)
Theorem C78_one_column : forall c fp, col_len c <> 1%nat -> inputs (Some [c]) fp None = POk (c, repeat 1 (col_len c)).
Proof. exact @one_column. Qed.
Print Assumptions C78_one_column.
Example C78_one_column_nonvacuous : inputs (Some [CInt [5; 6; 7]%Z]) None None = POk (CInt [5; 6; 7]%Z, [1; 1; 1]).
Proof. reflexivity. Qed.


(** C78. A file of weights replaces them, if it is as long. *)
Theorem C78_weight_file : forall ff fp w f v, col_len w <> 1%nat -> inputs ff fp None = POk (f, v) ->
  inputs ff fp (Some [w]) = if Nat.eqb (col_len w) (col_len f) then POk (f, reals w) else PErr.
Proof. exact @weight_file. Qed.
Print Assumptions C78_weight_file.
Example C78_weight_file_nonvacuous : inputs (Some [CFloat [1; 2]]) None (Some [CFloat [3; 4]]) = POk (CFloat [1; 2], [3; 4]).
Proof. reflexivity. Qed.


(** C78. Frequencies from first, last and step: the last one is not included. *)
Theorem C78_generated : forall a b d w, 0 < d -> exists n, (forall k, (k < n)%nat <-> a + INR k * d < b) /\
  inputs None (Some (a, b, d)) None = POk (CFloat (map (fun k => a + INR k * d) (seq 0 n)), repeat 1 n) /\ inputs None None w = PErr.
Proof. exact @generated. Qed.
Print Assumptions C78_generated.
Example C78_generated_nonvacuous : exists n, (forall k, (k < n)%nat <-> 1 + INR k * (1 / 2) < 2) /\ n = 2%nat.
Proof.
  destruct (C78_generated 1 2 (1 / 2) None ltac:(lra)) as (n & N & _). exists n. split; [exact N|].
  assert (1 < n)%nat by (apply N; cbn; lra). assert (~ (2 < n)%nat) by (intros H2; apply N in H2; cbn in H2; lra). lia.
Qed.


(** C78. Wavelengths of frequencies given with a decimal point. *)
Theorem C78_wavelengths : forall l, (forall f, In f l -> f <> 0) -> all_some (lambda2 (CFloat l)) = Some (map wavelength2 l).
Proof. exact @float_wavelengths. Qed.
Print Assumptions C78_wavelengths.
Example C78_wavelengths_nonvacuous : all_some (lambda2 (CFloat [299792458])) = Some [wavelength2 299792458].
Proof. apply (C78_wavelengths [299792458]). intros f [<-|[]]. lra. Qed.


(** C78. Wavelengths of frequencies given as integers, up to 3.037 GHz. *)
Theorem C78_integer_wavelengths : forall l, (forall z, In z l -> (z <> 0 /\ Z.abs z <= 3037000499)%Z) ->
  all_some (lambda2 (CInt l)) = Some (map (fun z => wavelength2 (IZR z)) l).
Proof. exact @integer_wavelengths. Qed.
Print Assumptions C78_integer_wavelengths.
Example C78_integer_wavelengths_nonvacuous : all_some (lambda2 (CInt [1400000000%Z])) = Some [wavelength2 1400000000].
Proof. apply (C78_integer_wavelengths [1400000000%Z]). intros f [<-|[]]. lia. Qed.


(** C78. Finding: above that the square does not fit in 64 bits; up to 4.29 GHz the wavelength squared is negative. *)
Theorem C78_integer_overflow_refuted : forall z, (3037000500 <= z)%Z ->
  nth 0 (lambda2 (CInt [z])) None <> Some (wavelength2 (IZR z)) /\
  ((z < 4294967296)%Z -> exists v, lambda2 (CInt [z]) = [Some v] /\ v < 0).
Proof. exact @integer_overflow_refuted. Qed.
Print Assumptions C78_integer_overflow_refuted.
Example C78_integer_overflow_refuted_nonvacuous : exists v, lambda2 (CInt [4000000000%Z]) = [Some v] /\ v < 0.
Proof. apply (C78_integer_overflow_refuted 4000000000%Z); lia. Qed.


(** C78. Finding: integer frequencies beside weights with decimal points are refused. *)
Theorem C78_mixed_columns_refuted : forall f w fp wf, inputs (Some [CInt f; CFloat w]) fp wf = PErr.
Proof. exact @mixed_columns_refuted. Qed.
Print Assumptions C78_mixed_columns_refuted.


(** C78. Finding: one channel with its weight is taken for two channels. *)
Theorem C78_one_row_refuted : forall f w fp, inputs (Some [CFloat [f]; CFloat [w]]) fp None = POk (CFloat [f; w], [1; 1]).
Proof. exact @one_row_refuted. Qed.
Print Assumptions C78_one_row_refuted.


(** C78. The numbers reported, with every option. *)
Theorem C78_report : forall fit freq w phi_max dphi (super : bool) l2 s lo pm dp,
  all_some (lambda2 freq) = Some l2 -> length w = length l2 -> rsum w <> 0 ->
  span l2 s -> In lo l2 -> (forall x, In x l2 -> lo <= x) -> lo <> 0 ->
  chosen 10 s phi_max pm -> chosen (1 / 10) s dphi dp -> 0 < dp -> dp < pm + 1 / 1000000 ->
  exists n rep, determine_RMSF_parameters fit freq w phi_max dphi super = Some (POk rep) /\
    (forall k, (k < n)%nat <-> - pm / 2 + INR k * dp < pm / 2 + 1 / 1000000) /\
    let phi2 := padded_axis (- pm / 2) dp n (Nat.div2 (n + 1)) in
    let chs := weighted l2 w in
    let rm := map (RMSF_spec chs (if super then 0 else mean_l2 chs)) phi2 in
    let y := map Cmod (skipn (length rm / 2) rm) in
    p_theory rep = (if Req_EM_T s 0 then None else Some (38 / 10 / s)) /\
    p_fwhm rep = snd (fit_or (fit super phi2 (map Some rm)) (p_theory rep)) /\
    p_scale rep = Some (PI / lo) /\
    (forall d, middle (steps l2) d -> d <> 0 -> p_maxfd rep = Some (sqrt 3 / d)) /\
    match p_lobe rep with
    | Some (x, a) => exists i, highest_max y i /\ x = nth (length rm / 2 + i) phi2 0 /\ a = 100 * nth i y 0
    | None => forall i, ~ sharp_max y i
    end.
Proof. exact @report_values. Qed.
Print Assumptions C78_report.
Example C78_report_nonvacuous : all_some (lambda2 x_freq) = Some x_l2 /\ length x_w = length x_l2 /\ rsum x_w <> 0 /\ span x_l2 3 /\ In 1 x_l2 /\
  (forall x, In x x_l2 -> 1 <= x) /\ chosen 10 3 (Some 20) 20 /\ chosen (1 / 10) 3 (Some (1 / 2)) (1 / 2) /\ middle (steps x_l2) (3 / 2).
Proof.
  destruct x_span as (A & B & C & D & _). split; [exact x_wave|]. split; [exact D|]. split; [unfold x_w, rsum; cbn [fold_right]; lra|].
  do 3 (split; [assumption|]). split; [reflexivity|]. split; [reflexivity|].
  assert (E : steps x_l2 = [21 / 100; 279 / 100]).
  { unfold steps, x_l2. cbn [length Nat.sub seq map nth]. rewrite !Rabs_pos_eq by lra. f_equal; [lra|f_equal; lra]. }
  rewrite E. split; [discriminate|]. exists [21 / 100; 279 / 100]. split; [apply Permutation_refl|]. split; [repeat constructor; lra|]. cbn. lra.
Qed.


(** C78. Without options: the width expected, the largest scale, and the sidelobe, which is not the peak. *)
Theorem C78_default : forall (freq : column) (w l2 : list R) (s lo : R) (j1 j2 : nat),
  all_some (lambda2 freq) = Some l2 -> length w = length l2 -> (forall v, In v w -> 0 <= v) ->
  (j1 < length l2)%nat -> (j2 < length l2)%nat -> 0 < nth j1 w 0 -> 0 < nth j2 w 0 ->
  span l2 s -> 0 < s <= 100000 -> In lo l2 -> (forall x, In x l2 -> lo <= x) -> lo <> 0 ->
  let d := 2 * sqrt 3 / (10 * s) in
  0 < 101 * d * Rabs (nth j1 l2 0 - nth j2 l2 0) < PI ->
  let Y := spread (weighted l2 w) d in
  forall fuel rest, exists rep,
    determine_RMSF_parameters (rmsf_fit fuel rest) freq w None None false = Some (POk rep) /\
    p_theory rep = Some (38 / 10 / s) /\ p_scale rep = Some (PI / lo) /\
    match p_lobe rep with
    | Some (x, a) => exists i, highest_max (skipn 101 Y) i /\ x = INR i * d /\ 0 < x /\ a = 100 * nth i (skipn 101 Y) 0 /\ a < 100
    | None => forall i, ~ sharp_max (skipn 101 Y) i
    end.
Proof. exact @default_report. Qed.
Print Assumptions C78_default.
Example C78_default_nonvacuous : all_some (lambda2 x_freq) = Some x_l2 /\ length x_w = length x_l2 /\ (forall v, In v x_w -> 0 <= v) /\
  span x_l2 3 /\ In 1 x_l2 /\ (forall x, In x x_l2 -> 1 <= x) /\ 0 < 101 * (2 * sqrt 3 / (10 * 3)) * Rabs (nth 0 x_l2 0 - nth 1 x_l2 0) < PI.
Proof.
  destruct x_span as (A & B & C & D & E). split; [exact x_wave|]. split; [exact D|]. split; [exact E|]. do 3 (split; [assumption|]). exact x_near.
Qed.


(** C78. Without options: the width measured. *)
Theorem C78_default_width : forall (freq : column) (w l2 : list R) (s lo : R) (j1 j2 : nat),
  all_some (lambda2 freq) = Some l2 -> length w = length l2 -> (forall v, In v w -> 0 <= v) ->
  (j1 < length l2)%nat -> (j2 < length l2)%nat -> 0 < nth j1 w 0 -> 0 < nth j2 w 0 ->
  span l2 s -> 0 < s <= 100000 -> In lo l2 -> (forall x, In x l2 -> lo <= x) -> 
  let d := 2 * sqrt 3 / (10 * s) in
  0 < 101 * d * Rabs (nth j1 l2 0 - nth j2 l2 0) < PI ->
  let Y := spread (weighted l2 w) d in
  let answer fuel rest := match determine_RMSF_parameters (rmsf_fit fuel rest) freq w None None false with
                            | Some (POk rep) => Some (p_fwhm rep) | _ => None end in
    ((forall i, (101 <= i < 203)%nat -> 4 / 10 <= nth i Y 0) \/ falls_after (4 / 10) Y 101 1 ->
       forall fuel rest, answer fuel rest = Some (Some (38 / 10 / s))) /\
    (forall m, (2 <= m)%nat -> falls_after (4 / 10) Y 101 m ->
       (forall j, (j < m)%nat -> 1 - 6 / 10 * (INR j / INR (m - 1)) <= nth (101 + j) Y 0) ->
       exists N a b wd,
         distance (lobe_axis 101 m d) (take (around 101 m) Y) a b wd <= distance (lobe_axis 101 m d) (take (around 101 m) Y) 1 0 (2 * (INR (m - 1) * d)) /\
         forall fuel rest, (N <= fuel)%nat -> answer fuel rest = Some (Some wd)).
Proof. exact @default_width. Qed.
Print Assumptions C78_default_width.
Example C78_default_width_nonvacuous : all_some (lambda2 x_freq) = Some x_l2 /\ length x_w = length x_l2 /\ (forall v, In v x_w -> 0 <= v) /\
  span x_l2 3 /\ In 1 x_l2 /\ (forall x, In x x_l2 -> 1 <= x) /\ 0 < 101 * (2 * sqrt 3 / (10 * 3)) * Rabs (nth 0 x_l2 0 - nth 1 x_l2 0) < PI /\
  falls_after (4 / 10) (spread (weighted x_l2 x_w) (2 * sqrt 3 / (10 * 3))) 101 4 /\
  forall j, (j < 4)%nat -> 1 - 6 / 10 * (INR j / INR (4 - 1)) <= nth (101 + j) (spread (weighted x_l2 x_w) (2 * sqrt 3 / (10 * 3))) 0.
Proof.
  destruct x_span as (A & B & C & D & E). split; [exact x_wave|]. split; [exact D|]. split; [exact E|]. do 3 (split; [assumption|]). split; [exact x_near|exact x_falls].
Qed.

