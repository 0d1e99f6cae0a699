(** Catalogues and the data simulated from them: claims C47 and C67. *)
From Coq Require Import Reals List Arith ZArith Lia Lra Bool Permutation.
Set Warnings "-ambiguous-paths".
From Coquelicot Require Import Coquelicot.
From Verif Require Import CBase PyRes PyStr PyList NdArray NdIndex Synth_Spec Measure_Model Measure_Spec QU_Spec Setup_Spec Cube_Model Cube_Spec StokesI_Model Run1D_Model Run1D_Spec Run1D_Refute Run3D_Model Run3D_Spec Run3D_Examples Cat_Model Cat_Spec Cat_Text Cat_Rows Cat_Cube Cat_Run Cat_Run1 Cat_Refute Cat_Examples.
From Coq Require Import String Ascii.
Import ListNotations.
Local Open Scope R_scope.

(** C47. A number in the text, with blanks around it. *)
Theorem C47_number : forall b n c, num_ok n -> pad b -> pad c -> py_float (b ++ show n ++ c)%list = POk (Some (num_value n)).
Proof. exact @float_read. Qed.
Print Assumptions C47_number.


(** C47. The text of a catalogue: comments and blanks are skipped, every other line gives its numbers. *)
Theorem C47_text : forall text rows, catalogue text rows -> csv_read_to_list text = POk (map (map (fun n => Some (num_value n))) rows).
Proof. exact @catalogue_read. Qed.
Print Assumptions C47_text.
Example C47_text_nonvacuous : catalogue c_text c_rows.
Proof. exact c_catalogue. Qed.


(** C47. The preamble and the columns of the repeated group. *)
Theorem C47_columns : forall {A B} (d : A) (g : B -> list A) pre l rest n, (0 < n)%nat -> (forall b, List.length (g b) = n) -> (List.length rest < n)%nat -> l <> [] ->
  split_repeat_lst d (pre ++ flat_map g l ++ rest) (List.length pre) n = (pre, map (fun k => map (fun b => nth k (g b) d) l) (seq 0 n)).
Proof. exact @split_repeat. Qed.
Print Assumptions C47_columns.
Example C47_columns_nonvacuous : split_repeat_lst 0 [1; 2; 3; 4; 5; 6; 7] 2 2 = ([1; 2], [[3; 5]; [4; 6]]).
Proof. reflexivity. Qed.


(** C47. A row too short for a component ends the run. *)
Theorem C47_short_row : forall freq f0 ty rest, (1 <= ty < 2 /\ (List.length rest < 11)%nat) \/ (2 <= ty < 3 /\ (List.length rest < 10)%nat) ->
  row_source freq f0 (map Some (ty :: rest)) = PErr.
Proof. exact @row_short. Qed.
Print Assumptions C47_short_row.


(** C47. From the text to the files: their numbers, and every row of every file. *)
Theorem C47_files : forall (gauss : nat -> nat -> nat -> R) (start stop : R) (n : nat) (rms : R) (noise : list (option R)) (flags : list (R * R)) (freq0 : option R) (w : nat -> R),
  (2 <= n)%nat -> 0 < start -> 0 < stop -> 0 <= rms -> (forall v, freq0 = Some v -> 0 < v) ->
  (forall k, (k < n)%nat -> ~ flagged flags (channel start stop n k) -> nth k noise None = Some (w k)) ->
  forall text rows es, catalogue text rows -> Forall2 row_says (map (map num_value) rows) es ->
    exists files, create_IQU_ascii_data gauss text start stop n rms noise flags freq0 = POk files /\
      map a_number files = file_numbers es /\
      forall i e h, nth_error es i = Some e -> head_of e = Some h -> exists f, In f files /\ source_file gauss start stop n rms w flags (match freq0 with Some f => f | None => start end) i e h f.
Proof. exact @ascii_files. Qed.
Print Assumptions C47_files.
Example C47_files_nonvacuous : catalogue c_text c_rows /\ Forall2 row_says (map (map num_value) c_rows) c_entries /\ file_numbers c_entries = [1; 3]%nat.
Proof. split; [exact c_catalogue|]. split; [exact c_says|exact c_numbers]. Qed.


(** C47. The place, the shape and a component that is not complete say nothing in a file. *)
Theorem C47_ignored : forall gauss start stop n rms noise flags freq0 text text' rows rows' es es', catalogue text rows -> catalogue text' rows' ->
  Forall2 row_says (map (map num_value) rows) es -> Forall2 row_says (map (map num_value) rows') es' -> Forall2 same_spectrum es es' ->
  create_IQU_ascii_data gauss text start stop n rms noise flags freq0 = create_IQU_ascii_data gauss text' start stop n rms noise flags freq0.
Proof. exact @ascii_ignores. Qed.
Print Assumptions C47_ignored.
Example C47_ignored_nonvacuous : row_says [1; 5; 6; 7; 8; 9; 1; 0; 1; 0; 0; 0; 3; 4] (Thin (mk_head 5 6 7 8 9 1 0) [mk_thin 1 0 0 0]) /\
  same_spectrum (Thin (mk_head 5 6 7 8 9 1 0) [mk_thin 1 0 0 0]) u_entry.
Proof. split; [|cbn; auto]. split; [discriminate|]. exists 1, [3; 4]. split; [lra|]. split; [cbn; lia|reflexivity]. Qed.


(** C47. The ranges of the flag option; a last number on its own is dropped. *)
Theorem C47_flags : forall x l odd, flag_text x l odd -> x <> [] -> flag_ranges x = map (fun r => (Some (num_value (fst r)), Some (num_value (snd r)))) l.
Proof. exact @flags_read. Qed.
Print Assumptions C47_flags.
Example C47_flags_nonvacuous : flag_text (s "1, 2,3") [(num1 1, num1 2)] [num1 3].
Proof.
  exists [([], num1 1, []); (s " ", num1 2, []); ([], num1 3, [])]. split; [reflexivity|]. split; [repeat (constructor; [split; cbn; repeat (constructor; auto)|]); constructor|]. split; [reflexivity|].
  split; [repeat (constructor; [apply num1_ok; lia|]); constructor|cbn; lia].
Qed.


(** C47. Finding: the help has the first two columns of a component the other way round. *)
Theorem C47_help_refuted : forall ty, ty = 1%nat \/ ty = 2%nat -> exists text rows psi p RM more row, catalogue text rows /\ map (map num_value) rows = [row] /\ help_row (INR ty) unit_head psi p RM more row /\
  p = 0 /\ (forall x, In x more -> x = 0) /\
  forall gauss start stop n, (2 <= n)%nat -> 0 < start -> 0 < stop -> exists f, create_IQU_ascii_data gauss text start stop n 0 (ones n) [] None = POk [f] /\
    forall k, (k < n)%nat -> file_QU f k = Some (Some 1, Some 0).
Proof. exact @help_columns. Qed.
Print Assumptions C47_help_refuted.


(** C47. Finding: the dispersion is taken for a variance. *)
Theorem C47_dispersion_refuted : exists text rows row, catalogue text rows /\ map (map num_value) rows = [row] /\ row = (1 :: head_row unit_head ++ [1; 0; 0; 2])%list /\
  forall gauss start stop n, (2 <= n)%nat -> 0 < start -> 0 < stop -> exists f, create_IQU_ascii_data gauss text start stop n 0 (ones n) [] None = POk [f] /\
    forall k, (k < n)%nat -> let l2 := l2_of (channel start stop n k) in
      file_QU f k = Some (Some (exp (- 2 * 2 * l2 ^ 2)), Some 0) /\ help_thin 1 0 0 2 l2 = RtoC (exp (- 2 * 2 ^ 2 * l2 ^ 2)) /\ exp (- 2 * 2 * l2 ^ 2) <> exp (- 2 * 2 ^ 2 * l2 ^ 2).
Proof. exact @help_dispersion. Qed.
Print Assumptions C47_dispersion_refuted.


(** C47. Finding: one field that is no number and nothing is flagged. *)
Theorem C47_flags_refuted : forall x y, x <> [] -> In y (split ","%char x) -> py_float y = PErr -> flag_ranges x = [].
Proof. exact @flags_lost. Qed.
Print Assumptions C47_flags_refuted.
Example C47_flags_refuted_nonvacuous : flag_ranges (s "1.1e9,1.2e9 Hz") = [].
Proof. apply (flags_lost _ (s "1.2e9 Hz")); [discriminate|cbn; auto|reflexivity]. Qed.


(** C47. Finding: the axes and the angle of a source change nothing in the cubes. *)
Theorem C47_shape_refuted : forall copies gauss pos start stop n rms k noise flags f0 text text' rows rows' es es', catalogue text rows -> catalogue text' rows' ->
  Forall2 row_says (map (map num_value) rows) es -> Forall2 row_says (map (map num_value) rows') es' -> Forall2 same_but_shape es es' ->
  create_IQU_cube_data copies gauss pos text start stop n rms k noise flags f0 = create_IQU_cube_data copies gauss pos text' start stop n rms k noise flags f0.
Proof. exact @cube_ignores. Qed.
Print Assumptions C47_shape_refuted.
Example C47_shape_nonvacuous : same_but_shape (Thin (mk_head 5 6 7 8 9 1 0) [mk_thin 1 0 0 0]) (Thin (mk_head 5 6 0 0 0 1 0) [mk_thin 1 0 0 0]).
Proof. cbn. auto 6. Qed.


(** C67. Every voxel of the cubes, if the copy of an image has pixels of its own. *)
Theorem C67_cubes : forall (gauss : nat -> nat -> nat -> nat -> R) (pos : R -> R -> R * R) (start stop : R) (n : nat) (rms : R) (k : sky) (noise : list (option R)) (flags : list (R * R)) (f0 : R) (w : nat -> R),
  (2 <= n)%nat -> 0 < start -> 0 < stop -> 0 <= rms -> 0 < f0 -> 0 < k_pix k -> 0 < k_bmin k -> 0 < k_bmaj k ->
  (forall c, (c < n)%nat -> ~ flagged flags (channel start stop n c) -> nth c noise None = Some (w c)) ->
  forall text rows es zs, catalogue text rows -> Forall2 row_says (map (map num_value) rows) es ->
    (forall e, In e es -> head_of e <> None -> polarised e (zs e)) ->
    exists F, create_IQU_cube_data true gauss pos text start stop n rms k noise flags f0 = POk F /\
      cu_freq F = map (channel start stop n) (seq 0 n) /\ cu_start F = start /\ cu_step F = (stop - start) / INR (n - 1) /\
      cube_axes k n (cu_I F) /\ cube_axes k n (cu_Q F) /\ cube_axes k n (cu_U F) /\
      forall c y x, (c < n)%nat -> (y < k_ny k)%nat -> (x < k_nx k)%nat ->
        let f := channel start stop n c in
        let total p := Some (sky_stokes k pos es zs f0 f p y x + rms * gauss p c y x * w c) in
        (~ flagged flags f -> cell (cu_I F) c y x = total 0%nat /\ cell (cu_Q F) c y x = total 1%nat /\ cell (cu_U F) c y x = total 2%nat) /\
        (flagged flags f -> (exists e, In e es /\ head_of e <> None) -> cell (cu_I F) c y x = None /\ cell (cu_Q F) c y x = None /\ cell (cu_U F) c y x = None).
Proof. exact @cube_voxels. Qed.
Print Assumptions C67_cubes.
Example C67_cubes_nonvacuous : exists zs, forall e, In e [u_entry] -> head_of e <> None -> polarised e (zs e).
Proof. eexists (fun _ _ => _). intros e [<-|[]] _ l2. reflexivity. Qed.


(** C67. A catalogue, its cubes, and the maps of the synthesis tool: the depth of the catalogue in every pixel. *)
Theorem C67_catalogue_to_map : forall (gauss : nat -> nat -> nat -> nat -> R) (pos : R -> R -> R * R) (start stop : R) (n : nat) (k : sky) (noise : list (option R)) (flags : list (R * R)) (f0 : R),
  (2 <= n)%nat -> 0 < start < stop -> 0 < f0 -> 0 < k_pix k -> 0 < k_bmin k -> 0 < k_bmaj k -> (2 <= k_nx k)%nat -> (2 <= k_ny k)%nat ->
  (forall c, (c < n)%nat -> nth c noise None <> None) ->
  forall text rows es h t, catalogue text rows -> Forall2 row_says (map (map num_value) rows) es -> only_source es h t ->
    0 < h_flux h -> 0 < t_p t ->
    exists F, create_IQU_cube_data true gauss pos text start stop n 0 k noise flags f0 = POk F /\
      forall o fit, good_opts3 o (cu_freq F) -> g_not_rmsynth o = false ->
      exists out f phi mx rm, rmsynth3d fit (cu_Q F) (cu_U F) (Some (cu_I F)) (cu_freq F) None o = POk out /\ o_fdf out = Some f /\ o_peak out = Some (mx, rm) /\ axis_gives (f_axis f) phi /\
        forall y x i0, (y < k_ny k)%nat -> (x < k_nx k)%nat -> In (t_RM t) phi ->
          (exists c1 c2, (c1 < n)%nat /\ (c2 < n)%nat /\ ~ flagged flags (channel start stop n c1) /\ ~ flagged flags (channel start stop n c2) /\
             lsq (channel start stop n c1) <> lsq (channel start stop n c2) /\
             forall d, In d phi -> Rabs (d - t_RM t) * Rabs (lsq (channel start stop n c1) - lsq (channel start stop n c2)) < PI) ->
          let p := fun a => nth (a - 1) [x; y; 0; 0]%nat 0%nat in
          ref_stokes3 (cu_freq F) (f_lamsq0 f) (Some (cu_I F)) 3 p (Some i0) ->
          0 < i0 /\ at_nd None rm [0; 0; y; x]%nat = Some (t_RM t) /\ at_nd None mx [0; 0; y; x]%nat = Some (i0 * t_p t) /\
          forall j, (j < List.length phi)%nat -> nth j phi 0 = t_RM t -> vox None (f_image f) (at_chan p 3 j) = Some (RtoC (i0 * t_p t) * cis (2 * (rad (t_psi t) + t_RM t * f_lamsq0 f)))%C.
Proof. exact @catalogue_to_map. Qed.
Print Assumptions C67_catalogue_to_map.
Example C67_map_nonvacuous : forall gauss pos fit, exists F out f mx rm, create_IQU_cube_data true gauss pos (line1 u_row) (u_c / 2) u_c 2 0 u_sky (ones 2) [] (u_c / 2) = POk F /\
  rmsynth3d fit (cu_Q F) (cu_U F) (Some (cu_I F)) (cu_freq F) None (x_opts (1 / 2)) = POk out /\ o_fdf out = Some f /\ o_peak out = Some (mx, rm) /\
  forall y x, (y < 3)%nat -> (x < 2)%nat -> at_nd None rm [0; 0; y; x]%nat = Some 0.
Proof. exact u_map. Qed.


(** C67. A catalogue, one of its files, and the 1-D tool: depth, amplitude and angle of the catalogue. *)
Theorem C67_catalogue_to_spectrum : forall (gauss : nat -> nat -> nat -> R) (start stop : R) (n : nat) (noise : list (option R)) (freq0 : option R),
  (2 <= n)%nat -> 0 < start < stop -> (forall v, freq0 = Some v -> 0 < v) -> (forall k, (k < n)%nat -> nth k noise None <> None) ->
  forall text rows es i h t, catalogue text rows -> Forall2 row_says (map (map num_value) rows) es ->
    nth_error es i = Some (Thin h [t]) -> t_var t = 0 -> 0 < h_flux h -> 0 < t_p t ->
    let f0 := match freq0 with Some f => f | None => start end in
    exists files f rs d, create_IQU_ascii_data gauss text start stop n 0 noise [] freq0 = POk files /\ In f files /\ a_number f = S i /\ a_rows f = Some rs /\ readFile rs = POk d /\
      forall mpfit fit o out, good_opts mpfit o n -> o_variance o = false -> run_rmsynth mpfit fit d o = POk out ->
        let freq := map (channel start stop n) (seq 0 n) in
        r_freq out = freq /\
        ((forall j, (j < n)%nat -> stokes_model o (r_fit out) freq j = source_I h f0 (channel start stop n j)) ->
         forall hh step k j1 j2 I0, odd_centred (r_phi out) hh step -> 0 < step -> (0 < k < List.length (r_phi out) - 1)%nat -> nth k (r_phi out) 0 = t_RM t ->
           (j1 < n)%nat -> (j2 < n)%nat -> j1 <> j2 ->
           (forall g, In g (r_phi out) -> Rabs (g - t_RM t) * Rabs (lsq (channel start stop n j1) - lsq (channel start stop n j2)) < PI) ->
           r_Ifreq0 out = Some I0 -> 0 < I0 ->
           phiPeakPIfit (r_parms out) = Some (t_RM t) /\ ampPeakPIfit (r_parms out) = Some (I0 * t_p t) /\
           exists a0, polAngle0Fit_deg (r_parms out) = Some a0 /\ 0 <= a0 < 180 /\ same_angle a0 (t_psi t)).
Proof. exact @catalogue_to_spectrum. Qed.
Print Assumptions C67_catalogue_to_spectrum.
Example C67_spectrum_nonvacuous : exists files f rs d out, create_IQU_ascii_data (fun _ _ _ => 0) (line1 u_row) (u_c / 2) u_c 3 0 (ones 3) [] None = POk files /\ In f files /\ a_number f = 1%nat /\ a_rows f = Some rs /\ readFile rs = POk d /\
  run_rmsynth e_mpfit e_fit d u_opts = POk out /\
  (forall j, (j < 3)%nat -> stokes_model u_opts (r_fit out) (map (channel (u_c / 2) u_c 3) (seq 0 3)) j = source_I unit_head (u_c / 2) (channel (u_c / 2) u_c 3 j)) /\
  phiPeakPIfit (r_parms out) = Some 0.
Proof. exact u_run. Qed.


(** C67. Finding: without a source a flagged channel holds noise. *)
Theorem C67_empty_refuted : forall gauss pos start stop n rms k noise flags f0 text rows es, (2 <= n)%nat -> 0 <= rms -> catalogue text rows -> Forall2 row_says (map (map num_value) rows) es ->
  (forall e, In e es -> e = Else) ->
  exists F, create_IQU_cube_data true gauss pos text start stop n rms k noise flags f0 = POk F /\
    forall c y x v, (c < n)%nat -> (y < k_ny k)%nat -> (x < k_nx k)%nat -> nth c noise None = Some v -> cell (cu_I F) c y x = Some (rms * gauss 0%nat c y x * v).
Proof. exact @empty_sky. Qed.
Print Assumptions C67_empty_refuted.


(** C67. Finding, if the copy of an image shares its pixels: the three cubes are one. *)
Theorem C67_shared_refuted : forall (gauss : nat -> nat -> nat -> nat -> R) (pos : R -> R -> R * R) (start stop : R) (n : nat) (rms : R) (k : sky) (noise : list (option R)) (flags : list (R * R)) (f0 : R),
  (2 <= n)%nat -> forall text F, create_IQU_cube_data false gauss pos text start stop n rms k noise flags f0 = POk F -> cu_Q F = cu_I F /\ cu_U F = cu_I F.
Proof. exact @cube_shared. Qed.
Print Assumptions C67_shared_refuted.

