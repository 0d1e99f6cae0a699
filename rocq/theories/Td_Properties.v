(** The simulated cubes of the tests: claim C89. *)
From Coq Require Import Reals List Arith ZArith Lia Lra Bool Permutation.
Set Warnings "-ambiguous-paths".
From Coquelicot Require Import Coquelicot.
From Verif Require Import CBase PyRes PyStr NdArray NdIndex Synth_Spec Td_Model Td_Spec Td_Beam Td_Proofs Td_Main Td_Final.
From Coq Require Import String Ascii.
Local Notation length := List.length.
Import ListNotations.
Local Open Scope R_scope.

(** C89. Spectra of Faraday-thin sources: each of the arguments may be one value or one for each source; axes of length one are dropped. *)
Theorem C89_thin : forall freq RM pol angle m, one_or m RM -> one_or m pol -> one_or m angle -> (length RM = m \/ length angle = m \/ length pol = m) ->
  exists r, thin_polarization freq RM pol angle = POk r /\
    shape r = filter (fun d => negb (d =? 1)%nat) [m; length freq] /\ length (flat r) = (m * length freq)%nat /\
    forall k j, (k < m)%nat -> (j < length freq)%nat -> nth j freq 0 <> 0 ->
      nth (k * length freq + j) (flat r) None = Some (thin (pick pol k) (deg (pick angle k)) (pick RM k) (lam2 (nth j freq 0))).
Proof. exact @thin_many. Qed.
Print Assumptions C89_thin.
Example C89_thin_nonvacuous : one_or 2 [10; 20] /\ one_or 2 [1] /\ one_or 2 [0; 90] /\ length [10; 20] = 2%nat.
Proof. unfold one_or. simpl. auto. Qed.


(** C89. Their modulus is the polarised intensity. *)
Theorem C89_thin_mod : forall p psi RM l2, Cmod (thin p psi RM l2) = Rabs p.
Proof. exact @thin_mod. Qed.
Print Assumptions C89_thin_mod.


(** C89. Lists of different lengths raise. *)
Theorem C89_thin_mismatch : forall freq RM pol angle, length RM <> length angle -> length RM <> 1%nat -> length angle <> 1%nat ->
  thin_polarization freq RM pol angle = PErr.
Proof. exact @thin_mismatch. Qed.
Print Assumptions C89_thin_mismatch.
Example C89_thin_mismatch_nonvacuous : length [1; 2] <> length [1; 2; 3] /\ length [1; 2] <> 1%nat /\ length [1; 2; 3] <> 1%nat.
Proof. simpl. lia. Qed.


(** C89. The cubes can be made if there is a pixel and there are two channels. *)
Theorem C89_runs : forall normal freq n, (exists r, create_3D_data normal freq n = POk r) <-> (1 <= n)%nat /\ (2 <= length freq)%nat.
Proof. exact @create_runs. Qed.
Print Assumptions C89_runs.


(** C89. Images of 69 pixels or more: source, diffuse emission and noise, at the position, depth, angle and intensity the text file names. The source is a Gaussian that wraps around the edges. The noise is the random draws blurred with the same Gaussian, and its deviation in Q is the one in the text. *)
Theorem C89_cubes : forall normal freq n, (69 <= n)%nat -> (2 <= length freq)%nat -> List.Forall (fun f => f <> 0) freq ->
  let b0 := blur n (fun x y c => normal 0%nat [x; y; c]) in
  let b1 := blur n (fun x y c => normal 1%nat [x; y; c]) in
  (exists v w, In v (voxels n (length freq) b0) /\ In w (voxels n (length freq) b0) /\ v <> w) ->
  exists r s, create_3D_data normal freq n = POk r /\ 0 < s /\
    holds freq n (fun x y => beam n x (n / 4) * beam n y (n / 4)) (fun x y c => s * b0 x y c) (fun x y c => s * b1 x y c) r /\
    dev (voxels n (length freq) (fun x y c => s * b0 x y c)) = 1 / 10.
Proof. exact @big_image. Qed.
Print Assumptions C89_cubes.
Example C89_cubes_nonvacuous : exists normal, let b0 := blur 100 (fun x y c => normal 0%nat [x; y; c]) in
  exists v w, In v (voxels 100 (length [1; 2; 3]) b0) /\ In w (voxels 100 (length [1; 2; 3]) b0) /\ v <> w.
Proof. exists one_draw. apply one_varies; simpl; lia. Qed.


(** C89. The source is brightest at the named pixel, and nowhere else. *)
Theorem C89_peak : forall n x y, (69 <= n)%nat -> (x < n)%nat -> (y < n)%nat ->
  0 <= beam n x (n / 4) * beam n y (n / 4) <= 1 /\ (beam n x (n / 4) * beam n y (n / 4) = 1 <-> x = (n / 4)%nat /\ y = (n / 4)%nat).
Proof. exact @source_peak. Qed.
Print Assumptions C89_peak.


(** C89. Images of any size: the brightest pixel of the source has the named intensity. *)
Theorem C89_any_size : forall normal freq n, (1 <= n)%nat -> (2 <= length freq)%nat -> List.Forall (fun f => f <> 0) freq ->
  exists b, (forall x y, (x < n)%nat -> (y < n)%nat -> 0 <= b x y <= 1) /\
    (exists x y, (x < n)%nat /\ (y < n)%nat /\ b x y = 1) /\
    exists r, create_3D_data normal freq n = POk r /\
      ((List.Forall (fun v => v = None) (flat (q_file r)) /\ List.Forall (fun v => v = None) (flat (u_file r))) \/
       exists nq nu, holds freq n b nq nu r /\ dev (voxels n (length freq) nq) = 1 / 10).
Proof. exact @any_size. Qed.
Print Assumptions C89_any_size.


(** C89. Without noise there is nothing: if all draws for Q are zero, both cubes are NaN. *)
Theorem C89_no_noise : forall normal freq n, (1 <= n)%nat -> (2 <= length freq)%nat -> List.Forall (fun f => f <> 0) freq ->
  (forall idx, normal 0%nat idx = 0) ->
  exists r, create_3D_data normal freq n = POk r /\ List.Forall (fun v => v = None) (flat (q_file r)) /\ List.Forall (fun v => v = None) (flat (u_file r)).
Proof. exact @any_zero. Qed.
Print Assumptions C89_no_noise.


(** C89. The deviation of the noise in U depends on the draws. *)
Theorem C89_u_noise : forall n nf b0 b1 s, (1 <= n)%nat -> (1 <= nf)%nat -> 0 < s -> dev (voxels n nf (fun x y c => s * b0 x y c)) = 1 / 10 ->
  dev (voxels n nf (fun x y c => s * b1 x y c)) = 1 / 10 * (dev (voxels n nf b1) / dev (voxels n nf b0)).
Proof. exact @u_noise. Qed.
Print Assumptions C89_u_noise.
Example C89_u_noise_nonvacuous : exists s, 0 < s /\ dev (voxels 69 (length [1; 2]) (fun x y c => s * blur 69 (fun x y c => one_draw 0 [x; y; c]) x y c)) = 1 / 10.
Proof.
  destruct (C89_cubes one_draw [1; 2] 69) as (r & s & _ & Hs & _ & D); [lia|simpl; lia|repeat constructor; lra|apply one_varies; simpl; lia|].
  exists s. auto.
Qed.


(** C89. Refuted: the noise in U has the deviation named in the text. *)
Theorem C89_u_noise_refuted : exists normal freq n r s,
  let b0 := blur n (fun x y c => normal 0%nat [x; y; c]) in
  let b1 := blur n (fun x y c => normal 1%nat [x; y; c]) in
  create_3D_data normal freq n = POk r /\
  holds freq n (fun x y => beam n x (n / 4) * beam n y (n / 4)) (fun x y c => s * b0 x y c) (fun x y c => s * b1 x y c) r /\
  dev (voxels n (length freq) (fun x y c => s * b0 x y c)) = 1 / 10 /\
  dev (voxels n (length freq) (fun x y c => s * b1 x y c)) = 2 / 10.
Proof. exact @u_noise_refuted. Qed.
Print Assumptions C89_u_noise_refuted.


(** C89. The axes of the header. *)
Theorem C89_header : forall normal freq n r, create_3D_data normal freq n = POk r ->
  card (S_ "NAXIS") (header r) = Some (HZ 3) /\
  card (S_ "NAXIS1") (header r) = Some (HZ (Z.of_nat n)) /\ card (S_ "NAXIS2") (header r) = Some (HZ (Z.of_nat n)) /\
  card (S_ "NAXIS3") (header r) = Some (HZ (Z.of_nat (length freq))) /\
  card (S_ "CTYPE3") (header r) = Some (HS (S_ "FREQ")) /\ card (S_ "CUNIT3") (header r) = Some (HS (S_ "Hz")) /\
  card (S_ "CRPIX3") (header r) = Some (HZ 1) /\
  card (S_ "CRVAL3") (header r) = Some (HR (nth 0 freq 0)) /\
  card (S_ "CDELT3") (header r) = Some (HR (nth 1 freq 0 - nth 0 freq 0)).
Proof. exact @header_axes. Qed.
Print Assumptions C89_header.


(** C89. For evenly spaced channels the header gives the frequency of every channel. *)
Theorem C89_axis : forall normal freq n r f0 d, create_3D_data normal freq n = POk r ->
  (forall j, (j < length freq)%nat -> nth j freq 0 = f0 + INR j * d) ->
  exists v s p, card (S_ "CRVAL3") (header r) = Some (HR v) /\ card (S_ "CDELT3") (header r) = Some (HR s) /\ card (S_ "CRPIX3") (header r) = Some (HZ p) /\
    forall k, (k < length freq)%nat -> nth k freq 0 = v + (INR k + 1 - IZR p) * s.
Proof. exact @even_header. Qed.
Print Assumptions C89_axis.
Example C89_axis_nonvacuous : (forall j, (j < length [800; 801; 802])%nat -> nth j [800; 801; 802] 0 = 800 + INR j * 1) /\
  exists r, create_3D_data one_draw [800; 801; 802] 100 = POk r.
Proof.
  split; [|apply C89_runs; simpl; lia]. intros j H. simpl in H. destruct j as [|[|[|j]]]; [simpl; lra|simpl; lra|simpl; lra|lia].
Qed.


(** C89. Refuted: for other channels it does too. *)
Theorem C89_axis_refuted : exists normal freq n r f0 d, create_3D_data normal freq n = POk r /\
  card (S_ "CRVAL3") (header r) = Some (HR f0) /\ card (S_ "CDELT3") (header r) = Some (HR d) /\
  nth 2 (freq_lines r) 0 <> f0 + 2 * d.
Proof. exact @axis_refuted. Qed.
Print Assumptions C89_axis_refuted.


(** C89. RM-synthesis of a pixel: the spread function at 200 and at 50 rad/m2, and the spectrum of the noise. *)
Theorem C89_synthesis : forall freq n b nq nu r w x y l0 phi, holds freq n b nq nu r -> (x < n)%nat -> (y < n)%nat ->
  let chs := pixel_chans (length freq) (n * n) (flat (q_file r)) (flat (u_file r)) (map lam2 freq) w (y * n + x) in
  let spread := RMSF_spec chs l0 in
  FDF_spec chs l0 phi =
    (RtoC (2 * b x y)%R * cis (2 * (deg 50 + 200 * l0))%R * spread (phi - 200)%R
     + cis (2 * (deg (- 10) + 50 * l0))%R * spread (phi - 50)%R
     + FDF_spec (noise_chans freq w (nq x y) (nu x y)) l0 phi)%C.
Proof. exact @synth_sim. Qed.
Print Assumptions C89_synthesis.


(** C89. At 200 rad/m2 the first of these has the intensity of the source. *)
Theorem C89_synthesis_peak : forall chs l0, wsum chs <> 0 -> RMSF_spec chs l0 (200 - 200) = RtoC 1.
Proof. exact @peak_synth. Qed.
Print Assumptions C89_synthesis_peak.
Example C89_synthesis_peak_nonvacuous : wsum [mk_chan 1 1 (RtoC 0); mk_chan 2 1 (RtoC 0)] <> 0.
Proof. unfold wsum, rsum. simpl. lra. Qed.


(** C89. The beam: half its height is between 10 and 11 pixels from the centre. *)
Theorem C89_beam : forall n x, (69 <= n)%nat -> (x + 11 < n)%nat -> 1 / 2 < beam n x (x + 10) < 502 / 1000 /\ beam n x (x + 11) < 1 / 2.
Proof. exact @half_width. Qed.
Print Assumptions C89_beam.

