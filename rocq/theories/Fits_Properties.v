(** FITS helpers: claim C82. *)
From Coq Require Import Reals List Arith ZArith Lia Lra Bool Permutation.
Set Warnings "-ambiguous-paths".
From Coquelicot Require Import Coquelicot.
From Verif Require Import PyRes PyStr PyList NdArray NdIndex Setup_Model Measure_Model Synth_Model Icube_Model Header_Model Header_Spec Header_Proofs Fits_Model Fits_Spec Fits_Proofs Fits_Beam Fits_Sub Fits_Refute.
From Coq Require Import String Ascii.
Local Notation length := List.length.
Import ListNotations.
Local Open Scope R_scope.

Local Open Scope nat_scope.

(** C82. Cards that do not belong to a removed axis stay, in their order. *)
Theorem C82_strip_keeps : forall h m f h' (keep : str -> bool), strip_header h m f = POk h' ->
  (forall k, keep k = true -> untouched m k) ->
  filter (fun c => keep (fst c)) h' = filter (fun c => keep (fst c)) h.
Proof. exact @strip_keeps. Qed.
Print Assumptions C82_strip_keeps.
Example C82_strip_keeps_nonvacuous : (exists h', strip_header e_head3 2 5 = POk h') /\ untouched 2 (s "OBSERVER").
Proof.
  split; [eexists; vm_compute; reflexivity|]. split; [discriminate|]. split; [discriminate|]. split.
  - intros i _ (w & Hw & E). repeat (destruct Hw as [<-|Hw]; [discriminate|]). destruct Hw.
  - intros i j _ E. discriminate.
Qed.


(** C82. No keyword of a removed axis stays. *)
Theorem C82_strip_removes : forall h m f h' n, strip_header h m f = POk h' -> hint (s "NAXIS") h = POk (Z.of_nat n) ->
  (forall k i, axis_kw k i -> m < i <= Nat.max n f -> cards k h' = []) /\
  (forall k i j, pc_term k i j -> 1 <= i <= Nat.max n f -> 1 <= j <= Nat.max n f -> m < i \/ m < j -> cards k h' = []).
Proof. exact @strip_removes. Qed.
Print Assumptions C82_strip_removes.
Example C82_strip_removes_nonvacuous : exists h', strip_header e_head3 2 5 = POk h' /\ hint (s "NAXIS") e_head3 = POk (Z.of_nat 3) /\ axis_kw (s "CRVAL3") 3 /\ cards (s "CRVAL3") e_head3 <> [] /\ cards (s "CRVAL3") h' = [].
Proof.
  eexists. split; [vm_compute; reflexivity|]. split; [reflexivity|]. split; [exists "CRVAL"%string; split; [cbn; auto|reflexivity]|].
  split; [vm_compute; discriminate|reflexivity].
Qed.


(** C82. When the header can be stripped, and the numbers of axes then. *)
Theorem C82_strip_defined : forall h m f n, hget (s "NAXIS") h = Some (HInt (Z.of_nat n)) ->
  (m <= Nat.max n f <-> exists h', strip_header h m f = POk h') /\
  (forall h', strip_header h m f = POk h' -> hget (s "NAXIS") h' = Some (HInt (Z.of_nat m)) /\ hget (s "WCSAXES") h' = Some (HInt (Z.of_nat m))).
Proof. exact @strip_defined. Qed.
Print Assumptions C82_strip_defined.


(** C82. The data kept. *)
Theorem C82_strip_data : forall {A} (d : A) a m b, strip_data d a m = POk b ->
  let e := List.length (shape a) - m in
  m <= List.length (shape a) <= m + 3 /\ shape b = skipn e (shape a) /\
  forall idx, valid (shape b) idx -> at_nd d b idx = at_nd d a (repeat 0 e ++ idx)%list.
Proof. exact @strip_data_spec. Qed.
Print Assumptions C82_strip_data.
Example C82_strip_data_nonvacuous : strip_data 0%nat (mk_nd [2; 2; 1]%nat [5; 6; 7; 8]%nat) 2 = POk (mk_nd [2; 1]%nat [5; 6]%nat).
Proof. vm_compute. reflexivity. Qed.


(** C82. When the data can be stripped. *)
Theorem C82_strip_data_defined : forall {A} (d : A) a m, m <= List.length (shape a) <= m + 3 -> List.Forall (fun n => 0 < n) (firstn (List.length (shape a) - m) (shape a)) ->
  exists b, strip_data d a m = POk b.
Proof. exact @strip_data_defined. Qed.
Print Assumptions C82_strip_data_defined.


(** C82. The lines of history with a beam, and the words taken. *)
Theorem C82_beam_line : forall line b m p, beam_line line = Some (b, m, p) <-> beam_text line b m p.
Proof. exact @beam_line_spec. Qed.
Print Assumptions C82_beam_line.
Example C82_beam_line_nonvacuous : beam_line (s "AIPS   CLEAN BMAJ=  1.2E-03 BMIN=  1.0E-03 BPA=  45.00 and more") = Some (s "1.2E-03", s "1.0E-03", s "45.00") /\
  beam_line (s "AIPS   CLEAN NITER=  1000") = None.
Proof. split; vm_compute; reflexivity. Qed.


(** C82. Where the beam comes from. *)
Theorem C82_beam : forall float hist h x y z,
  (forall a b, onum (s "BMAJ") h = Some a -> onum (s "BMIN") h = Some b ->
     get_beam_from_header float hist h = (Some a, Some b, onum (s "BPA") h)) /\
  (onum (s "BMAJ") h = None \/ onum (s "BMIN") h = None ->
   (hist = None \/ (exists l, hist = Some l /\ List.Forall (fun t => forall b m p, ~ beam_text t b m p) l) ->
      get_beam_from_header float hist h = (onum (s "BMAJ") h, onum (s "BMIN") h, onum (s "BPA") h)) /\
   (forall pre t post b m p, hist = Some (pre ++ t :: post)%list -> beam_text t b m p ->
      List.Forall (fun t => forall b m p, ~ beam_text t b m p) post -> float b = Some x -> float m = Some y -> float p = Some z ->
      get_beam_from_header float hist h = (Some x, Some y, Some z))).
Proof. exact @beam_found. Qed.
Print Assumptions C82_beam.


(** C82. Lines with words that are not numbers. *)
Theorem C82_beam_unreadable : forall float pre t post b m p h,
  onum (s "BMAJ") h = None \/ onum (s "BMIN") h = None -> beam_text t b m p ->
  List.Forall (fun t => forall b m p, ~ beam_text t b m p) post ->
  let r := get_beam_from_header float (Some (pre ++ t :: post)%list) h in
  (float b = None -> r = (onum (s "BMAJ") h, onum (s "BMIN") h, onum (s "BPA") h)) /\
  (forall x, float b = Some x -> float m = None -> r = (Some x, onum (s "BMIN") h, onum (s "BPA") h)) /\
  (forall x y, float b = Some x -> float m = Some y -> float p = None -> r = (Some x, Some y, onum (s "BPA") h)).
Proof. exact @beam_unreadable. Qed.
Print Assumptions C82_beam_unreadable.
Example C82_beam_unreadable_nonvacuous : exists b m p, beam_text (s "AIPS CLEAN BMAJ= 2 BMIN= x BPA= 4") b m p /\ onum (s "BMAJ") e_head3 = None /\
  get_beam_from_header (fun w => if str_eqb w (s "2") then Some 2%R else None) (Some [s "AIPS CLEAN BMAJ= 2 BMIN= x BPA= 4"]%string) e_head3 = (Some 2%R, None, None).
Proof.
  eexists _, _, _. split; [apply beam_line_spec; vm_compute; reflexivity|]. split; [reflexivity|]. reflexivity.
Qed.


Local Open Scope R_scope.

(** C82. The area of the beam in pixels. *)
Theorem C82_beam_area : forall a b p, p <> 0 ->
  get_beam_area a b p = POk (PI * a * b / (4 * ln 2 * p ^ 2)).
Proof. exact @beam_area. Qed.
Print Assumptions C82_beam_area.


Local Open Scope nat_scope.

(** C82. The pixels of a cut-out. *)
Theorem C82_cut_pixels : forall WCS h data x y radius zlo zhi wrap sub h' w pre ny nx,
  get_subfits WCS (Some (h, data)) x y radius zlo zhi wrap = POk (Some (sub, h')) ->
  mkWCSDict WCS h wrap 5 = POk w -> shape data = (pre ++ [ny; nx])%list ->
  hint (s "NAXIS1") h = POk (Z.of_nat nx) -> hint (s "NAXIS2") h = POk (Z.of_nat ny) ->
  let at_ := w2p (WCS (d_head2 w)) (if wrap then (if Rlt_dec 180 x then x - 360 else x)%R else x, y) in
  exists cx cy rx ry, nearest (fst at_) cx /\ nearest (snd at_) cy /\ covers radius (Rabs (d_xdelt w)) rx /\ covers radius (Rabs (d_ydelt w)) ry /\
    let x0 := Z.max (cx - rx) 0 in let y0 := Z.max (cy - ry) 0 in
    (exists c1 c2, hnum (s "CRPIX1") h = POk c1 /\ hnum (s "CRPIX2") h = POk c2 /\
       hget (s "CRPIX1") h' = Some (HNum (c1 - IZR x0)) /\ hget (s "CRPIX2") h' = Some (HNum (c2 - IZR y0))) /\
    ((-1 <= cx + rx)%Z -> (-1 <= cy + ry)%Z -> exists my mx, shape sub = (pre ++ [my; mx])%list /\
      (forall p, (0 <= p < Z.of_nat nx /\ Z.abs (p - cx) <= rx)%Z <-> exists i, i < mx /\ p = (x0 + Z.of_nat i)%Z) /\
      (forall p, (0 <= p < Z.of_nat ny /\ Z.abs (p - cy) <= ry)%Z <-> exists j, j < my /\ p = (y0 + Z.of_nat j)%Z) /\
      (forall p j i, valid pre p -> j < my -> i < mx ->
         at_nd None sub (p ++ [j; i])%list = at_nd None data (p ++ [Z.to_nat (y0 + Z.of_nat j); Z.to_nat (x0 + Z.of_nat i)])%list)).
Proof. exact @subfits_pixels. Qed.
Print Assumptions C82_cut_pixels.
Example C82_cut_pixels_nonvacuous : exists sub h' w, get_subfits e_wcs (Some (e_head2, e_data)) (IZR 8) (IZR 1 + 1 / 2)%R (IZR 2) None None false = POk (Some (sub, h')) /\
  mkWCSDict e_wcs e_head2 false 5 = POk w /\ shape e_data = ([] ++ [3; 10])%list%nat /\ shape sub = [3; 4]%nat.
Proof.
  destruct e_dict as (w & E & _). destruct (e_cut e_data 8 1 2 eq_refl) as (h' & G & _).
  eexists _, h', w. split; [exact G|]. split; [exact E|]. split; reflexivity.
Qed.


(** C82. The header of a cut-out. *)
Theorem C82_cut_header : forall WCS h data x y radius zlo zhi wrap sub h',
  get_subfits WCS (Some (h, data)) x y radius zlo zhi wrap = POk (Some (sub, h')) ->
  (forall keep : str -> bool, (forall k, keep k = true -> ~ In k (map s ["CRPIX1"; "CRPIX2"; "DATAMIN"; "DATAMAX"; "NAXIS1"; "NAXIS2"; "NAXIS3"]%string)) ->
     filter (fun c => keep (fst c)) h' = filter (fun c => keep (fst c)) h) /\
  forall pre my mx v, shape sub = (pre ++ [my; mx])%list -> In (Some v) (flat sub) ->
    hget (s "NAXIS1") h' = Some (HInt (Z.of_nat mx)) /\ hget (s "NAXIS2") h' = Some (HInt (Z.of_nat my)) /\
    (forall q n, pre = (q ++ [n])%list -> hget (s "NAXIS3") h' = Some (HInt (Z.of_nat n))) /\
    exists lo hi, hget (s "DATAMIN") h' = Some (HNum lo) /\ hget (s "DATAMAX") h' = Some (HNum hi) /\
      In (Some lo) (flat sub) /\ In (Some hi) (flat sub) /\ forall u, In (Some u) (flat sub) -> (lo <= u <= hi)%R.
Proof. exact @subfits_header. Qed.
Print Assumptions C82_cut_header.


(** C82. When there is a cut-out. *)
Theorem C82_cut_defined : forall WCS h data x y radius zlo zhi wrap w c1 c2,
  mkWCSDict WCS h wrap 5 = POk w -> d_xdelt w <> 0%R -> d_ydelt w <> 0%R -> (zlo = None \/ zhi = None) ->
  hnum (s "CRPIX1") h = POk c1 -> hnum (s "CRPIX2") h = POk c2 ->
  (2 <= List.length (shape data) <= 4 <-> exists sub h', get_subfits WCS (Some (h, data)) x y radius zlo zhi wrap = POk (Some (sub, h'))).
Proof. exact @subfits_defined. Qed.
Print Assumptions C82_cut_defined.


Local Open Scope R_scope.

(** C82. The limits of the image in world coordinates. *)
Theorem C82_bounds : forall WCS h wrap f d n, mkWCSDict WCS h wrap f = POk d -> hint (s "NAXIS") h = POk n ->
  let W2 := WCS (d_head2 d) in
  (forall p, In p (foot W2) -> fst (d_y d) <= snd p <= snd (d_y d) /\ (wrap = false -> fst (d_x d) <= fst p <= snd (d_x d))) /\
  (foot W2 <> [] -> (exists p, In p (foot W2) /\ snd p = fst (d_y d)) /\ (exists p, In p (foot W2) /\ snd p = snd (d_y d)) /\
     (wrap = false -> (exists p, In p (foot W2) /\ fst p = fst (d_x d)) /\ exists p, In p (foot W2) /\ fst p = snd (d_x d))) /\
  d_pixscale d = Rabs (d_xdelt d) /\
  ((n < 3)%Z -> d_z d = None) /\
  ((3 <= n)%Z -> exists h3 nx ny nz lo hi, strip_header h 3 f = POk h3 /\ hint (s "NAXIS1") h = POk nx /\ hint (s "NAXIS2") h = POk ny /\ hint (s "NAXIS3") h = POk nz /\
     d_z d = Some (lo, hi) /\
     let z k := snd (p2w3 (WCS h3) (IZR (nx + 1) / 2, IZR (ny + 1) / 2, k)) in
     (lo = z 1 /\ hi = z (IZR nz) \/ lo = z (IZR nz) /\ hi = z 1) /\ lo <= hi).
Proof. exact @dict_bounds. Qed.
Print Assumptions C82_bounds.


(** C82. The centre of the image and its coordinates. *)
Theorem C82_centre : forall WCS h wrap f d n, mkWCSDict WCS h wrap f = POk d -> hint (s "NAXIS") h = POk n ->
  (lngtyp (WCS (d_head2 d)) = s "RA" -> d_type d = s "EQU") /\
  (lngtyp (WCS (d_head2 d)) = s "GLON" -> d_type d = s "GAL") /\
  (lngtyp (WCS (d_head2 d)) <> s "RA" -> lngtyp (WCS (d_head2 d)) <> s "GLON" -> d_type d = []) /\
  exists nx ny, hint (s "NAXIS1") h = POk nx /\ hint (s "NAXIS2") h = POk ny /\
    ((n < 3)%Z -> exists x y, p2w2 (WCS (d_head2 d)) (IZR (nx + 1) / 2, IZR (ny + 1) / 2) = (x, y) /\
       d_cent d = (if wrap then (if Rlt_dec 180 x then x - 360 else x) else x, y) /\ d_zcent d = None) /\
    ((3 <= n)%Z -> exists h3 nz x y z, strip_header h 3 f = POk h3 /\ hint (s "NAXIS3") h = POk nz /\
       p2w3 (WCS h3) (IZR (nx + 1) / 2, IZR (ny + 1) / 2, IZR (nz + 1) / 2) = (x, y, z) /\
       d_cent d = (if wrap then (if Rlt_dec 180 x then x - 360 else x) else x, y) /\ d_zcent d = Some z).
Proof. exact @dict_centre. Qed.
Print Assumptions C82_centre.


(** C82. The step per pixel for a linear conversion. *)
Theorem C82_steps : forall WCS h wrap f d n, mkWCSDict WCS h wrap f = POk d -> hint (s "NAXIS") h = POk n ->
  ((n < 3)%Z -> forall a b x0 y0 dx dy, crpix2 (WCS (d_head2 d)) = (a, b) ->
     (forall x y, p2w2 (WCS (d_head2 d)) (x, y) = (x0 + (x - a) * dx, y0 + (y - b) * dy)) ->
     d_xdelt d = - dx * cos ((y0 - dy / 2) * PI / 180) /\ d_ydelt d = - dy) /\
  ((3 <= n)%Z -> forall h3 a b c x0 y0 z0 dx dy dz, strip_header h 3 f = POk h3 -> crpix3 (WCS h3) = (a, b, c) ->
     (forall x y z, p2w3 (WCS h3) (x, y, z) = (x0 + (x - a) * dx, y0 + (y - b) * dy, z0 + (z - c) * dz)) ->
     d_xdelt d = dx * cos ((y0 + dy / 2) * PI / 180) /\ d_ydelt d = dy /\ d_zdelt d = Some dz).
Proof. exact @dict_steps. Qed.
Print Assumptions C82_steps.
Example C82_steps_nonvacuous : exists d, mkWCSDict e_wcs e_head2 false 5 = POk d /\ hint (s "NAXIS") e_head2 = POk 2%Z /\ crpix2 (e_wcs (d_head2 d)) = (1, 1) /\
  forall x y, p2w2 (e_wcs (d_head2 d)) (x, y) = (0 + (x - 1) * 1, 1 / 2 + (y - 1) * 1).
Proof. destruct e_dict as (d & E & _). exists d. split; [exact E|]. split; [reflexivity|]. split; [reflexivity|]. intros. cbn [p2w2 e_wcs fst snd]. f_equal; lra. Qed.


Local Open Scope nat_scope.

(** C82. Refuted: terms of the rotation of removed axes stay. *)
Theorem C82_strip_terms_refuted : ~ (forall h m f h' k i j, strip_header h m f = POk h' -> m < i \/ m < j -> i <= 3 -> j <= 3 -> std_term k i j -> cards k h' = []).
Proof. exact @strip_terms_refuted. Qed.
Print Assumptions C82_strip_terms_refuted.


(** C82. Refuted: a header with too few axes is not told. *)
Theorem C82_strip_too_few_refuted : ~ (forall h m f h' n, hint (s "NAXIS") h = POk n -> strip_header h m f = POk h' -> (Z.of_nat m <= n)%Z).
Proof. exact @strip_too_few_refuted. Qed.
Print Assumptions C82_strip_too_few_refuted.


Local Open Scope R_scope.

(** C82. Refuted: a range of channels always raises. *)
Theorem C82_channels_refuted : forall WCS h data x y radius a b wrap, a <> 0%R -> b <> 0%R ->
  get_subfits WCS (Some (h, data)) x y radius (Some a) (Some b) wrap = PErr.
Proof. exact @subfits_channels. Qed.
Print Assumptions C82_channels_refuted.


(** C82. Refuted: a limit of zero counts as none. *)
Theorem C82_zero_limit_refuted : ~ (forall WCS h data x y radius zlo zhi r, get_subfits WCS (Some (h, data)) x y radius (Some zlo) (Some zhi) false = POk (Some r) -> False).
Proof. exact @subfits_zero_limit_refuted. Qed.
Print Assumptions C82_zero_limit_refuted.


(** C82. Refuted: a position far outside gives pixels far from it. *)
Theorem C82_outside_refuted : ~ (forall WCS h data x y radius sub h' w nx ny,
  get_subfits WCS (Some (h, data)) x y radius None None false = POk (Some (sub, h')) -> mkWCSDict WCS h false 5 = POk w ->
  shape data = [ny; nx] -> hint (s "NAXIS1") h = POk (Z.of_nat nx) -> hint (s "NAXIS2") h = POk (Z.of_nat ny) ->
  forall cx rx, nearest (fst (w2p (WCS (d_head2 w)) (x, y))) cx -> covers radius (Rabs (d_xdelt w)) rx ->
  (nth 1 (shape sub) 0%nat = 0%nat \/ exists p, (0 <= p < Z.of_nat nx /\ Z.abs (p - cx) <= rx)%Z)).
Proof. exact @subfits_outside_refuted. Qed.
Print Assumptions C82_outside_refuted.


(** C82. Refuted: a cut-out without samples keeps the old lengths. *)
Theorem C82_blank_refuted : ~ (forall WCS h data x y radius sub h' my mx,
  get_subfits WCS (Some (h, data)) x y radius None None false = POk (Some (sub, h')) -> shape sub = [my; mx] ->
  hget (s "NAXIS1") h' = Some (HInt (Z.of_nat mx))).
Proof. exact @subfits_blank_refuted. Qed.
Print Assumptions C82_blank_refuted.


(** C82. Refuted: the step where longitudes start over. *)
Theorem C82_turn_refuted : ~ (forall WCS h d step, mkWCSDict WCS h false 5 = POk d ->
  (forall x y, exists k : Z, fst (p2w2 (WCS (d_head2 d)) (x + 1, y)) - fst (p2w2 (WCS (d_head2 d)) (x, y)) = step + 360 * IZR k) -> 0 < step < 180 ->
  Rabs (d_xdelt d) <= step).
Proof. exact @dict_turn_refuted. Qed.
Print Assumptions C82_turn_refuted.

