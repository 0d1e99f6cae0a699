(** Other implementations of RM-synthesis and of the RMSF that are in the
    repository: the direct sums the test-suite keeps as a reference
    (/repo/tests/nufft_test.py:40-357), the deprecated pixel by pixel routines
    (/repo/RMutils/util_RM.py:1433-1902) and the prototypes with one weight per
    voxel (util_RM.py:2032-2334). Model only. *)
From Coq Require Import Reals List Arith ZArith Bool.
Set Warnings "-ambiguous-paths".
From Coquelicot Require Import Coquelicot.
From Verif Require Import PyRes CBase NdArray PyList Interp_Model Synth_Model Clean_Model.
Import ListNotations.
Local Open Scope R_scope.

(** Element [j, y, x] of a 3-D array in C order, and the flat list of an array
    given by an index function. *)
Definition at3 {A} (ny nx : nat) (d : A) (l : list A) (j y x : nat) : A :=
  nth ((j * ny + y) * nx + x) l d.
Definition tab3 {A} (n ny nx : nat) (f : nat -> nat -> nat -> A) : list A :=
  flat_map (fun i => tab2 ny nx (f i)) (seq 0 n).

(** All (y, x) of an image plane. *)
Definition plane_pix (ny nx : nat) : list (nat * nat) :=
  flat_map (fun y => map (fun x => (y, x)) (seq 0 nx)) (seq 0 ny).

(** nufft_test.py:96-102 and 236-239 (and util_RM.py:2092-2097): the two image
    axes after the reshape. A 2-D array [z, N] becomes [z, N, 1]. *)
Definition image_axes (sh : list nat) : nat * nat :=
  match sh with
  | [_; a; b] => (a, b)
  | [_; a] => (a, 1%nat)
  | _ => (1%nat, 1%nat)
  end.

(* ------------------------------------------------ nufft_test.py:40-158 *)

Section OldPlanes.
  Variables (n ny nx : nat) (Q U : list (option R)) (l2 phi w0 : list R) (lam0in : option R).

  (* 106 *)
  Definition o_pC (j y x : nat) : option C :=
    pcell (nth j w0 0) (at3 ny nx None Q j y x) (at3 ny nx None U j y x).
  (* 113-115 *)
  Definition o_live (j : nat) : nat :=
    length (filter (fun yx => is_some (o_pC j (fst yx) (snd yx))) (plane_pix ny nx)).
  Definition o_weff : list R :=
    map (fun j => nth j w0 0 * (if Nat.eqb (o_live j) 0 then 0 else 1)) (seq 0 n).
  (* 125-129 *)
  Definition o_lam0 : R := match lam0in with Some l => l | None => lam0_of o_weff l2 end.
  (* 133-137 *)
  Definition o_K (y x : nat) : R :=
    inv_or_0 (rsum (map (fun j => (if is_some (o_pC j y x) then 1 else 0) * nth j o_weff 0) (seq 0 n))).
  (* 140-143: direct sum at the Faraday depth phi[i] *)
  Definition o_FDF (i y x : nat) : C :=
    (RtoC (o_K y x) *
     csum (map (fun j => nan_to_num (o_pC j y x) *
                         cis (-2 * nth i phi 0 * (nth j l2 0 - o_lam0))) (seq 0 n)))%C.
  (* 147-150 *)
  Definition o_zero (y x : nat) : bool :=
    forallb (fun i => Ceqb (o_FDF i y x) (RtoC 0)) (seq 0 (length phi)).
  Definition o_cell (i y x : nat) : option C := if o_zero y x then None else Some (o_FDF i y x).
End OldPlanes.

(** nufft_test.py:40-158 [do_rmsynth_planes_old]; [None] is [return None, None]. *)
Definition do_rmsynth_planes_old (dataQ dataU : nd (option R)) (l2 phi : list R)
    (weightArr : option (list (option R))) (lam0in : option R) : option rmsynth_results :=
  let w0 := prep_weights (length l2) weightArr in                               (* 74-76 *)
  if negb (Nat.eqb (length w0) (length l2)) then None                           (* 79 *)
  else if negb (if list_eq_dec Nat.eq_dec (shape dataQ) (shape dataU) then true else false) then None
  else if negb (Nat.leb (length (shape dataQ)) 3) then None
  else if negb (Nat.eqb (nth 0 (shape dataQ) 0%nat) (length l2)) then None
  else
    let n := length l2 in
    let ny := fst (image_axes (shape dataQ)) in
    let nx := snd (image_axes (shape dataQ)) in
    Some (mk_synth
      (squeeze (mk_nd [length phi; ny; nx]
         (tab3 (length phi) ny nx (o_cell n ny nx (flat dataQ) (flat dataU) l2 phi w0 lam0in))))
      (o_lam0 n ny nx (flat dataQ) (flat dataU) l2 w0 lam0in)).

(* ----------------------------------------------- nufft_test.py:162-357 *)

Record old_rmsf := mk_oldr {
  or_cube : nd (option C); or_phi2 : list R; or_fwhm : nd (option R); or_stat : nd Z }.
Inductive old_rmsf_ret := ORNones | ORRaise | OROk (r : old_rmsf).

Section OldRmsf.
  Variables (n ny nx : nat) (msk : list bool) (l2 phi2 w0 : list R) (lam0in : option R).

  (* 253 *)
  Definition or_xySum (j : nat) : nat :=
    length (filter (fun yx => at3 ny nx false msk j (fst yx) (snd yx)) (plane_pix ny nx)).
  (* 254-255; 250: nPix = nX * nY *)
  Definition or_weff : list R :=
    map (fun j => nth j w0 0 * (if Nat.eqb (or_xySum j) (nx * ny) then 0 else 1)) (seq 0 n).
  (* 258-269 *)
  Definition or_one_d : bool :=
    forallb (fun j => orb (Nat.eqb (or_xySum j) 0) (Nat.eqb (or_xySum j) (nx * ny))) (seq 0 n).
  (* 273-275 *)
  Definition or_lam0 : option R := rmsf_lam0_of or_weff l2 lam0in.
  (* 286-288 *)
  Definition or_1d (i : nat) : option C :=
    match or_lam0 with
    | None => None
    | Some l0 =>
      if Req_EM_T (rsum or_weff) 0 then None
      else Some (RtoC (1 / rsum or_weff) *
                 csum (map (fun j => RtoC (nth j or_weff 0) *
                                     cis (-2 * nth i phi2 0 * (nth j l2 0 - l0))) (seq 0 n)))%C
    end.
  (* 313-317 *)
  Definition or_K (y x : nat) : R :=
    inv_or_0 (rsum (map (fun j => (if at3 ny nx false msk j y x then 0 else 1) * nth j or_weff 0) (seq 0 n))).
  (* 320-323; a non-finite reference wavelength makes every sum NaN *)
  Definition or_pix (i y x : nat) : option C :=
    match or_lam0 with
    | None => None
    | Some l0 =>
      Some (RtoC (or_K y x) *
            csum (map (fun j => RtoC ((if at3 ny nx false msk j y x then 0 else 1) * nth j or_weff 0) *
                                cis (-2 * nth i phi2 0 * (nth j l2 0 - l0))) (seq 0 n)))%C
    end.
End OldRmsf.

(** nufft_test.py:162-357 [get_rmsf_planes_old]; [fit] as in
    [get_rmsf_planes]. *)
Definition get_rmsf_planes_old (fit : list R -> list (option C) -> option (Z * R))
    (l2 phi : list R) (weightArr : option (list (option R))) (mskArr : option (nd bool))
    (lam0in : option R) (double fitRMSF : bool) : old_rmsf_ret :=
  match phi2_grid double phi with                                               (* 203-209 *)
  | None => ORRaise
  | Some phi2 =>
    let w0 := prep_weights (length l2) weightArr in                             (* 212-214 *)
    let msk := match mskArr with
               | None => mk_nd [length l2] (repeat false (length l2))
               | Some a => a end in
    if negb (Nat.eqb (length w0) (length l2)) then ORNones                      (* 225 *)
    else if negb (Nat.leb (length (shape msk)) 3) then ORNones
    else if negb (Nat.eqb (nth 0 (shape msk) 0%nat) (length l2)) then ORNones
    else
      match l2 with
      | [] => ORRaise                                                           (* 278: nanmax *)
      | _ =>
      let n := length l2 in
      let ny := fst (image_axes (shape msk)) in
      let nx := snd (image_axes (shape msk)) in
      let fwhm0 := fwhm_analytic l2 in                                          (* 278 *)
      let one_d := or_one_d n ny nx (flat msk) in
      let val (i y x : nat) :=
        if one_d then or_1d n ny nx (flat msk) l2 phi2 w0 lam0in i
        else or_pix n ny nx (flat msk) l2 phi2 w0 lam0in i y x in
      let fitres (y x : nat) : Z * option R :=                                  (* 291-302, 330-350 *)
        if fitRMSF then
          match fit phi2 (map (fun i => val i y x) (seq 0 (length phi2))) with
          | Some (st, fw) => if Z.ltb st 1 then ((-1)%Z, fwhm0) else (st, Some fw)
          | None => ((-1)%Z, fwhm0)
          end
        else ((-1)%Z, fwhm0) in
      OROk (mk_oldr
        (squeeze (mk_nd [length phi2; ny; nx] (tab3 (length phi2) ny nx val)))  (* 353 *)
        phi2
        (squeeze (mk_nd [ny; nx] (tab2 ny nx (fun y x => snd (fitres y x)))))
        (squeeze (mk_nd [ny; nx] (tab2 ny nx (fun y x => fst (fitres y x))))))
      end
  end.

(* -------------------------------------------- util_RM.py:1433-1588 *)

(** Weights of the deprecated routines: NaN weights stay NaN ([None]) and drop
    out of every [nansum]. *)
Definition dep_weights (nl : nat) (weight : option (list (option R))) : list (option R) :=
  match weight with None => repeat (Some 1) nl | Some w => w end.
(** numpy.nansum *)
Definition nansum (l : list (option R)) : R :=
  rsum (map (fun x => match x with Some v => v | None => 0 end) l).
Definition nancsum (l : list (option C)) : C :=
  csum (map (fun x => match x with Some v => v | None => RtoC 0 end) l).

(** util_RM.py:1552-1570: K, the reference wavelength and the direct sum of
    [get_RMSF] at one Faraday depth. A zero sum of weights makes K infinite and
    the product NaN. *)
Definition dep_rmsf_at (l2 : list R) (w : list (option R)) (l0 : R) (f : R) : option C :=
  let sw := nansum w in
  if Req_EM_T sw 0 then None
  else Some (RtoC (1 / sw) *
             nancsum (map (fun wl => option_map (fun v => RtoC v * cis (-2 * f * (snd wl - l0)))%C (fst wl))
                          (combine w l2)))%C.

Definition dep_lam0 (l2 : list R) (w : list (option R)) : option R :=
  let sw := nansum w in
  if Req_EM_T sw 0 then None
  else Some ((1 / sw) * nansum (map (fun wl => option_map (fun v => v * snd wl) (fst wl)) (combine w l2))).

(** util_RM.py:1532-1588 [get_RMSF] with its default double=True. [lam0in]:
    [None] = argument not given; [Some None] = a NaN was passed. [POk]: the
    RMSF, its grid and the width. [PErr]: an exception (a grid of fewer than
    two depths, no channels, weights of another length). *)
Definition get_RMSF (fit : list R -> list (option C) -> option (Z * R))
    (l2 phi : list R) (weightArr : option (list (option R))) (lam0in : option (option R))
    : pyres (list (option C) * list R * option R) :=
  let w := dep_weights (length l2) weightArr in
  if negb (Nat.eqb (length w) (length l2)) then PErr
  else match phi2_grid true phi, l2 with
  | Some phi2, _ :: _ =>
    let l0 := match lam0in with Some l => l | None => dep_lam0 l2 w end in
    let rm := map (fun f => match l0 with Some l => dep_rmsf_at l2 w l f | None => None end) phi2 in
    let fw0 := fwhm_analytic l2 in                                              (* 1574 *)
    let fw := match weightArr with
              | None => fw0                                                     (* 1575: uniformWt *)
              | Some _ => match fit phi2 rm with
                          | Some (st, x) => if Z.ltb st 1 then fw0 else Some x
                          | None => fw0 end
              end in
    POk (rm, phi2, fw)
  | _, _ => PErr
  end.

Record dep_synth := mk_dep {
  d_FDF : nd (option C); d_phi2 : list R; d_RMSF : list (option C);
  d_lam0 : option R; d_fwhm : option R }.
Inductive dep_ret := DNones | DRaise | DOk (r : dep_synth).

Section DepSynth.
  (* data in spectral order: flat index p * n + j for pixel p, channel j *)
  Variables (n m : nat) (Q U : list (option R)) (l2 phi : list R) (w : list (option R)).

  (* 1475-1477: a cell of Q or U is NaN *)
  Definition d_bad (p j : nat) : bool :=
    is_none (at2 n None Q p j) || is_none (at2 n None U p j).
  Definition d_weff : list (option R) :=
    map (fun j => if forallb (fun p => d_bad p j) (seq 0 m) then Some 0 else nth j w None) (seq 0 n).
  (* 1482 *)
  Definition d_pC (p j : nat) : option C :=
    match nth j d_weff None with
    | Some v => pcell v (at2 n None Q p j) (at2 n None U p j)
    | None => None
    end.
  (* 1493-1507 *)
  Definition d_val (p i : nat) : option C :=
    match dep_lam0 l2 d_weff with
    | None => None
    | Some l0 =>
      Some (RtoC (1 / nansum d_weff) *
            nancsum (map (fun j => option_map (fun z => z * cis (-2 * nth i phi 0 * (nth j l2 0 - l0)))%C
                                              (d_pC p j)) (seq 0 n)))%C
    end.
End DepSynth.

(** util_RM.py:1433-1522 [do_rmsynth], the deprecated routine. The data are in
    spectral order [y, x, z]. Cells are finite or NaN (an infinite cell is
    flagged in the sums but not in the test of whole planes; not modelled). *)
Definition do_rmsynth (fit : list R -> list (option C) -> option (Z * R))
    (dataQ dataU : nd (option R)) (l2 phi : list R) (weight : option (list (option R))) : dep_ret :=
  let w := dep_weights (length l2) weight in
  if negb (Nat.eqb (length w) (length l2)) then DNones
  else if negb (if list_eq_dec Nat.eq_dec (shape dataQ) (shape dataU) then true else false) then DNones
  else if negb (Nat.leb (length (shape dataQ)) 3) then DNones
  else if negb (Nat.eqb (last (shape dataQ) 0%nat) (length l2)) then DNones
  else
    let n := length l2 in
    let m := prodn (removelast (shape dataQ)) in                                (* 1467-1472 *)
    let weff := d_weff n m (flat dataQ) (flat dataU) w in
    match get_RMSF fit l2 phi (Some weff) (Some (dep_lam0 l2 weff)) with        (* 1510 *)
    | PErr => DRaise
    | POk (rm, phi2, fw) =>
      DOk (mk_dep
        (mk_nd (removelast (shape dataQ) ++ [length phi])
               (tab2 m (length phi) (d_val n m (flat dataQ) (flat dataU) l2 phi w)))
        phi2 rm (dep_lam0 l2 weff) fw)
    end.

(* -------------------------------------------- util_RM.py:1598-1902 *)

(** numpy.argwhere(a == v)[0][0]; [None]: IndexError. *)
Definition index_of (v : R) (l : list R) : option nat :=
  (fix go (k : nat) (l : list R) : option nat :=
     match l with
     | [] => None
     | x :: t => if Req_EM_T x v then Some k else go (S k) t
     end) 0%nat l.

Section DepClean.
  Variables (RMSF : list C) (phi phi2 : list R) (fwhm gain cutoff : R) (imax pad : nat).

  (* 1786 and 1789: roll, then clip *)
  Definition dep_shifted (i2 : nat) : list C :=
    py_slice (np_roll (RtoC 0) RMSF (Z.of_nat i2 - Z.of_nat imax)) (Z.of_nat pad) (- Z.of_nat pad).

  (* 1795-1797; the beam is written with a decimal constant for 4 ln 2 *)
  Definition dep_beam (phiPeak x : R) : R :=
    exp (- (277258872224 / 100000000000) * ((x - phiPeak) / fwhm) ^ 2).

  (* 1767-1797: one pass of the loop *)
  Definition dep_step (i : nat) (s : cst) : pyres cst :=
    let phiPeak := nth i phi 0 in
    let CC := (RtoC gain * nth i (resid s) (RtoC 0))%C in
    match index_of phiPeak phi2 with
    | None => PErr
    | Some i2 =>
      let sh := dep_shifted i2 in
      if negb (Nat.eqb (length sh) (length (resid s))) then PErr
      else POk (mk_cst
        (map (fun rs => (fst rs - CC * snd rs)%C) (combine (resid s) sh))
        (upd (cc s) i (fun z => (z + CC)%C))
        (map (fun cx => (fst cx + CC * RtoC (dep_beam phiPeak (snd cx)))%C) (combine (cln s) phi))
        (S (iters s)))
    end.

  (* 1763-1846 *)
  Fixpoint dep_loop (rem : nat) (s : cst) : pyres cst :=
    match rem with
    | O => POk s
    | S rem' =>
        if Rle_dec cutoff (maxabs (resid s)) then
          match argmax (fun a b => Rltb (Cmod a) (Cmod b)) (resid s) with
          | None => PErr
          | Some i => match dep_step i s with PErr => PErr | POk s' => dep_loop rem' s' end
          end
        else POk s
    end.
End DepClean.

Record dep_clean := mk_dclean { dc_clean : list C; dc_cc : list C; dc_fwhm : R; dc_iter : nat }.
(** [SysExit]: a sanity check failed. *)
Inductive dep_clean_ret := SysExit | DCRaise | DCOk (r : dep_clean).

(** util_RM.py:1598-1902 [do_rmclean] with doPlots=False, for finite spectra;
    all arrays are 1-D lists, so the tests on the number of axes and on complex
    types are not needed. [rmsf]: the RMSF and its grid, if passed; the width
    is fitted again in that case and the argument [fwhmRMSF] is never used. A
    width that is not finite is not modelled. *)
Definition do_rmclean (fit : list R -> list (option C) -> option (Z * R))
    (dirty : list C) (phi l2 : list R) (cutoff : R) (maxIter : nat) (gain : R)
    (weight : option (list (option R))) (rmsf : option (list C * option (list R))) : dep_clean_ret :=
  if negb (Nat.eqb (length phi) (length dirty)) then SysExit                    (* 1644 *)
  else
  let w := dep_weights (length l2) weight in
  let go (RMSF : list C) (phi2 : list R) (fwhm : R) : dep_clean_ret :=
    match argmax cltb RMSF, rmin_list phi with                                  (* 1737, 1755 *)
    | Some imax, Some phiMin =>
      match index_of phiMin phi2 with                                           (* 1756 *)
      | None => DCRaise
      | Some pad =>
        let z := map (fun _ => RtoC 0) dirty in
        match dep_loop RMSF phi phi2 fwhm gain cutoff imax pad maxIter (mk_cst dirty z z 0) with
        | PErr => DCRaise
        | POk s => DCOk (mk_dclean (map (fun cr => (fst cr + snd cr)%C) (combine (cln s) (resid s)))
                                   (cc s) fwhm (iters s))
        end
      end
    | _, _ => DCRaise
    end in
  match rmsf with
  | Some (RMSF, None) =>
      if negb (Nat.leb (2 * length dirty) (length RMSF)) then SysExit else SysExit   (* 1663-1670 *)
  | Some (RMSF, Some phi2) =>
      if negb (Nat.leb (2 * length dirty) (length RMSF)) then SysExit
      else if negb (Nat.eqb (length RMSF) (length phi2)) then SysExit
      else
        let fw0 := match rmax_list l2, rmin_list l2 with
                   | Some a, Some b => if Req_EM_T (a - b) 0 then None else Some (2 * sqrt 3 / (a - b))
                   | _, _ => None end in                                        (* 1678 *)
        let fw := match fit phi2 (map Some RMSF) with
                  | Some (st, x) => if Z.ltb st 1 then fw0 else Some x
                  | None => fw0 end in
        if negb (Nat.eqb (length w) (length l2)) then SysExit                   (* 1696 *)
        else match fw with Some x => go RMSF phi2 x | None => DCRaise end
  | None =>
      if negb (Nat.eqb (length w) (length l2)) then SysExit
      else match get_RMSF fit l2 phi (Some w) (Some (dep_lam0 l2 w)) with       (* 1732 *)
           | PErr => DCRaise
           | POk (rm, phi2, fw) =>
             match all_some rm, fw with Some rm', Some x => go rm' phi2 x | _, _ => DCRaise end
           end
  end.

(* -------------------------------------------- util_RM.py:2032-2334 *)

(** Broadcasting of two shapes (numpy); [None]: ValueError. *)
Fixpoint bcast_rev (a b : list nat) : option (list nat) :=
  match a, b with
  | [], _ => Some b
  | _, [] => Some a
  | x :: a', y :: b' =>
      match (if Nat.eqb x y then Some x else if Nat.eqb x 1 then Some y
             else if Nat.eqb y 1 then Some x else None), bcast_rev a' b' with
      | Some z, Some t => Some (z :: t)
      | _, _ => None
      end
  end.
Definition bcast (a b : list nat) : option (list nat) := option_map (@rev nat) (bcast_rev (rev a) (rev b)).

(** numpy.repeat(a, repeats) without axis: flattens, and needs one repeat count
    per element (or a single one). *)
Definition np_repeat {A} (a : nd A) (reps : list nat) : pyres (nd A) :=
  if Nat.eqb (length reps) (length (flat a)) then
    let l := flat_map (fun xr => repeat (fst xr) (snd xr)) (combine (flat a) reps) in
    POk (mk_nd [length l] l)
  else match reps with
       | [r] => let l := flat_map (fun x => repeat x r) (flat a) in POk (mk_nd [length l] l)
       | _ => PErr
       end.

(** What may be passed as the reference wavelength: nothing, a number, or an
    image. *)
Inductive lam_arg := LamNone | LamNum (l : R) | LamMap (l : list (option R)).

Section Noise3D.
  (* n channels, m = nY * nX pixels, weight of channel j in pixel p at j*m+p *)
  Variables (n m : nat) (Q U : list (option R)) (l2 phi w0 : list R).

  (* 2106 *)
  Definition t_pC (j p : nat) : option C :=
    pcell (at2 m 0 w0 j p) (at2 m None Q j p) (at2 m None U j p).
  (* 2113-2115 *)
  Definition t_ok (j : nat) : bool := existsb (fun p => is_some (t_pC j p)) (seq 0 m).
  Definition t_weff (j p : nat) : R := at2 m 0 w0 j p * (if t_ok j then 1 else 0).
  (* 2125-2129: K is infinite for a zero sum, and the product not finite *)
  Definition t_lam0 (p : nat) : option R :=
    let sw := rsum (map (fun j => t_weff j p) (seq 0 n)) in
    if Req_EM_T sw 0 then None
    else Some ((1 / sw) * rsum (map (fun j => t_weff j p * nth j l2 0) (seq 0 n))).
  (* 2133-2137 *)
  Definition t_K (p : nat) : R :=
    inv_or_0 (rsum (map (fun j => (if is_some (t_pC j p) then 1 else 0) * t_weff j p) (seq 0 n))).
  (* 2140-2143 *)
  Definition t_FDF (l0 : nat -> option R) (i p : nat) : option C :=
    match l0 p with
    | None => None
    | Some l => Some (RtoC (t_K p) *
        csum (map (fun j => nan_to_num (t_pC j p) * cis (-2 * nth i phi 0 * (nth j l2 0 - l))) (seq 0 n)))%C
    end.
End Noise3D.

Record noise_synth := mk_ns { ns_FDF : nd (option C); ns_lam0 : nd (option R) }.
Inductive noise_ret := NNones | NRaise | NOk (r : noise_synth).

(** util_RM.py:2032-2153 [threeDnoise_do_rmsynth_planes]. *)
Definition threeDnoise_do_rmsynth_planes (dataQ dataU : nd (option R)) (l2 phi : list R)
    (weightArr : option (nd (option R))) (lam0in : lam_arg) : noise_ret :=
  let w0 := match weightArr with
            | None => mk_nd (shape dataQ) (repeat 1 (prodn (shape dataQ)))
            | Some w => mk_nd (shape w) (map (fun x => match x with Some v => v | None => 0 end) (flat w))
            end in                                                              (* 2074-2076 *)
  let same (a b : list nat) := if list_eq_dec Nat.eq_dec a b then true else false in
  if negb (same (shape w0) [length l2]) && negb (same (shape w0) (shape dataQ)) then NNones
  else if negb (same (shape dataQ) (shape dataU)) then NNones
  else if negb (Nat.eqb (nth 0 (shape dataQ) 0%nat) (length l2)) then NNones
  else if negb (Nat.leb (length (shape dataQ)) 3) then NNones
  else
    let n := length l2 in
    let ny := fst (image_axes (shape dataQ)) in
    let nx := snd (image_axes (shape dataQ)) in
    let padded := if Nat.ltb (length (shape w0)) 3                              (* 2101-2102 *)
                  then np_repeat w0 [n; ny; nx] else POk w0 in
    match padded with
    | PErr => NRaise
    | POk w =>
      match bcast [n; ny; nx] (shape w) with                                    (* 2106 *)
      | None => NRaise
      | Some cube =>
        (* 2115: in place, so the result must have the shape of the weights *)
        match bcast (shape w) [nth 0 cube 0%nat; 1%nat; 1%nat] with
        | None => NRaise
        | Some sh =>
          if negb (same sh (shape w)) then NRaise
          else
          let m := (ny * nx)%nat in
          match match lam0in with
                | LamNone => Some (t_lam0 n m (flat dataQ) (flat dataU) l2 (flat w))
                | LamNum _ => None                                              (* 2140: a float has no [newaxis] *)
                | LamMap l => if Nat.eqb (length l) m then Some (fun p => nth p l None) else None
                end with
          | None => NRaise
          | Some l0 =>
            NOk (mk_ns
              (squeeze (mk_nd [length phi; ny; nx]
                 (tab2 (length phi) m (t_FDF n m (flat dataQ) (flat dataU) l2 phi (flat w) l0))))
              (squeeze (mk_nd [ny; nx] (map l0 (seq 0 m)))))
          end
        end
      end
    end.

Section Noise3DRmsf.
  Variables (n m : nat) (l2 phi2 w0 : list R).
  Definition tr_sum (p : nat) : R := rsum (map (fun j => at2 m 0 w0 j p) (seq 0 n)).
  (* 2252-2255 *)
  Definition tr_lam0 (p : nat) : option R :=
    if Req_EM_T (tr_sum p) 0 then None
    else Some ((1 / tr_sum p) * rsum (map (fun j => at2 m 0 w0 j p * nth j l2 0) (seq 0 n))).
  (* 2244: the standard deviation over the image of every channel is zero. In
     exact arithmetic that is: all weights of the channel are the same *)
  Definition tr_uniform : bool :=
    forallb (fun j => forallb (fun p => if Req_EM_T (at2 m 0 w0 j p) (at2 m 0 w0 j 0) then true else false)
                              (seq 0 m)) (seq 0 n).
  (* 2268-2270 *)
  Definition tr_1d (i : nat) : option C :=
    match tr_lam0 0 with
    | None => None
    | Some l0 => Some (RtoC (1 / tr_sum 0) *
        csum (map (fun j => RtoC (at2 m 0 w0 j 0) * cis (-2 * nth i phi2 0 * (nth j l2 0 - l0))) (seq 0 n)))%C
    end.
  (* 2298-2308 *)
  Definition tr_pix (i p : nat) : option C :=
    match tr_lam0 p with
    | None => None
    | Some l0 => Some (RtoC (inv_or_0 (tr_sum p)) *
        csum (map (fun j => RtoC (at2 m 0 w0 j p) * cis (-2 * nth i phi2 0 * (nth j l2 0 - l0))) (seq 0 n)))%C
    end.
End Noise3DRmsf.

(** util_RM.py:2266: 2 sqrt 3 over the range. *)
Definition fwhm_sqrt3 (l2 : list R) : option R :=
  match rmax_list l2, rmin_list l2 with
  | Some a, Some b => if Req_EM_T (a - b) 0 then None else Some (2 * sqrt 3 / (a - b))
  | _, _ => None
  end.

(** util_RM.py:2158-2334 [threeDnoise_get_rmsf_planes]. The reference
    wavelength [lam0in] is an argument of the Python function which line 2253
    overwrites. [fit] gets the depths and the curve to fit: the modulus
    ([false]) or the real part ([true]) of the list given; line 2279 passes the
    real part of the cube of ones made at line 2240, [None] here. An image
    without pixels is not modelled. *)
Definition threeDnoise_get_rmsf_planes
    (fit : bool -> list R -> option (list (option C)) -> option (Z * R))
    (l2 phi : list R) (weightArr : option (nd (option R))) (lam0in : option R)
    (double fitRMSF fitReal : bool) : old_rmsf_ret :=
  match phi2_grid double phi with
  | None => ORRaise
  | Some phi2 =>
    let w := match weightArr with
             | None => mk_nd [length l2] (repeat 1 (length l2))
             | Some w => mk_nd (shape w) (map (fun x => match x with Some v => v | None => 0 end) (flat w))
             end in
    if negb (Nat.leb (length (shape w)) 3) then ORNones
    else if negb (Nat.eqb (nth 0 (shape w) 0%nat) (length l2)) then ORNones
    else match l2 with
    | [] => ORRaise
    | _ =>
      let n := length l2 in
      let ny := fst (image_axes (shape w)) in
      let nx := snd (image_axes (shape w)) in
      let m := (ny * nx)%nat in
      let one_d := tr_uniform n m (flat w) in
      let val (i p : nat) := if one_d then tr_1d n m l2 phi2 (flat w) i else tr_pix n m l2 phi2 (flat w) i p in
      let fwhm0 := fwhm_sqrt3 l2 in
      let curve p := map (fun i => val i p) (seq 0 (length phi2)) in
      let fitres (p : nat) : Z * option R :=
        if fitRMSF then
          match fit fitReal phi2 (if one_d && fitReal then None else Some (curve p)) with
          | Some (st, fw) => if Z.ltb st 1 then ((-1)%Z, fwhm0) else (st, Some fw)
          | None => ((-1)%Z, fwhm0)
          end
        else ((-1)%Z, fwhm0) in
      OROk (mk_oldr
        (squeeze (mk_nd [length phi2; ny; nx] (tab2 (length phi2) m val)))
        phi2
        (squeeze (mk_nd [ny; nx] (map (fun p => snd (fitres p)) (seq 0 m))))
        (squeeze (mk_nd [ny; nx] (map (fun p => fst (fitres p)) (seq 0 m)))))
    end
  end.
