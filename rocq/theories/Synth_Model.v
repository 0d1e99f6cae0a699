(** RM-synthesis and the RMSF: /repo/RMutils/util_RM.py:97-455. Model only. *)
From Coq Require Import Reals List Arith ZArith.
Set Warnings "-ambiguous-paths".
From Coquelicot Require Import Coquelicot.
From Verif Require Import CBase NdArray Interp_Model.
Import ListNotations.
Local Open Scope R_scope.

(** One voxel of Q or U: [None] stands for any non-finite value. The product
    by [1j] and by the weight (util_RM.py:167) turns infinities into NaN, so
    they are flagged like NaNs. *)
Notation cell := (option R) (only parsing).

(** Test of a complex number against 0 (numpy [==]). *)
Definition Ceqb (a b : C) : bool :=
  if Req_EM_T (fst a) (fst b) then (if Req_EM_T (snd a) (snd b) then true else false) else false.

(** util_RM.py:131-133 and 297-299: default weights and NaN weights. *)
Definition prep_weights (nl : nat) (weightArr : option (list (option R))) : list R :=
  match weightArr with
  | None => repeat 1 nl
  | Some w => map (fun x => match x with Some v => v | None => 0 end) w
  end.

(** finufft.nufft1d3 for one transform, taken as the exact sum
    f_k = sum_j c_j exp(+i s_k x_j) (default isign=+1). *)
Definition nufft1d3 (x : list R) (c : list C) (s : list R) : list C :=
  map (fun sk => csum (map (fun xc => (snd xc * cis (sk * fst xc))%C) (combine x c))) s.

Record rmsynth_results := mk_synth { FDFcube : nd (option C); synth_lam0 : R }.

(** util_RM.py:165-176: weighted complex cube of one channel and pixel, before
    nan_to_num. [None] = NaN. *)
Definition pcell (w : R) (q u : cell) : option C :=
  match q, u with Some q, Some u => Some ((q, u) * RtoC w)%C | _, _ => None end.

Definition is_none {A} (x : option A) : bool := match x with None => true | _ => false end.
Definition is_some {A} (x : option A) : bool := negb (is_none x).
(** numpy.nan_to_num on our cells. *)
Definition nan_to_num (x : option C) : C := match x with Some z => z | None => RtoC 0 end.

(** util_RM.py:178-184: reference wavelength. A zero sum of weights makes
    K*sum non-finite (inf or NaN), which line 183 replaces by 0. *)
Definition lam0_of (w l2 : list R) : R :=
  let sw := rsum w in
  if Req_EM_T sw 0 then 0
  else (1 / sw) * rsum (map (fun wl => fst wl * snd wl) (combine w l2)).

(** util_RM.py:189-192: 1/x with inf and NaN replaced by 0. *)
Definition inv_or_0 (x : R) : R := if Req_EM_T x 0 then 0 else 1 / x.

(** util_RM.py:165-209 for the 2D arrays (nFreq x nPix) of the reshaped data:
    the complex FDF, before the all-zero test, at output index k, pixel p. *)
Section Planes.
  Variables (n m : nat) (Q U : list cell) (l2 phi w0 : list R) (lam0in : option R).

  Definition pC (j p : nat) : option C :=
    pcell (nth j w0 0) (at2 m None Q j p) (at2 m None U j p).
  (* 174-176 *)
  Definition plane_ok (j : nat) : bool := existsb (fun p => is_some (pC j p)) (seq 0 m).
  Definition w_eff : list R :=
    map (fun j => if plane_ok j then nth j w0 0 else 0) (seq 0 n).
  (* 180-184 *)
  Definition lam0_used : R := match lam0in with Some l => l | None => lam0_of w_eff l2 end.
  (* 188-192 *)
  Definition K_pix (p : nat) : R :=
    inv_or_0 (rsum (map (fun j => if is_some (pC j p) then nth j w_eff 0 else 0) (seq 0 n))).
  (* 200-209; the transform is evaluated at phiArr[::-1]*2 *)
  Definition FDF_pix (p : nat) : list C :=
    map (fun z => (z * RtoC (K_pix p))%C)
      (nufft1d3 (map (fun l => l - lam0_used) l2)
                (map (fun j => nan_to_num (pC j p)) (seq 0 n))
                (map (fun f => f * 2) (rev phi))).
  (* 211-214 *)
  Definition zero_pix (p : nat) : bool := forallb (fun z => Ceqb z (RtoC 0)) (FDF_pix p).
  Definition out_cell (k p : nat) : option C :=
    if zero_pix p then None else Some (nth k (FDF_pix p) (RtoC 0)).
End Planes.

(** util_RM.py:97-225 [do_rmsynth_planes]. The result [None] is the
    [return None, None] of the sanity checks. 0-dimensional input arrays
    (for which Python raises IndexError) are not distinguished from arrays
    of length zero. [nBits], [eps] only affect rounding. *)
Definition do_rmsynth_planes (dataQ dataU : nd cell) (l2 phi : list R)
    (weightArr : option (list (option R))) (lam0in : option R) : option rmsynth_results :=
  let w0 := prep_weights (length l2) weightArr in
  if negb (Nat.eqb (length w0) (length l2)) then None
  else if negb (if list_eq_dec Nat.eq_dec (shape dataQ) (shape dataU) then true else false) then None
  else
    let nDims := length (shape dataQ) in
    if negb (Nat.leb nDims 3) then None
    else if negb (Nat.eqb (nth 0 (shape dataQ) 0%nat) (length l2)) then None
    else
      let n := length l2 in
      let m := prodn (tl (shape dataQ)) in       (* 156-163 *)
      let cube := tab2 (length phi) m
                    (out_cell n m (flat dataQ) (flat dataU) l2 phi w0 lam0in) in
      let sh := length phi ::
                (if Nat.eqb nDims 3 then tl (shape dataQ) else [m]) in  (* 216-220 *)
      Some (mk_synth (squeeze (mk_nd sh cube))
                     (lam0_used n m (flat dataQ) (flat dataU) l2 w0 lam0in)).

(* ------------------------------------------------------------------------ *)
(** RMSF. *)

Record rmsf_results := mk_rmsf {
  RMSFcube : nd (option C);
  phi2Arr : list R;
  fwhmRMSFArr : nd (option R);
  statArr : nd Z;
  rmsf_lam0 : option R }.

(** util_RM.py:287-294: the grid of the RMSF. [None]: IndexError in [extrap]
    for a grid with fewer than two samples. *)
Fixpoint all_some {A} (l : list (option A)) : option (list A) :=
  match l with
  | [] => Some []
  | Some x :: t => match all_some t with Some t' => Some (x :: t') | None => None end
  | None :: _ => None
  end.

Definition phi2_grid (double : bool) (phi : list R) : option (list R) :=
  if double then
    let nPhi := length phi in
    let nExt := Nat.div2 (nPhi + 1) in           (* ceil(nPhi/2) *)
    all_some (map (fun i => extrap (INR i - INR nExt) (map INR (seq 0 nPhi)) phi)
                  (seq 0 (2 * nExt + nPhi)))
  else Some phi.

(** util_RM.py:353-357. No finiteness test here: [None] = NaN or inf. *)
Definition rmsf_lam0_of (w l2 : list R) (lam0in : option R) : option R :=
  match lam0in with
  | Some l => Some l
  | None => let sw := rsum w in
            if Req_EM_T sw 0 then None
            else Some ((1 / sw) * rsum (map (fun wl => fst wl * snd wl) (combine w l2)))
  end.

(** maximum and minimum of a list (numpy.nanmax on finite data); [None]:
    ValueError on empty input. *)
Definition rmax_list (l : list R) : option R :=
  match l with [] => None | x :: t => Some (fold_left Rmax t x) end.
Definition rmin_list (l : list R) : option R :=
  match l with [] => None | x :: t => Some (fold_left Rmin t x) end.

(** util_RM.py:359-360; a zero range gives inf ([None]). *)
Definition fwhm_analytic (l2 : list R) : option R :=
  match rmax_list l2, rmin_list l2 with
  | Some a, Some b => if Req_EM_T (a - b) 0 then None else Some (38 / 10 / (a - b))
  | _, _ => None
  end.

Section Rmsf.
  Variables (n m : nat) (msk : list bool) (l2 phi2 w0 : list R) (lam0in : option R).
  Definition mskd (j p : nat) : bool := at2 m false msk j p.
  (* 335 *)
  Definition xySum (j : nat) : nat := length (filter (fun p => mskd j p) (seq 0 m)).
  (* 336-337 *)
  Definition rw_eff : list R :=
    map (fun j => if Nat.eqb (xySum j) m then 0 else nth j w0 0) (seq 0 n).
  (* 339-351 *)
  Definition do1Dcalc : bool :=
    forallb (fun j => orb (Nat.eqb (xySum j) 0) (Nat.eqb (xySum j) m)) (seq 0 n).
  Definition rlam0 : option R := rmsf_lam0_of rw_eff l2 lam0in.
  (* 367-370: K = 1/sum w is inf for a zero sum, which makes the product NaN *)
  Definition rmsf_1d : list (option C) :=
    map (fun f =>
      match rlam0 with
      | None => None
      | Some l0 =>
        if Req_EM_T (rsum rw_eff) 0 then None
        else Some (RtoC (1 / rsum rw_eff) *
                   csum (map (fun wl => (RtoC (fst wl) * cis (-2 * f * (snd wl - l0)))%C)
                             (combine rw_eff l2)))%C
      end) phi2.
  (* 392-410 *)
  Definition rK_pix (p : nat) : R :=
    inv_or_0 (rsum (map (fun j => if mskd j p then 0 else nth j rw_eff 0) (seq 0 n))).
  Definition rmsf_pix (p : nat) : list (option C) :=
    match rlam0 with
    | None => map (fun _ => None) phi2
    | Some l0 =>
      map (fun z => Some (z * RtoC (rK_pix p))%C)
        (nufft1d3 (map (fun l => l - l0) l2)
                  (map (fun j => RtoC (if mskd j p then 0 else nth j rw_eff 0)) (seq 0 n))
                  (map (fun f => f * 2) (rev phi2)))
    end.
End Rmsf.

(** Why no result is returned. [RetNones]: the error paths of lines 310-322
    return a tuple of FOUR Nones where a result has five fields.
    [PyRaise]: an exception escapes. *)
Inductive rmsf_ret := RetNones | PyRaise | RetOk (r : rmsf_results).

(** util_RM.py:244-455 [get_rmsf_planes]; [fit] is the oracle for
    [fit_rmsf] (None, or status and third parameter). [mskArr = None] is the
    default mask. Line 444 uses the first axis of the squeezed cube, which is
    the depth axis unless it has length one; that corner is not modelled. *)
Definition get_rmsf_planes (fit : list R -> list (option C) -> option (Z * R))
    (l2 phi : list R) (weightArr : option (list (option R))) (mskArr : option (nd bool))
    (lam0in : option R) (double fitRMSF : bool) : rmsf_ret :=
  match phi2_grid double phi with
  | None => PyRaise
  | Some phi2 =>
    let w0 := prep_weights (length l2) weightArr in
    let msk := match mskArr with
               | None => mk_nd [length l2] (repeat false (length l2))
               | Some a => a end in
    let nDims := length (shape msk) in
    if negb (Nat.eqb (length w0) (length l2)) then RetNones
    else if negb (Nat.leb nDims 3) then RetNones
    else if negb (Nat.eqb (nth 0 (shape msk) 0%nat) (length l2)) then RetNones
    else
      match l2 with
      | [] => PyRaise                             (* nanmax of an empty array *)
      | _ =>
      let n := length l2 in
      let m := prodn (tl (shape msk)) in
      let fwhm0 := fwhm_analytic l2 in
      let one_d := do1Dcalc n m (flat msk) in
      let spec (p : nat) := if one_d then rmsf_1d n m (flat msk) l2 phi2 w0 lam0in
                  else rmsf_pix n m (flat msk) l2 phi2 w0 lam0in p in
      let fitres (p : nat) : Z * option R :=
        if fitRMSF then
          match fit phi2 (spec p) with
          | Some (st, fw) => if Z.ltb st 1 then ((-1)%Z, fwhm0) else (st, Some fw)
          | None => ((-1)%Z, fwhm0)
          end
        else ((-1)%Z, fwhm0) in
      let cube := tab2 (length phi2) m (fun k p => nth k (spec p) None) in
      let sq := squeeze (mk_nd [length phi2; m] cube) in
      let sh3 {A} (pre : list nat) (a : nd A) : nd A :=
        if Nat.eqb nDims 3 then mk_nd (pre ++ tl (shape msk)) (flat a) else a in
      RetOk (mk_rmsf (sh3 [length phi2] sq)
        phi2
        (sh3 [] (squeeze (mk_nd [m] (map (fun p => snd (fitres p)) (seq 0 m)))))
        (sh3 [] (squeeze (mk_nd [m] (map (fun p => fst (fitres p)) (seq 0 m)))))
        (rlam0 n m (flat msk) l2 w0 lam0in))
      end
  end.
