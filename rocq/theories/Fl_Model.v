(** RM-synthesis and the RMSF with the rounding left in:
    /repo/RMutils/util_RM.py:97-225 and 296-370. Model only.

    The definitions follow Synth_Model, but every array operation is followed
    by the rounding of the type of its result. [rnd] is the rounding of the
    data type (float32 for nBits = 32), [rndw] that of the wavelength array,
    [sumf] is numpy.sum, [expf t] is numpy.exp(1j t) and [nufft] is
    finufft.nufft1d3 with its tolerance. Overflow and underflow are not
    modelled: the exponent range of a float is unbounded here. *)
From Coq Require Import Reals List Arith ZArith.
Set Warnings "-ambiguous-paths".
From Coquelicot Require Import Coquelicot.
From Verif Require Import CBase NdArray Synth_Model.
Import ListNotations.
Local Open Scope R_scope.

Section Float.
  Variables (rnd rndw : R -> R) (sumf : list R -> R) (expf : R -> C) (nufft : list R -> list C -> list R -> list C).

  (** complex times real: numpy multiplies by (x + 0j), and a product by 0 is exact *)
  Definition scale_fl (r : R -> R) (z : C) (x : R) : C := (r (fst z * x), r (snd z * x)).

  (** util_RM.py:167 *)
  Definition pcell_fl (w : R) (q u : option R) : option C :=
    match q, u with Some q, Some u => Some (scale_fl rnd (q, u) w) | _, _ => None end.

  (** util_RM.py:180-184 *)
  Definition lam0_of_fl (w l2 : list R) : R :=
    let sw := sumf w in
    if Req_EM_T sw 0 then 0
    else rnd (rnd (1 / sw) * sumf (map (fun wl => rnd (fst wl * snd wl)) (combine w l2))).

  (** util_RM.py:189-192 *)
  Definition inv_or_0_fl (x : R) : R := if Req_EM_T x 0 then 0 else rnd (1 / x).

  Section Planes.
    Variables (n m : nat) (Q U : list (option R)) (l2 phi w0 : list R) (lam0in : option R).

    Definition pC_fl (j p : nat) : option C := pcell_fl (nth j w0 0) (at2 m None Q j p) (at2 m None U j p).
    (* 174-176 *)
    Definition plane_ok_fl (j : nat) : bool := existsb (fun p => is_some (pC_fl j p)) (seq 0 m).
    Definition w_eff_fl : list R := map (fun j => if plane_ok_fl j then nth j w0 0 else 0) (seq 0 n).
    (* 180-184 *)
    Definition lam0_used_fl : R := match lam0in with Some l => l | None => lam0_of_fl w_eff_fl l2 end.
    (* 188-192 *)
    Definition K_pix_fl (p : nat) : R :=
      inv_or_0_fl (sumf (map (fun j => if is_some (pC_fl j p) then nth j w_eff_fl 0 else 0) (seq 0 n))).
    (* 200-209: the subtraction is done in the type of the wavelengths, then
       the coordinates are cast to the type of the data *)
    Definition FDF_pix_fl (p : nat) : list C :=
      map (fun z => scale_fl rnd z (K_pix_fl p))
        (nufft (map (fun l => rnd (rndw (l - lam0_used_fl))) l2)
               (map (fun j => nan_to_num (pC_fl j p)) (seq 0 n))
               (map (fun f => rnd (f * 2)) (rev phi))).
    (* 211-214 *)
    Definition zero_pix_fl (p : nat) : bool := forallb (fun z => Ceqb z (RtoC 0)) (FDF_pix_fl p).
    Definition out_cell_fl (k p : nat) : option C :=
      if zero_pix_fl p then None else Some (nth k (FDF_pix_fl p) (RtoC 0)).
  End Planes.

  (** util_RM.py:97-225 *)
  Definition do_rmsynth_planes_fl (dataQ dataU : nd (option R)) (l2 phi : list R)
      (weightArr : option (list (option R))) (lam0in : option R) : option rmsynth_results :=
    let w0 := prep_weights (length l2) weightArr in
    if negb (Nat.eqb (length w0) (length l2)) then None
    else if negb (if list_eq_dec Nat.eq_dec (shape dataQ) (shape dataU) then true else false) then None
    else
      let nDims := length (shape dataQ) in
      if negb (Nat.leb nDims 3) then None
      else if negb (Nat.eqb (nth 0 (shape dataQ) 0%nat) (length l2)) then None
      else
        let n := length l2 in
        let m := prodn (tl (shape dataQ)) in
        let cube := tab2 (length phi) m (out_cell_fl n m (flat dataQ) (flat dataU) l2 phi w0 lam0in) in
        let sh := length phi :: (if Nat.eqb nDims 3 then tl (shape dataQ) else [m]) in
        Some (mk_synth (squeeze (mk_nd sh cube)) (lam0_used_fl n m (flat dataQ) (flat dataU) l2 w0 lam0in)).

  (** util_RM.py:353-370: the RMSF of one spectrum without a mask. The grid is
      cast to the complex type of the data; the exponent, the sum and the
      scaling are done in the type of the wavelengths. *)
  Definition rmsf_lam0_fl (w l2 : list R) (lam0in : option R) : option R :=
    match lam0in with
    | Some l => Some l
    | None => let sw := sumf w in
              if Req_EM_T sw 0 then None
              else Some (rndw (rndw (1 / sw) * sumf (map (fun wl => rndw (fst wl * snd wl)) (combine w l2))))
    end.
  Definition sumc (l : list C) : C := (sumf (map fst l), sumf (map snd l)).
  Definition rmsf_1d_fl (w l2 phi2 : list R) (lam0in : option R) : list (option C) :=
    map (fun f =>
      match rmsf_lam0_fl w l2 lam0in with
      | None => None
      | Some l0 =>
        let sw := sumf w in
        if Req_EM_T sw 0 then None
        else
          let a := rnd (-2 * f) in
          let e wl := scale_fl rndw (expf (rndw (a * rndw (snd wl - l0)))) (fst wl) in
          Some (scale_fl rndw (sumc (map e (combine w l2))) (rndw (1 / sw)))
      end) phi2.
End Float.
