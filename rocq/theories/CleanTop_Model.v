(** Tools around RM-CLEAN: thresholds of rmclean1d and the Q,U prediction from
    clean components. Model only. *)
From Coq Require Import Reals List Arith ZArith Bool.
Set Warnings "-ambiguous-paths".
From Coquelicot Require Import Coquelicot.
From Verif Require Import PyRes CBase NdArray PyList Synth_Model Clean_Model StokesI_Model.
Import ListNotations.
Local Open Scope R_scope.

(** astropy.constants.c *)
Definition c_light : R := 299792458.

(** /repo/RMtools_1D/clean_model.py:20-61 [calculate_QU_model]; returns the
    predicted Q + iU and the Stokes I model. freq and lam0sq are positive. *)
Definition calculate_QU_model (freq phi : list R) (CC : list C) (lam0sq : R) (Iparms : option (list R))
    : pyres (list C * list R) :=
  let a := map (fun f => (c_light / f) ^ 2 - lam0sq) freq in
  let quarr := map (fun ak => csum (map (fun pc => (snd pc * cis (2 * (fst pc * ak)))%C) (combine phi CC))) a in
  let fr := mk_fit (match Iparms with Some p => p | None => [0; 0; 0; 0; 0; 1] end) 0 0 (Some 0) 0 0
                   (c_light / sqrt lam0sq) 0 None [] Log in
  pybind (calculate_StokesI_model fr freq) (fun Imod =>
    POk (map (fun iq => (RtoC (fst iq) * snd iq)%C) (combine Imod quarr), Imod)).

(** /repo/RMtools_1D/do_RMclean_1D.py:100-112 and 114-128: a negative level is a
    multiple of the theoretical noise. *)
Definition level (noise x : R) : R := if Rlt_dec x 0 then -1 * noise * x else x.
Definition window_level (noise : R) (w : option R) : option R :=
  match w with None => None | Some w => Some (level noise w) end.

(** /repo/RMtools_1D/do_RMclean_1D.py:51-146 [run_rmclean], up to the call of
    do_rmclean_hogbom (default mask, no pool); the peak measurement of 177-219
    is modelled separately. *)
Definition run_rmclean_1d (dirty phi_RMSF : list (option C)) (phi phi2 : list R) (fwhmRMSF : option R) (dFDFth : R)
    (cutoff : R) (maxIter : nat) (gain : R) (window : option R) : clean_ret :=
  do_rmclean_hogbom (mk_nd [length dirty] dirty) phi (mk_nd [length phi_RMSF] phi_RMSF) phi2 [fwhmRMSF]
    (level dFDFth cutoff) maxIter gain None None (window_level dFDFth window).

(** /repo/RMtools_3D/do_RMclean_3D.py:56-140 passes cutoff and window on
    unchanged; its command line (500-560) never interprets negative values. *)
