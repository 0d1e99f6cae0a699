(** Vocabulary for runs of the 1-D tool with a flat Stokes I spectrum. *)
From Coq Require Import Reals List Arith ZArith Bool.
Set Warnings "-ambiguous-paths".
From Coquelicot Require Import Coquelicot.
From Verif Require Import CBase Synth_Spec StokesI_Spec MpI_Spec Run1D_Model Run1D_Spec.
Import ListNotations.
Local Open Scope R_scope.

(** Options that agree but for those about Stokes I: the order and kind of
    its model, its table, and whether it is ignored. *)
Definition same_setup (o1 o2 : run_opts) : Prop :=
  o_variance o1 = o_variance o2 /\ o_dPhi o1 = o_dPhi o2 /\ o_phiMax o1 = o_phiMax o2 /\ o_nSamples o1 = o_nSamples o2 /\
  o_super o1 = o_super o2 /\ o_fitRMSF o1 = o_fitRMSF o2.

(** The same depths, spectrum, spread function, noise, source and channels. *)
Definition same_spectrum (a b : synth_out) : Prop :=
  r_phi a = r_phi b /\ r_FDF a = r_FDF b /\ r_lam0 a = r_lam0 b /\ r_phi2 a = r_phi2 b /\ r_RMSF a = r_RMSF b /\ r_fwhm a = r_fwhm b /\
  r_dFDFth a = r_dFDFth b /\ r_parms a = r_parms b /\ r_N_channels a = r_N_channels b /\ r_min_freq a = r_min_freq b /\ r_max_freq a = r_max_freq b.

(** Stokes I is c wherever it and its error are finite, which is somewhere;
    the errors are all zero or none is. *)
Definition flat_I (freq : list R) (iA dI : list (option R)) (c : R) : Prop :=
  let g := finite_chans freq iA dI in
  g <> [] /\ (forall t, In t (with_errors g) -> snd t <> 0) /\ (forall t, In t g -> snd (fst t) = c) /\ c <> 0.

(** Channels with Q and U, as given. *)
Definition plain_chans (freq : list R) (Q U : list (option R)) (w : list R) : list chan :=
  flat_map (fun j => match nth j Q None, nth j U None with
    | Some q, Some u => [mk_chan (lsq (nth j freq 0)) (nth j w 0) (q, u)]
    | _, _ => [] end) (seq 0 (length freq)).
