(** Vocabulary for statements about the 1-D CLEAN tool. The records of its
    input and output are the API. *)
From Coq Require Import Reals List Arith ZArith Bool.
Set Warnings "-ambiguous-paths".
From Coquelicot Require Import Coquelicot.
From Verif Require Import CBase Clean_Spec Cl1_Model.
Import ListNotations.
Local Open Scope R_scope.

(** A finite spectrum [d] and a finite spread function [rm], peaked at sample
    [imax] of a grid at least twice as long, of width [fw]. *)
Definition clean_input (i : clean_in) (d rm : list C) (fw : R) (imax : nat) : Prop :=
  ci_FDF i = map Some d /\ ci_RMSF i = map Some rm /\ ci_fwhm i = Some fw /\ fw <> 0 /\
  length d = length (ci_phi i) /\ length rm = length (ci_phi2 i) /\ (3 <= length (ci_phi i))%nat /\
  (2 * length (ci_phi i) <= length (ci_phi2 i))%nat /\ peak_at rm imax /\ roomy (length (ci_phi i)) (length (ci_phi2 i)) imax.

(** What a threshold means: flux units if it is not negative, else a multiple of the noise. *)
Definition threshold (noise : option R) (x t : R) : Prop :=
  0 <= x /\ t = x \/ x < 0 /\ exists n, noise = Some n /\ t = n * Rabs x.
