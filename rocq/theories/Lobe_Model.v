(** RMutils/util_RM.py:819-926: the Gaussian fitted to the main lobe of the
    spread function. *)
From Coq Require Import Reals List Arith ZArith Bool.
Set Warnings "-ambiguous-paths".
From Coquelicot Require Import Coquelicot.
From Verif Require Import CBase PyRes PyList NdArray Synth_Model Cube_Model Mp_Model.
Import ListNotations.
Local Open Scope R_scope.

(** a comparison with NaN is false *)
Definition below (t : R) (x : option R) : bool := match x with Some v => Rltb v t | None => false end.

(** numpy.where(c)[0][0]; [None]: IndexError *)
Fixpoint first_true {A} (c : A -> bool) (l : list A) : option nat :=
  match l with
  | [] => None
  | x :: t => if c x then Some 0%nat else option_map S (first_true c t)
  end.

(** 889-907 [detect_peak]; the ones of the mask are [true]. [PErr]: ValueError
    (no samples) or IndexError (none below the threshold). *)
Definition detect_peak (a : list (option R)) (thresh : R) : pyres (list bool) :=
  match np_argmax a with
  | PErr => PErr
  | POk iPk =>
    match first_true (below thresh) (skipn iPk a) with
    | None => PErr
    | Some ishift =>
      let iR := (Z.of_nat iPk + Z.of_nat ishift)%Z in
      let iL := (Z.of_nat iPk - Z.of_nat ishift + 1)%Z in
      POk (map (in_slice (length a) iL iR) (seq 0 (length a)))
    end
  end.

(** 849-858 *)
Definition gfactor : R := 2 * sqrt (2 * ln 2).
Definition lobe_gauss (p : vec) (x : R) : R :=
  let s := p 2%nat / gfactor in p 0%nat * exp (- (x - p 1%nat) ^ 2 / (2 * s ^ 2)).
(** 862-864 *)
Definition lobe_err (xs ys : list R) : vec -> vec := fun p i => lobe_gauss p (nth i xs 0) - nth i ys 0.

(** 839-846 *)
Definition lobe_start (b w : R) : vec := fun k => match k with 0%nat => 1 | 1%nat => b | _ => w end.

(** 819-872 [fit_rmsf]; [None]: any exception. [rest] answers for what the model
    of mpfit leaves out: samples that are NaN, a width of exactly zero (the
    Gaussian is not a number at its centre then, where this model has the
    height), and runs that are not over after [fuel] turns of either loop of
    the fitter. *)
Definition fit_rmsf (fuel : nat) (rest : list R -> list (option R) -> option mpout)
    (x : list R) (y : list (option R)) (thresh ampThresh : R) : option mpout :=
  match detect_peak y thresh with
  | PErr => None
  | POk msk1 =>
    let msk2 := map (fun ym => if below ampThresh (fst ym) then false else snd ym) (combine y msk1) in
    let msk := if Nat.ltb (length (filter (fun b => b) msk2)) 4 then msk1 else msk2 in
    let valid := filter (fun i => nth i msk false) (seq 0 (length y)) in
    match all_some (map (nth_error x) valid) with                               (* 833 *)
    | None => None
    | Some xs =>
      let ys := map (fun i => nth i y None) valid in
      match np_argmax ys, rmax_list xs, rmin_list xs with                       (* 838-839 *)
      | POk k, Some hi, Some lo =>
        match all_some ys with
        | None => rest xs ys
        | Some yv =>
          match mpfit fuel (lobe_err xs yv) 3 (length xs) [0; 1; 2]%nat (lobe_start (nth k xs 0) (hi - lo)) with
          | None => rest xs ys
          | Some PErr => None
          | Some (POk o) => Some o
          end
        end
      | _, _, _ => None
      end
    end
  end.

(** 377 and 428-431: what get_rmsf_planes uses of it, status and third
    parameter, for the modulus or the real part, with the default thresholds *)
Definition rmsf_fit (fuel : nat) (rest : list R -> list (option R) -> option mpout) (real : bool)
    (phi2 : list R) (rm : list (option C)) : option (Z * R) :=
  option_map (fun o => (o_status o, o_params o 2%nat))
    (fit_rmsf fuel rest phi2 (map (option_map (if real then fst else Cmod)) rm) (4 / 10) (4 / 10)).
