(** The Stokes I fit with its fitter: /repo/RMutils/util_misc.py:896-950
    calls mpfit (/repo/RMutils/mpfit.py, modelled in Mp_Model). Model only. *)
From Coq Require Import Reals List Arith ZArith Bool.
From Verif Require Import PyRes CBase PyList StokesI_Model Mp_Model.
Import ListNotations.
Local Open Scope R_scope.

(** 935-944 [errFn]. The parameters are those of 916-926, highest degree first.
    Positive x only for the logarithmic model. *)
Definition errFn (q : mpin) : vec -> vec := fun p i =>
  let model := match in_fun q with Log => powerlaw_poly5 | _ => poly5 end in
  (model (map p (seq 0 6)) (nth i (in_x q) 0) - nth i (in_y q) 0) / nth i (in_dy q) 0.

(** 916-931: C5 to C1 start at zero, C0 at the mean of the data. *)
Definition start_values (q : mpin) : vec := fun k => if Nat.eqb k 5 then in_start q else 0.

(** mpfit.py:923 [ifree] *)
Definition free_params (fixed : list bool) : list nat :=
  filter (fun i => negb (nth i fixed true)) (seq 0 (length fixed)).

(** 947. [rest] answers for what the model of mpfit leaves out: a noise value
    of zero among others (residuals inf or NaN) and runs that are not over
    after [fuel] turns of either loop of the fitter. *)
Definition mpfit_code (fuel : nat) (rest : mpin -> pyres mpres) (q : mpin) : pyres mpres :=
  if existsb (fun d => if Req_EM_T d 0 then true else false) (in_dy q) then rest q
  else
    match mpfit fuel (errFn q) 6 (length (in_x q)) (free_params (in_fixed q)) (start_values q) with
    | None => rest q
    | Some PErr => PErr
    | Some (POk o) =>
        POk (mk_mp (map (o_params o) (seq 0 6)) (o_status o) (o_fnorm o) (o_covar o)
                   (option_map (fun e => map e (seq 0 6)) (o_perror o)))
    end.
