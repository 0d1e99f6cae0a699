(** Vocabulary for statements about QU-fitting and simulated spectra. *)
From Coq Require Import Reals List Arith ZArith Bool String.
Set Warnings "-ambiguous-paths".
From Coquelicot Require Import Coquelicot.
From Verif Require Import CBase PyRes PyStr Synth_Spec Measure_Spec QU_Model.
Import ListNotations.
Local Open Scope R_scope.

Definition rad (deg : R) : R := deg * PI / 180.

(** z is the mean of f over [0,1] *)
Definition is_average (f : R -> C) (z : C) : Prop :=
  is_RInt (fun t => fst (f t)) 0 1 (fst z) /\ is_RInt (fun t => snd (f t)) 0 1 (snd z).

(** Burn's external dispersion of a thin component, sigma = dispersion *)
Definition burn (p psi RM sigma l2 : R) : C := (thin p psi RM l2 * RtoC (exp (-2 * sigma ^ 2 * l2 ^ 2)))%C.

(** emission from the fraction t of a slab of thickness dRM with internal
    dispersion sigma, in front of which the depth is RM *)
Definition slab_layer (p psi RM dRM sigma l2 t : R) : C :=
  (thin p psi (RM + t * dRM) l2 * RtoC (exp (- (2 * sigma ^ 2 * l2 ^ 2 * t))))%C.

(** d' holds the parameters of component number i of d *)
Definition component (d : pdict) (i : string) (keys : list (string * string)) (d' : pdict) : Prop :=
  forall k1 k2, In (k1, k2) keys -> pget d' (s (k1 ++ k2)%string) = pget d (s (k1 ++ i ++ k2)%string).
Definition thin_keys : list (string * string) := [("fracPol", ""); ("psi0", "_deg"); ("RM", "_radm2")]%string.
Definition burn_keys : list (string * string) := thin_keys ++ [("sigmaRM", "_radm2")]%string.
Definition slab_keys : list (string * string) := thin_keys ++ [("deltaRM", "_radm2")]%string.

(** channel by channel sum of two spectra *)
Definition add_spectra (a b : spectrum) : spectrum :=
  match a, b with
  | POk x, POk y => POk (map (fun ab => match ab with (Some u, Some v) => Some (u + v)%C | _ => None end) (combine x y))
  | _, _ => PErr
  end.

(** the values of a spectrum are bounded by b where they are finite *)
Definition bounded_by (sp : spectrum) (b : R) : Prop := forall l z, sp = POk l -> In (Some z) l -> Cmod z <= b.

(** d gives every sampled parameter a value inside its prior *)
Definition samples_of (pr : list prior) (d : pdict) : Prop :=
  forall x, In x pr -> pr_constraint x = false -> exists v, pget d (pr_key x) = POk v /\ pr_min x <= v <= pr_max x.
Definition constraints_hold (pr : list prior) (d : pdict) : Prop :=
  forall x, In x pr -> pr_constraint x = true -> exists v, pget d (pr_key x) = POk v /\ pr_min x <= v <= pr_max x.

(** sum of squared residuals over the channels where nothing is blank *)
Definition chi2 (d m e : list (option R)) : R :=
  rsum (map (fun x => match x with (Some a, Some b, Some c) => ((a - b) / c) ^ 2 | _ => 0 end) (combine (combine d m) e)).
(** and of those where nothing is blank in Q and in U *)
Definition chi2_both (q mq dq u mu du : list (option R)) : R :=
  rsum (map (fun x => match x with (Some a, Some b, Some c, (Some a', Some b', Some c')) => ((a - b) / c) ^ 2 + ((a' - b') / c') ^ 2 | _ => 0 end)
            (combine (combine (combine q mq) dq) (combine (combine u mu) du))).
(** Gaussian log-likelihood of independent data *)
Definition gauss_loglike (d m e : list R) : R :=
  rsum (map (fun x => ln (gauss (fst (fst x) - snd (fst x)) (snd x ^ 2))) (combine (combine d m) e)).

Definition errors_ok (e : list (option R)) : Prop := forall x, In (Some x) e -> 0 < x.

(** depth in front of the middle of layer i of a stack, per unit of lambda^2 *)
Definition layers_in_front (RM : list R) (i : nat) : R := rsum (skipn (S i) RM).

(** the models and their angles *)
Definition angle_keys : list ((pdict -> list R -> spectrum) * list string) :=
  [(m1, ["psi0_deg"]); (m2, ["psi0_deg"]); (m5, ["psi0_deg"]); (m7, ["psi0_deg"]); (m12, ["psi0_deg"]);
   (m11, ["psi01_deg"; "psi02_deg"]); (m3, ["psi01_deg"; "psi02_deg"]); (m4, ["psi01_deg"; "psi02_deg"]); (m6, ["psi01_deg"; "psi02_deg"]);
   (m111, ["psi01_deg"; "psi02_deg"; "psi03_deg"])]%string.


(** the models and the priors that go with them *)
Definition single_models : list ((pdict -> list R -> spectrum) * list prior) :=
  [(m1, priors1); (m2, priors2); (m5, priors5); (m7, priors7); (m12, priors12)].
Definition pair_models : list ((pdict -> list R -> spectrum) * list prior) :=
  [(m11, priors11); (m3, priors3); (m4, priors4); (m6, priors6)].

(** a sampled angle of position on the sky in degrees, as its prior declares it *)
Definition is_angle (a : param) : Prop :=
  (exists x, pa_name a = (x ++ s "deg")%list) /\ pa_lo a = 0 /\ pa_hi a = 180 /\ pa_wrap a = Some (s "periodic").

(** the squared wavelength of a frequency *)
Definition l2_of (f : R) : R := (299792458 / f) ^ 2.

(** (p, q, u) are the amplitude, real and imaginary part of z(l2) in every channel, blank where the frequency is *)
Definition spectra_of (freq : list (option R)) (z : R -> C) (x : pqu) : Prop :=
  let '(p, q, u) := x in
  List.length p = List.length freq /\ List.length q = List.length freq /\ List.length u = List.length freq /\
  forall k f, nth_error freq k = Some f ->
    match f with
    | Some f => f <> 0 -> nth k p None = Some (Cmod (z (l2_of f))) /\ nth k q None = Some (fst (z (l2_of f))) /\ nth k u None = Some (snd (z (l2_of f)))
    | None => nth k q None = None /\ nth k u None = None
    end.

(** I is the power law of index SI through fluxI at the frequency r, and Q, U are I times the parts of z *)
Definition scaled_spectra (freq : list (option R)) (fluxI SI r : R) (z : R -> C) (I Q U : list (option R)) : Prop :=
  forall k f, nth_error freq k = Some (Some f) ->
    nth k I None = Some (fluxI * Rpower (f / r) SI) /\
    nth k Q None = Some (fluxI * Rpower (f / r) SI * fst (z (l2_of f))) /\ nth k U None = Some (fluxI * Rpower (f / r) SI * snd (z (l2_of f))).
