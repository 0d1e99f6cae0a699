(** Vocabulary for statements about the QU-fitting tool. The priors, the
    sampler's result and the saved results are its API. *)
From Coq Require Import Reals List Arith ZArith Bool String Ascii.
Set Warnings "-ambiguous-paths".
From Coquelicot Require Import Coquelicot.
From Verif Require Import CBase PyRes PyStr Measure_Model Measure_Spec Setup_Spec StokesI_Model StokesI_Spec MpI_Spec Run1D_Model Run1D_Spec QU_Model QU_Spec QU_Extra Qrun_Model.
Import ListNotations.
Local Open Scope R_scope.

(** the parameters of a model that are reported, and those that are varied *)
Definition parameters (ks : list kprior) : list kprior := filter (fun k => match k_class k with KConstraint => false | _ => true end) ks.
Definition varied (ks : list kprior) : list kprior := filter (fun k => match k_class k with KOther => true | _ => false end) ks.

(** the priors are those of a dictionary, and a fixed value is both its limits *)
Definition proper_priors (ks : list kprior) : Prop :=
  NoDup (map k_key ks) /\ forall k, In k ks -> k_class k = KDelta -> k_min k = k_max k.

(** the sampler returns a column for every varied parameter, and has called the likelihood *)
Definition sampler_ok (sampler : sampler_t) : Prop :=
  forall L ks x, sampler L ks = Some x -> List.length (s_cols x) = List.length (varied ks) /\ s_lnl x <> [] /\ forall c, In c (s_cols x) -> c <> [].

(** an angle on the sky in degrees *)
Definition prior_angle (k : kprior) : Prop :=
  (exists x, k_key k = (x ++ s "deg")%list) /\ k_min k = 0 /\ k_max k = 180 /\ k_bound k = Some (s "periodic").

(** no fixed parameter is listed before an angle *)
Definition angles_first (ks : list kprior) : Prop :=
  forall a k b, parameters ks = (a ++ k :: b)%list -> prior_angle k -> forall k', In k' a -> k_class k' = KOther.

(** the model number num, as found in the working directory or the installation *)
Definition model_found (cwd installed : nat -> lookup) (num : nat) (m : modfile) : Prop :=
  cwd num = Found m \/ cwd num = Missing /\ installed num = Found m.

(** the value, upper and lower error reported for the parameter k *)
Definition result_for (r : qu_out) (k : kprior) (v plus minus : R) : Prop :=
  exists i, nth_error (u_names r) i = Some (k_key k) /\ nth_error (q_values (u_fit r)) i = Some v /\
    nth_error (q_plus (u_fit r)) i = Some plus /\ nth_error (q_minus (u_fit r)) i = Some minus.

(** The reported angle v for samples col: in [0,180), congruent to the median m
    of the samples counted from 0 or from 90 degrees, whichever is farther from
    their median m0, and one of the samples if their number is odd. *)
Definition angle_of_samples (col : list R) (v : R) : Prop :=
  exists m0 o offs m, median col = Some m0 /\ (o = 0 /\ 45 <= m0 < 135 \/ o = 90 /\ (m0 < 45 \/ 135 <= m0)) /\
    Forall2 (fun x y => 0 <= y < 180 /\ same_angle y (x - o)) col offs /\ median offs = Some m /\
    0 <= v < 180 /\ same_angle v (m + o) /\ (Nat.even (List.length col) = false -> In v col).

(** The errors reach from the median to the 16 and 84 percent points of the
    samples, for an angle possibly counted from 90 degrees. *)
Definition spread_of_samples (col : list R) (plus minus : R) : Prop :=
  exists o y lo mid hi, Forall2 (fun x y => o = 0 /\ y = x \/ o = 90 /\ same_angle y (x - 90)) col y /\
    splits_at (16 / 100) y lo /\ splits_at (/ 2) y mid /\ splits_at (84 / 100) y hi /\ lo <= mid <= hi /\ plus = hi - mid /\ minus = mid - lo.

(** The report for the samples x: every parameter, fixed or varied, by its
    samples; the columns of the corner plot are the samples, those of an angle
    up to multiples of 180 degrees and around the reported value (if that is
    not 135). *)
Definition reports (ks : list kprior) (x : sres) (r : qu_out) : Prop :=
  u_names r = map k_key (parameters ks) /\ u_nFree r = List.length (varied ks) /\ u_lnZ r = s_lnZ x /\ u_dlnZ r = s_dlnZ x /\
  List.length (u_corner r) = List.length (varied ks) /\
  forall k, In k (parameters ks) -> exists v plus minus, result_for r k v plus minus /\
    (k_class k = KDelta -> v = k_min k /\ plus = 0 /\ minus = 0) /\
    forall i col, nth_error (varied ks) i = Some k -> nth_error (s_cols x) i = Some col -> exists col', nth_error (u_corner r) i = Some col' /\
      (~ prior_angle k -> median col = Some v /\ 0 <= plus /\ 0 <= minus /\ col' = col) /\
      (prior_angle k -> (forall y, In y col -> 0 <= y < 180) -> angle_of_samples col v /\ spread_of_samples col plus minus /\
         Forall2 same_angle col' col /\ (Nat.even (List.length col) = false -> v <> 135 -> median col' = Some v)).

(** The goodness of fit: chi-squared of the reported values, and the criteria
    for as many data as there are channels, blank or not, times two. *)
Definition goodness (m : modfile) (l2 : list R) (q u dq du : list (option R)) (x : sres) (r : qu_out) : Prop :=
  let k := INR (List.length (varied (f_priors m))) in let n := 2 * INR (List.length l2) in
  exists lnL, is_max (s_lnl x) lnL /\
    q_AIC (u_fit r) = 2 * k - 2 * lnL /\ q_BIC (u_fit r) = k * ln n - 2 * lnL /\
    (n - k - 1 <> 0 -> q_AICc (u_fit r) = Some (2 * k * (k + 1) / (n - k - 1) - 2 * lnL)) /\
    q_dof (u_fit r) = n - k - 1 /\
    forall sp, f_model m (combine (u_names r) (q_values (u_fit r))) l2 = POk sp -> errors_ok dq -> errors_ok du ->
      exists c, q_chiSq (u_fit r) = Some c /\ c = chi2_both q (map re_of sp) dq u (map im_of sp) du /\
        (q_dof (u_fit r) <> 0 -> q_chiSqRed (u_fit r) = Some (c / q_dof (u_fit r))).

(** input without Stokes I, or with it ignored *)
Definition fractional_input (d : synth_data) (noI : bool) (freq : list R) (Q U dQ dU : list (option R)) : Prop :=
  (d = Data5 freq Q U dQ dU \/ (exists I0 dI0, d = Data7 freq I0 Q U dI0 dQ dU) /\ noI = true) /\
  freq <> [] /\ List.length Q = List.length freq /\ List.length U = List.length freq /\ List.length dQ = List.length freq /\ List.length dU = List.length freq.

(** input with a Stokes I of c wherever it is not blank, some channel having a usable error (or all errors zero) *)
Definition flat_input (d : synth_data) (noI : bool) (freq : list R) (c : R) (Q U dQ dU : list (option R)) : Prop :=
  exists iA dI, d = Data7 freq iA Q U dI dQ dU /\ noI = false /\ c <> 0 /\
    List.length iA = List.length freq /\ List.length dI = List.length freq /\
    List.length Q = List.length freq /\ List.length U = List.length freq /\ List.length dQ = List.length freq /\ List.length dU = List.length freq /\
    finite_chans freq iA dI <> [] /\ (forall t, In t (with_errors (finite_chans freq iA dI)) -> snd t <> 0) /\
    (forall t, In t (finite_chans freq iA dI) -> snd (fst t) = c).
Definition over (c : R) : list (option R) -> list (option R) := map (option_map (fun x => x / c)).

(** the model can be evaluated whatever the values of its parameters *)
Definition computable (m : modfile) (l2 : list R) : Prop :=
  forall p, List.length p = List.length (parameters (f_priors m)) -> exists sp, f_model m (combine (map k_key (parameters (f_priors m))) p) l2 = POk sp.

(** q and u are the real and imaginary part of the spectrum sp where they are not blank *)
Definition generated (sp : list (option C)) (q u : list (option R)) : Prop :=
  (forall j v, nth_error q j = Some (Some v) -> exists z, nth_error sp j = Some (Some z) /\ v = fst z) /\
  (forall j v, nth_error u j = Some (Some v) -> exists z, nth_error sp j = Some (Some z) /\ v = snd z).

(** d0 has the largest value of L *)
Definition best (L : pdict -> pyres (option R)) (d0 : pdict) : Prop :=
  exists y0, L d0 = POk (Some y0) /\ forall d y, L d = POk (Some y) -> y <= y0.
