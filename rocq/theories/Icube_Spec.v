(** Vocabulary for the Stokes I cube tools. Pixels are (y, x); the order of a
    coefficient is the power it multiplies. Nothing here comes from the model of
    the tools but the types of their results. *)
From Coq Require Import Reals List Arith ZArith Bool Ascii String.
Set Warnings "-ambiguous-paths".
From Coquelicot Require Import Coquelicot.
From Verif Require Import CBase PyRes PyStr NdArray NdIndex Measure_Model StokesI_Model StokesI_Spec Cube_Model Cube_Spec Icube_Model.
Import ListNotations.
Local Open Scope R_scope.

(** The image has two sky axes, then the spectral axis and axes of length one in
    any order; each of the three has at least two elements. *)
Definition sky_cube (f : image (option R)) (k : nat) : Prop :=
  wf_image f /\ spectral_axis (s "FREQ") (i_ctype f) k /\ (3 <= k)%nat /\
  (2 <= len (i_naxis f) 1)%nat /\ (2 <= len (i_naxis f) 2)%nat /\ (2 <= len (i_naxis f) k)%nat /\
  (forall a, (3 <= a <= List.length (i_naxis f))%nat -> a <> k -> len (i_naxis f) a = 1%nat).

(** channel j of the pixel (y, x) *)
Definition sample (f : image (option R)) (k j y x : nat) : option R :=
  vox None f (fun a => if (a =? 1)%nat then x else if (a =? 2)%nat then y else if (a =? k)%nat then j else 0%nat).
Definition spectrum (f : image (option R)) (k y x : nat) : list (option R) := map (fun j => sample f k j y x) (seq 0 (len (i_naxis f) k)).

(** the finite samples of channel j *)
Definition channel_values (f : image (option R)) (k j : nat) : list R :=
  flat_map (fun y => flat_map (fun x => match sample f k j y x with Some v => [v] | None => [] end) (seq 0 (len (i_naxis f) 1))) (seq 0 (len (i_naxis f) 2)).

Definition below (c : R) (l : list R) : list R := filter (fun v => if Rlt_dec v c then true else false) l.
(** What is left of a channel as noise: first what is below the threshold in flux
    (or what is not zero), then what is below its median plus three sigma. *)
Definition sky_values (threshold : R) (l : list R) : list R :=
  let first := if Rlt_dec 0 threshold then below threshold l else filter (fun v => if Req_EM_T v 0 then false else true) l in
  match median first, MAD (map Some first) with Some m, Some sg => below (m + 3 * sg) l | _, _ => [] end.
Definition channel_noise (f : image (option R)) (k : nat) (threshold : R) (j : nat) : option R :=
  MAD (map Some (sky_values threshold (channel_values f k j))).
(** the level above which a sample counts as emission *)
Definition detection_level (f : image (option R)) (k : nat) (threshold : R) (j : nat) : option R :=
  if Rlt_dec 0 threshold then Some threshold
  else match median (sky_values threshold (channel_values f k j)), channel_noise f k threshold j with
       | Some m, Some sg => Some (m - threshold * sg)
       | _, _ => None
       end.
(** some channel of the pixel is above its level *)
Definition detected (f : image (option R)) (k : nat) (threshold : R) (y x : nat) : Prop :=
  exists j v c, (j < len (i_naxis f) k)%nat /\ sample f k j y x = Some v /\ detection_level f k threshold j = Some c /\ c < v.

(** the model, its coefficients and errors by order, the reference frequency, and
    the covariances, in one pixel *)
Definition model_sample (w : fit_files) (j y x : nat) : option R := at_nd None (i_data (w_model w)) [j; y; x].
Definition coeff_at (w : fit_files) (i y x : nat) : option R := at_nd None (fst (nth i (w_coeff w) (mk_nd [] [], mk_nd [] []))) [y; x].
Definition err_at (w : fit_files) (i y x : nat) : option R := at_nd None (snd (nth i (w_coeff w) (mk_nd [] [], mk_nd [] []))) [y; x].
Definition ref_at (w : fit_files) (y x : nat) : option R := at_nd None (w_ref w) [y; x].
Definition cov_at (w : fit_files) (a b y x : nat) : option R := at_nd None (w_cov w) [a; b; y; x].

(** two names for the functions *)
Definition known_name (name : str) (ff : fit_fun) : Prop := (name = s "linear" /\ ff = Linear) \/ (name = s "log" /\ ff = Log).

(** The files say, for one pixel, what the fit [fr] says. *)
Definition pixel_says (w : fit_files) (freq : list R) (y x : nat) (fr : FitResult) : Prop :=
  ref_at w y x = Some (ref_freq fr) /\
  (forall j, (j < List.length freq)%nat -> model_sample w j y x = Some (model_at fr (nth j freq 0))) /\
  (forall i, (i < List.length (w_coeff w))%nat -> coeff_at w i y x = Some (nth (5 - i) (params fr) 0) /\ err_at w i y x = nth (5 - i) (perror fr) None) /\
  (forall a b, (a < 6)%nat -> (b < 6)%nat -> cov_at w a b y x = option_map (fun c => c a b) (pcov fr)).
(** The files say nothing about a pixel. *)
Definition pixel_blank (w : fit_files) (n y x : nat) : Prop :=
  ref_at w y x = None /\ (forall j, (j < n)%nat -> model_sample w j y x = None) /\
  (forall i, (i < List.length (w_coeff w))%nat -> coeff_at w i y x = None /\ err_at w i y x = None) /\
  (forall a b, (a < 6)%nat -> (b < 6)%nat -> cov_at w a b y x = None).
(** A pixel in the mask that could not be fitted: no model, but zeros. *)
Definition pixel_unfitted (w : fit_files) (n y x : nat) : Prop :=
  ref_at w y x = None /\ (forall j, (j < n)%nat -> model_sample w j y x = None) /\
  (forall i, (i < List.length (w_coeff w))%nat -> coeff_at w i y x = (if (i =? 0)%nat then None else Some 0) /\ err_at w i y x = Some 0) /\
  (forall a b, (a < 6)%nat -> (b < 6)%nat -> cov_at w a b y x = None).
(** some channel of a spectrum can be fitted *)
Definition fittable (spec noise : list (option R)) : Prop := exists j v e, nth j spec None = Some v /\ nth j noise None = Some e.

(** mpfit returns six parameters and, if any, six errors *)
Definition six (mpfit : mpin -> pyres mpres) : Prop :=
  forall q r, mpfit q = POk r -> List.length (mp_params r) = 6%nat /\ forall e, mp_perror r = Some e -> List.length e = 6%nat.

(** mpfit leaves a fixed parameter at its starting value, zero *)
Definition keeps_fixed (mpfit : mpin -> pyres mpres) : Prop :=
  forall q r i, mpfit q = POk r -> nth i (in_fixed q) false = true -> nth i (mp_params r) 0 = 0.

(* ------------------------------------------------------------- rescaling *)

Definition digits (n : str) : Prop := forallb (fun c => (48 <=? nat_of_ascii c) && (nat_of_ascii c <=? 57))%nat n = true.
(** a HISTORY line that names the function fitted *)
Definition function_line (name l : str) : Prop :=
  exists n, digits n /\
    (l = s "Fit model is " ++ n ++ s "-order " ++ name ++ s "-polynomial" \/
     l = s "Fit model is dynamic order " ++ name ++ s "-polynomial, max order " ++ n)%list.
(** the last line that speaks of a fit names the function *)
Definition fitted_with (w : fit_files) (name : str) : Prop :=
  exists h l t, w_history w = (h ++ l :: t)%list /\ function_line name l /\ forall l', In l' t -> ~ exists a b, l' = (a ++ s "Fit model is" ++ b)%list.

(** The maps are of one size, the files of coefficients start at order zero. *)
Definition maps_of_size (w : fit_files) (ny nx : nat) : Prop :=
  shape (w_ref w) = [ny; nx] /\ wf_nd (w_ref w) /\ shape (w_cov w) = [6; 6; ny; nx]%nat /\ wf_nd (w_cov w) /\
  (0 < List.length (w_coeff w) <= 6)%nat /\ (forall p, In p (w_coeff w) -> shape (fst p) = [ny; nx] /\ wf_nd (fst p)).

(** The coefficients of a pixel, by order; orders without a file are zero. *)
Definition pixel_coeffs (w : fit_files) (y x : nat) (p : list R) : Prop :=
  List.length p = 6%nat /\ forall i, (i < 6)%nat ->
    ((i < List.length (w_coeff w))%nat -> coeff_at w i y x = Some (nth (5 - i) p 0)) /\ ((List.length (w_coeff w) <= i)%nat -> nth (5 - i) p 0 = 0).

Definition new_coeff (v : new_files) (i y x : nat) : option R := at_nd None (fst (nth i (v_coeff v) (mk_nd [] [], mk_nd [] []))) [y; x].
Definition new_err (v : new_files) (i y x : nat) : option R := at_nd None (snd (nth i (v_coeff v) (mk_nd [] [], mk_nd [] []))) [y; x].

(** the Stokes I spectrum with coefficients [p] about [ref] *)
Definition I_spectrum (ff : fit_fun) (p : list R) (ref f : R) : R := match ff with Log => log_model p ref f | _ => lin_model p ref f end.

(** a value that is neither zero nor NaN *)
Definition says (x : option R) : Prop := exists v, x = Some v /\ v <> 0.

(** the fit a pixel of the maps stands for *)
Definition stands_for (w : fit_files) (ff : fit_fun) (y x : nat) (fr : FitResult) : Prop :=
  fit_function fr = ff /\ ref_at w y x = Some (ref_freq fr) /\ 0 < ref_freq fr /\ pixel_coeffs w y x (params fr) /\
  exists c, pcov fr = Some c /\ forall a b, (a < 6)%nat -> (b < 6)%nat -> cov_at w a b y x = Some (c a b).

(** the finite reference frequencies *)
Definition ref_values (w : fit_files) (ny nx : nat) : list R :=
  flat_map (fun y => flat_map (fun x => match ref_at w y x with Some v => [v] | None => [] end) (seq 0 nx)) (seq 0 ny).
(** the new reference frequency; that of an FDF is from its LAMSQ0 and a speed of
    light of 299792453.8 m/s *)
Definition new_freq_is (w : fit_files) (how : new_reference) (ny nx : nat) (f0 : R) : Prop :=
  match how with
  | FromFDF l => (0 < l)%R /\ f0 = (2997924538 / 10 / sqrt l)%R
  | Given f => f0 = f
  | Common => ref_values w ny nx <> [] /\ f0 = (rsum (ref_values w ny nx) / INR (List.length (ref_values w ny nx)))%R
  end.
