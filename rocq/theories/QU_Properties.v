(** Properties of the QU-fitting models, likelihood, reported values, and of simulated spectra (C33, C34, C35, C36). *)
From Coq Require Import Reals List Arith ZArith Lia Lra Bool Permutation.
Set Warnings "-ambiguous-paths".
From Coquelicot Require Import Coquelicot.
From Verif Require Import CBase NdArray PyRes PyList PyStr Synth_Spec Measure_Model Measure_Spec Median_Proofs QU_Model QU_Spec QU_Proofs QU_Laws QU_Bounds QU_Like QU_Extra Sim_Proofs.
From Coq Require Import String.
Local Notation length := List.length.
Import ListNotations.
Local Open Scope R_scope.

(** C33. Without dispersion, the simulated spectrum is the sum of thin components, blank where the frequency is. *)
Theorem C33_thin_sum : forall freq p psi RM, List.length psi = List.length p -> List.length RM = List.length p ->
  exists x, create_pqu_spectra_burn freq p psi RM None = POk x /\
    spectra_of freq (fun l2 => csum (map (fun k => thin (nth k p 0) (rad (nth k psi 0)) (nth k RM 0) l2) (seq 0 (List.length p)))) x.
Proof. exact @sim_thin_sum. Qed.
Print Assumptions C33_thin_sum.
Example C33_nonvacuous : List.length [10; 20] = List.length [5 / 10; 3 / 10] /\ List.length [100; -50] = List.length [5 / 10; 3 / 10].
Proof. split; reflexivity. Qed.


(** C33. With dispersion s it is the sum of Burn terms of dispersion sqrt s ... *)
Theorem C33_burn_partial : forall freq p psi RM sg, List.length psi = List.length p -> List.length RM = List.length p -> List.length sg = List.length p ->
  (forall x, In x sg -> 0 <= x) ->
  exists x, create_pqu_spectra_burn freq p psi RM (Some sg) = POk x /\
    spectra_of freq (fun l2 => csum (map (fun k => burn (nth k p 0) (rad (nth k psi 0)) (nth k RM 0) (sqrt (nth k sg 0)) l2) (seq 0 (List.length p)))) x.
Proof. exact @sim_burn. Qed.
Print Assumptions C33_burn_partial.
Example C33_burn_nonvacuous : forall x, In x [4; 9] -> 0 <= x.
Proof. intros x [<- | [<- | []]]; lra. Qed.


(** C33. ... so for a single component it is the law of QU-fitting model 2 exactly when s is 0 or 1 (finding). *)
Theorem C33_burn_refuted : forall f p psi RM sg, f <> 0 -> p <> 0 -> exists q u z,
  create_pqu_spectra_burn [Some f] [p] [psi] [RM] (Some [sg]) = POk ([Some (Cmod z)], [q], [u]) /\
  q = Some (fst z) /\ u = Some (snd z) /\
  (z = burn p (rad psi) RM sg (l2_of f) <-> sg = 0 \/ sg = 1).
Proof. exact @sim_burn_refuted. Qed.
Print Assumptions C33_burn_refuted.


(** C33. Stacked slabs: each layer is the mean of thin emission over its own depth seen through the layers after it. *)
Theorem C33_slabs : forall freq p psi RM, List.length psi = List.length p -> List.length RM = List.length p ->
  exists x z, create_pqu_spectra_diff true freq p psi RM = POk x /\
    spectra_of freq (fun l2 => csum (map (fun i => z i l2) (seq 0 (List.length p)))) x /\
    forall i l2, (i < List.length p)%nat ->
      is_average (fun t => thin (nth i p 0) (rad (nth i psi 0)) (layers_in_front RM i + t * nth i RM 0) l2) (z i l2).
Proof. exact @sim_diff. Qed.
Print Assumptions C33_slabs.


(** C33. One layer is QU-fitting model 5 without foreground depth. *)
Theorem C33_slab_is_model5 : forall freq p psi RM d, pget d (s "fracPol") = POk p -> pget d (s "psi0_deg") = POk psi -> pget d (s "deltaRM_radm2") = POk RM ->
  pget d (s "RM_radm2") = POk 0 -> RM <> 0 -> (forall f, In f freq -> f <> 0) ->
  exists P Q U sp, create_pqu_spectra_diff true (map Some freq) [p] [psi] [RM] = POk (P, Q, U) /\ m5 d (map l2_of freq) = POk sp /\
    Q = map re_of sp /\ U = map im_of sp.
Proof. exact @sim_diff_m5. Qed.
Print Assumptions C33_slab_is_model5.
Example C33_slab_nonvacuous : let d := [(s "fracPol", 1 / 2); (s "psi0_deg", 30); (s "deltaRM_radm2", 20); (s "RM_radm2", 0)] in
  pget d (s "fracPol") = POk (1 / 2) /\ pget d (s "psi0_deg") = POk 30 /\ pget d (s "deltaRM_radm2") = POk 20 /\ pget d (s "RM_radm2") = POk 0.
Proof. repeat split; reflexivity. Qed.


(** C33. Finding: python lists of angles, which the function converts for its other arguments, raise. *)
Theorem C33_slab_list_refuted : forall freq p psi RM, create_pqu_spectra_diff false freq p psi RM = PErr.
Proof. exact @sim_diff_list_refuted. Qed.
Print Assumptions C33_slab_list_refuted.


(** C33. The thin source, and its constant amplitude. *)
Theorem C33_thin : forall freq p psi RM P Q U, create_pqu_spectra_RMthin freq p psi RM = (P, Q, U) ->
  P = map (fun _ => Some p) freq /\ exists P', spectra_of freq (thin p (rad psi) RM) (P', Q, U).
Proof. exact @sim_RMthin. Qed.
Print Assumptions C33_thin.


(** C33. Subtracting a thin source from its own spectrum leaves zero. *)
Theorem C33_residual : forall freq p psi RM P Q U, create_pqu_spectra_RMthin (map Some freq) p psi RM = (P, Q, U) -> (forall f, In f freq -> f <> 0) ->
  create_pqu_resid_RMthin Q U (map Some freq) p psi RM = (map (fun _ => Some 0) freq, map (fun _ => Some 0) freq, map (fun _ => Some 0) freq).
Proof. exact @sim_resid_self. Qed.
Print Assumptions C33_residual.


(** C33. Absolute spectra: a power law through fluxI at the reference frequency (first channel by default) times the fractional spectra. *)
Theorem C33_scaled_burn : forall (freq : list (option R)) (fluxI SI : R) (f0 : option R), (forall f, In f freq -> exists v, f = Some v /\ 0 < v) -> (forall v, f0 = Some v -> 0 < v) -> forall p psi RM sg I Q U, List.length psi = List.length p -> List.length RM = List.length p -> List.length sg = List.length p ->
    (forall x, In x sg -> 0 <= x) -> create_IQU_spectra_burn freq fluxI SI p psi RM (Some sg) f0 = POk (I, Q, U) ->
    exists r, (f0 = Some r \/ f0 = None /\ nth 0 freq None = Some r) /\
      scaled_spectra freq fluxI SI r (fun l2 => csum (map (fun k => burn (nth k p 0) (rad (nth k psi 0)) (nth k RM 0) (sqrt (nth k sg 0)) l2) (seq 0 (List.length p)))) I Q U.
Proof. exact @sim_IQU_burn. Qed.
Print Assumptions C33_scaled_burn.
Example C33_scaled_nonvacuous : forall f, In f [Some 1000000000; Some 1500000000] -> exists v, f = Some v /\ 0 < v.
Proof. intros f [<- | [<- | []]]; eexists; (split; [reflexivity|lra]). Qed.


(** C33. The same for slabs ... *)
Theorem C33_scaled_slabs : forall (freq : list (option R)) (fluxI SI : R) (f0 : option R), (forall f, In f freq -> exists v, f = Some v /\ 0 < v) -> (forall v, f0 = Some v -> 0 < v) -> forall p psi RM I Q U, List.length psi = List.length p -> List.length RM = List.length p ->
    create_IQU_spectra_diff true freq fluxI SI p psi RM f0 = POk (I, Q, U) ->
    exists r z, (f0 = Some r \/ f0 = None /\ nth 0 freq None = Some r) /\
      scaled_spectra freq fluxI SI r (fun l2 => csum (map (fun i => z i l2) (seq 0 (List.length p)))) I Q U /\
      forall i l2, (i < List.length p)%nat ->
        is_average (fun t => thin (nth i p 0) (rad (nth i psi 0)) (layers_in_front RM i + t * nth i RM 0) l2) (z i l2).
Proof. exact @sim_IQU_diff. Qed.
Print Assumptions C33_scaled_slabs.


(** C33. ... and for the thin source. *)
Theorem C33_scaled_thin : forall (freq : list (option R)) (fluxI SI : R) (f0 : option R), (forall f, In f freq -> exists v, f = Some v /\ 0 < v) -> (forall v, f0 = Some v -> 0 < v) -> forall p psi RM I Q U, create_IQU_spectra_RMthin freq fluxI SI p psi RM f0 = POk (I, Q, U) ->
    exists r, (f0 = Some r \/ f0 = None /\ nth 0 freq None = Some r) /\ scaled_spectra freq fluxI SI r (thin p (rad psi) RM) I Q U.
Proof. exact @sim_IQU_thin. Qed.
Print Assumptions C33_scaled_thin.


(** C34. No dispersion: model 2 is model 1. *)
Theorem C34_m2_m1 : forall d l2, pget d (s "sigmaRM_radm2") = POk 0 -> m2 d l2 = m1 d l2.
Proof. exact @m2_m1. Qed.
Print Assumptions C34_m2_m1.
Definition qd : pdict := [(s "fracPol", 1 / 2); (s "psi0_deg", 30); (s "RM_radm2", 10); (s "sigmaRM_radm2", 0); (s "deltaRM_radm2", 5);
  (s "fracPol1", 1 / 4); (s "fracPol2", 0); (s "fracPol3", 0); (s "psi01_deg", 10); (s "psi02_deg", 20); (s "psi03_deg", 20);
  (s "RM1_radm2", 3); (s "RM2_radm2", 4); (s "RM3_radm2", 4); (s "sigmaRM1_radm2", 0); (s "sigmaRM2_radm2", 0); (s "RM_screen", 10); (s "sigmaRM_radm2_FG", 0);
  (s "deltaRM1_radm2", 5); (s "deltaRM2_radm2", 5)].
Example C34_nonvacuous : pget qd (s "sigmaRM_radm2") = POk 0 /\ pget qd (s "fracPol3") = POk 0 /\ pget qd (s "psi03_deg") = POk 20 /\ pget qd (s "RM3_radm2") = POk 4 /\
  pget qd (s "sigmaRM1_radm2") = POk 0 /\ pget qd (s "sigmaRM2_radm2") = POk 0 /\ pget qd (s "sigmaRM_radm2_FG") = POk 0 /\ pget qd (s "RM_screen") = pget qd (s "RM_radm2").
Proof. repeat split; reflexivity. Qed.


(** C34. No common dispersion: model 3 is model 11. *)
Theorem C34_m3_m11 : forall d l2, pget d (s "sigmaRM_radm2") = POk 0 -> m3 d l2 = m11 d l2.
Proof. exact @m3_m11. Qed.
Print Assumptions C34_m3_m11.


(** C34. Equal dispersions: model 4 is model 3. *)
Theorem C34_m4_m3 : forall d l2 sg, pget d (s "sigmaRM1_radm2") = POk sg -> pget d (s "sigmaRM2_radm2") = POk sg -> pget d (s "sigmaRM_radm2") = POk sg ->
  m4 d l2 = m3 d l2.
Proof. exact @m4_m3. Qed.
Print Assumptions C34_m4_m3.


(** C34. Third component without polarisation: model 111 is model 11. *)
Theorem C34_m111_m11 : forall d l2 a r, pget d (s "fracPol3") = POk 0 -> pget d (s "psi03_deg") = POk a -> pget d (s "RM3_radm2") = POk r ->
  m111 d l2 = m11 d l2.
Proof. exact @m111_m11. Qed.
Print Assumptions C34_m111_m11.


(** C34. No foreground dispersion: model 12 is model 7. *)
Theorem C34_m12_m7 : forall d l2, pget d (s "sigmaRM_radm2_FG") = POk 0 -> pget d (s "RM_screen") = pget d (s "RM_radm2") ->
  m12 d l2 = m7 d l2.
Proof. exact @m12_m7. Qed.
Print Assumptions C34_m12_m7.


(** C34. No internal dispersion: model 7 is model 5. *)
Theorem C34_m7_m5 : forall d l2, pget d (s "sigmaRM_radm2") = POk 0 -> m7 d l2 = m5 d l2.
Proof. exact @m7_m5. Qed.
Print Assumptions C34_m7_m5.


(** C34. Second component without polarisation: model 11 is model 1 ... *)
Theorem C34_m11_m1 : forall d d1 l2 a r, component d "1" thin_keys d1 -> pget d (s "fracPol2") = POk 0 ->
  pget d (s "psi02_deg") = POk a -> pget d (s "RM2_radm2") = POk r -> m11 d l2 = m1 d1 l2.
Proof. exact @m11_m1. Qed.
Print Assumptions C34_m11_m1.


(** C34. ... model 4 is model 2 ... *)
Theorem C34_m4_m2 : forall d d1 l2 a r g, component d "1" burn_keys d1 -> pget d (s "fracPol2") = POk 0 ->
  pget d (s "psi02_deg") = POk a -> pget d (s "RM2_radm2") = POk r -> pget d (s "sigmaRM2_radm2") = POk g -> m4 d l2 = m2 d1 l2.
Proof. exact @m4_m2. Qed.
Print Assumptions C34_m4_m2.


(** C34. ... and model 6 is model 5, where the second slab has an extent. *)
Theorem C34_m6_m5 : forall d d1 l2 a r g, component d "1" slab_keys d1 -> pget d (s "fracPol2") = POk 0 ->
  pget d (s "psi02_deg") = POk a -> pget d (s "RM2_radm2") = POk r -> pget d (s "deltaRM2_radm2") = POk g -> g <> 0 -> (forall l, In l l2 -> l <> 0) ->
  m6 d l2 = m5 d1 l2.
Proof. exact @m6_m5. Qed.
Print Assumptions C34_m6_m5.


(** C34. Superposition: model 11 is the sum of two of model 1, *)
Theorem C34_m11_sum : forall d d1 d2 l2, component d "1" thin_keys d1 -> component d "2" thin_keys d2 ->
  m11 d l2 = add_spectra (m1 d1 l2) (m1 d2 l2).
Proof. exact @m11_sum. Qed.
Print Assumptions C34_m11_sum.


(** C34. model 111 of model 11 and model 1, *)
Theorem C34_m111_sum : forall d d1 d2 d3 l2, component d "1" thin_keys d1 -> component d "2" thin_keys d2 -> component d "3" thin_keys d3 ->
  m111 d l2 = add_spectra (add_spectra (m1 d1 l2) (m1 d2 l2)) (m1 d3 l2).
Proof. exact @m111_sum. Qed.
Print Assumptions C34_m111_sum.


(** C34. model 4 of two of model 2, *)
Theorem C34_m4_sum : forall d d1 d2 l2, component d "1" burn_keys d1 -> component d "2" burn_keys d2 ->
  m4 d l2 = add_spectra (m2 d1 l2) (m2 d2 l2).
Proof. exact @m4_sum. Qed.
Print Assumptions C34_m4_sum.


(** C34. model 3 likewise, *)
Theorem C34_m3_sum : forall d d1 d2 l2, component d "1" thin_keys d1 -> component d "2" thin_keys d2 ->
  pget d1 (s "sigmaRM_radm2") = pget d (s "sigmaRM_radm2") -> pget d2 (s "sigmaRM_radm2") = pget d (s "sigmaRM_radm2") ->
  m3 d l2 = add_spectra (m2 d1 l2) (m2 d2 l2).
Proof. exact @m3_sum. Qed.
Print Assumptions C34_m3_sum.


(** C34. model 6 of two of model 5. *)
Theorem C34_m6_sum : forall d d1 d2 l2, component d "1" slab_keys d1 -> component d "2" slab_keys d2 ->
  m6 d l2 = add_spectra (m5 d1 l2) (m5 d2 l2).
Proof. exact @m6_sum. Qed.
Print Assumptions C34_m6_sum.


(** C34. Adding spectra commutes. *)
Theorem C34_sum_comm : forall a b, add_spectra a b = add_spectra b a.
Proof. exact @add_spectra_comm. Qed.
Print Assumptions C34_sum_comm.


(** C34. Every angle of every model has period 180 degrees. *)
Theorem C34_periodic : forall m ks k d a n l2, In (m, ks) angle_keys -> In k ks -> pget d (s k) = POk a ->
  m (pset d (s k) (a + 180 * IZR n)) l2 = m d l2.
Proof. exact @angles_periodic. Qed.
Print Assumptions C34_periodic.
Example C34_periodic_nonvacuous : exists m keys, In (m, keys) angle_keys /\ In "psi02_deg"%string keys.
Proof. exists m11, ["psi01_deg"; "psi02_deg"]%string. split; cbn; auto 10. Qed.


(** C34. Model 5 is the mean of thin emission through the slab. *)
Theorem C34_m5_average : forall d l2 p dRM psi RM k, pget d (s "fracPol") = POk p ->
  pget d (s "deltaRM_radm2") = POk dRM -> pget d (s "psi0_deg") = POk psi -> pget d (s "RM_radm2") = POk RM ->
  (k < List.length l2)%nat -> nth k l2 0 <> 0 -> dRM <> 0 ->
  exists sp z, m5 d l2 = POk sp /\ nth k sp None = Some z /\ is_average (fun t => thin p (rad psi) (RM + t * dRM) (nth k l2 0)) z.
Proof. exact @m5_average. Qed.
Print Assumptions C34_m5_average.


(** C34. Model 7 is the mean of the emission of every layer of a slab with internal dispersion. *)
Theorem C34_m7_average : forall d l2 p sg dRM psi RM k, pget d (s "fracPol") = POk p -> pget d (s "sigmaRM_radm2") = POk sg ->
  pget d (s "deltaRM_radm2") = POk dRM -> pget d (s "psi0_deg") = POk psi -> pget d (s "RM_radm2") = POk RM ->
  (k < List.length l2)%nat -> nth k l2 0 <> 0 -> (sg <> 0 \/ dRM <> 0) ->
  exists sp z, m7 d l2 = POk sp /\ nth k sp None = Some z /\ is_average (slab_layer p (rad psi) RM dRM sg (nth k l2 0)) z.
Proof. exact @m7_average. Qed.
Print Assumptions C34_m7_average.


(** C34. Model 12 is that behind a dispersing screen. *)
Theorem C34_m12_average : forall d l2 p sg sF dRM psi RM k, pget d (s "fracPol") = POk p -> pget d (s "sigmaRM_radm2") = POk sg ->
  pget d (s "deltaRM_radm2") = POk dRM -> pget d (s "psi0_deg") = POk psi -> pget d (s "RM_screen") = POk RM -> pget d (s "sigmaRM_radm2_FG") = POk sF ->
  (k < List.length l2)%nat -> nth k l2 0 <> 0 -> (sg <> 0 \/ dRM <> 0) ->
  exists sp z, m12 d l2 = POk sp /\ nth k sp None = Some (z * RtoC (exp (-2 * sF ^ 2 * nth k l2 0 ^ 2)))%C /\
    is_average (slab_layer p (rad psi) RM dRM sg (nth k l2 0)) z.
Proof. exact @m12_average. Qed.
Print Assumptions C34_m12_average.


(** C34. A slab of small extent is close to a thin source (with a rate). *)
Theorem C34_m5_near_m1 : forall d l2 p dRM psi RM k, pget d (s "fracPol") = POk p ->
  pget d (s "deltaRM_radm2") = POk dRM -> pget d (s "psi0_deg") = POk psi -> pget d (s "RM_radm2") = POk RM ->
  (k < List.length l2)%nat -> nth k l2 0 <> 0 -> dRM <> 0 ->
  exists sp z sp1 z1, m5 d l2 = POk sp /\ nth k sp None = Some z /\ m1 d l2 = POk sp1 /\ nth k sp1 None = Some z1 /\
    Cmod (z - z1)%C <= Rabs p * (Rabs (dRM * nth k l2 0) + 2 * (dRM * nth k l2 0) ^ 2).
Proof. exact @m5_near_m1. Qed.
Print Assumptions C34_m5_near_m1.


(** C34. Inside the priors the single-component models give a value in every channel, never more than fully polarised. *)
Theorem C34_single_bounded : forall m pr d l2, In (m, pr) single_models -> samples_of pr d ->
  (exists sp, m d l2 = POk sp /\ List.length sp = List.length l2) /\ bounded_by (m d l2) 1.
Proof. exact @single_models_ok. Qed.
Print Assumptions C34_single_bounded.
Example C34_prior_nonvacuous : samples_of priors5 [(s "fracPol", 1 / 2); (s "psi0_deg", 30); (s "RM_radm2", 10); (s "deltaRM_radm2", 5)].
Proof.
  intros x Hx _. unfold priors5, priors1, uni, ang in Hx. cbn [app In] in Hx.
  repeat (destruct Hx as [<- |Hx]; [eexists; split; [reflexivity|cbn; lra]|]). destruct Hx.
Qed.


(** C34. The two-component models likewise, when the constraints of the prior hold ... *)
Theorem C34_pair_bounded : forall m pr d l2, In (m, pr) pair_models -> samples_of pr d ->
  (exists sp, m d l2 = POk sp /\ List.length sp = List.length l2) /\
  exists d', converter2 d = POk d' /\ (constraints_hold pr d' -> bounded_by (m d l2) 1).
Proof. exact @pair_models_ok. Qed.
Print Assumptions C34_pair_bounded.


(** C34. ... and the three-component model. *)
Theorem C34_triple_bounded : forall d l2, samples_of priors111 d ->
  (exists sp, m111 d l2 = POk sp /\ List.length sp = List.length l2) /\
  exists d', converter3 d = POk d' /\ (constraints_hold priors111 d' -> bounded_by (m111 d l2) 1).
Proof. exact @triple_model_ok. Qed.
Print Assumptions C34_triple_bounded.


(** C34. Model 1: amplitude at most the fractional polarisation. *)
Theorem C34_m1_bound : forall d l2 p, pget d (s "fracPol") = POk p -> 0 <= p -> bounded_by (m1 d l2) p.
Proof. exact @m1_bound. Qed.
Print Assumptions C34_m1_bound.


(** C34. Model 2: amplitude at most the fractional polarisation. *)
Theorem C34_m2_bound : forall d l2 p, pget d (s "fracPol") = POk p -> 0 <= p -> bounded_by (m2 d l2) p.
Proof. exact @m2_bound. Qed.
Print Assumptions C34_m2_bound.


(** C34. Model 5: amplitude at most the fractional polarisation. *)
Theorem C34_m5_bound : forall d l2 p, pget d (s "fracPol") = POk p -> 0 <= p -> bounded_by (m5 d l2) p.
Proof. exact @m5_bound. Qed.
Print Assumptions C34_m5_bound.


(** C34. Model 7: amplitude at most the fractional polarisation. *)
Theorem C34_m7_bound : forall d l2 p, pget d (s "fracPol") = POk p -> 0 <= p -> bounded_by (m7 d l2) p.
Proof. exact @m7_bound. Qed.
Print Assumptions C34_m7_bound.


(** C34. Model 12: amplitude at most the fractional polarisation. *)
Theorem C34_m12_bound : forall d l2 p, pget d (s "fracPol") = POk p -> 0 <= p -> bounded_by (m12 d l2) p.
Proof. exact @m12_bound. Qed.
Print Assumptions C34_m12_bound.


(** C34. Model 11: amplitude at most the sum of the fractional polarisations. *)
Theorem C34_m11_bound : forall d l2 p1 p2, pget d (s "fracPol1") = POk p1 -> pget d (s "fracPol2") = POk p2 -> 0 <= p1 -> 0 <= p2 -> bounded_by (m11 d l2) (p1 + p2).
Proof. exact @m11_bound. Qed.
Print Assumptions C34_m11_bound.


(** C34. Model 3: amplitude at most the sum of the fractional polarisations. *)
Theorem C34_m3_bound : forall d l2 p1 p2, pget d (s "fracPol1") = POk p1 -> pget d (s "fracPol2") = POk p2 -> 0 <= p1 -> 0 <= p2 -> bounded_by (m3 d l2) (p1 + p2).
Proof. exact @m3_bound. Qed.
Print Assumptions C34_m3_bound.


(** C34. Model 4: amplitude at most the sum of the fractional polarisations. *)
Theorem C34_m4_bound : forall d l2 p1 p2, pget d (s "fracPol1") = POk p1 -> pget d (s "fracPol2") = POk p2 -> 0 <= p1 -> 0 <= p2 -> bounded_by (m4 d l2) (p1 + p2).
Proof. exact @m4_bound. Qed.
Print Assumptions C34_m4_bound.


(** C34. Model 6: amplitude at most the sum of the fractional polarisations. *)
Theorem C34_m6_bound : forall d l2 p1 p2, pget d (s "fracPol1") = POk p1 -> pget d (s "fracPol2") = POk p2 -> 0 <= p1 -> 0 <= p2 -> bounded_by (m6 d l2) (p1 + p2).
Proof. exact @m6_bound. Qed.
Print Assumptions C34_m6_bound.


(** C34. Model 111: amplitude at most the sum of the fractional polarisations. *)
Theorem C34_m111_bound : forall d l2 p1 p2 p3, pget d (s "fracPol1") = POk p1 -> pget d (s "fracPol2") = POk p2 -> pget d (s "fracPol3") = POk p3 ->
  0 <= p1 -> 0 <= p2 -> 0 <= p3 -> bounded_by (m111 d l2) (p1 + p2 + p3).
Proof. exact @m111_bound. Qed.
Print Assumptions C34_m111_bound.


(** C34. The ordering constraint loses no model: the components can always be ordered. *)
Theorem C34_order : forall d l2 p1 p2 a1 a2 r1 r2, pget d (s "fracPol1") = POk p1 -> pget d (s "fracPol2") = POk p2 ->
  pget d (s "psi01_deg") = POk a1 -> pget d (s "psi02_deg") = POk a2 -> pget d (s "RM1_radm2") = POk r1 -> pget d (s "RM2_radm2") = POk r2 ->
  exists e e' x, m11 e l2 = m11 d l2 /\ converter2 e = POk e' /\ pget e' (s "delta_RM1_RM2_radm2") = POk x /\ 0 <= x.
Proof. exact @m11_order. Qed.
Print Assumptions C34_order.


(** C34. Finding: model 5 without extent, which its prior allows, is NaN in every channel and has the largest likelihood of all. *)
Theorem C34_nan_refuted : forall l2 q dq u du, errors_ok dq -> errors_ok du ->
  exists d0, samples_of priors5 d0 /\ m5 d0 l2 = POk (repeat None (length l2)) /\
  forall d, samples_of priors5 d -> exists L L0, log_likelihood m5 d l2 q dq u du = POk (Some L) /\ log_likelihood m5 d0 l2 q dq u du = POk (Some L0) /\ L <= L0.
Proof. exact @m5_nan_refuted. Qed.
Print Assumptions C34_nan_refuted.
Example C34_nan_nonvacuous : errors_ok [Some 1; None; Some 2].
Proof. intros x [H | [H | [H | []]]]; try discriminate; injection H as <-; lra. Qed.


(** C35. The log-likelihoods of two parameter sets differ by minus half the difference of chi-squared. *)
Theorem C35_difference : forall model d1 d2 sp1 sp2 l2 q dq u du, model d1 l2 = POk sp1 -> model d2 l2 = POk sp2 -> errors_ok dq -> errors_ok du ->
  exists L1 L2, log_likelihood model d1 l2 q dq u du = POk (Some L1) /\ log_likelihood model d2 l2 q dq u du = POk (Some L2) /\
    L1 - L2 = - (chi2 q (map re_of sp1) dq + chi2 u (map im_of sp1) du - (chi2 q (map re_of sp2) dq + chi2 u (map im_of sp2) du)) / 2.
Proof. exact @loglike_difference. Qed.
Print Assumptions C35_difference.


(** C35. Finding: the value is not the Gaussian log-likelihood but lower, by at least N ln 2. *)
Theorem C35_value_refuted : forall model d sp l2 q dq u du, model d l2 = POk (map Some sp) ->
  length sp = length q -> length dq = length q -> length u = length q -> length du = length q ->
  (forall x, In x dq -> 0 < x) -> (forall x, In x du -> 0 < x) ->
  exists L, log_likelihood model d l2 (map Some q) (map Some dq) (map Some u) (map Some du) = POk (Some L) /\
    L = gauss_loglike q (map fst sp) dq + gauss_loglike u (map snd sp) du
        - rsum (map (fun ab => ln ((fst ab ^ 2 + snd ab ^ 2) / (fst ab * snd ab))) (combine dq du)) /\
    L <= gauss_loglike q (map fst sp) dq + gauss_loglike u (map snd sp) du - INR (length q) * ln 2.
Proof. exact @loglike_gauss. Qed.
Print Assumptions C35_value_refuted.
Example C35_nonvacuous : exists sp, m1 [(s "fracPol", 1 / 2); (s "psi0_deg", 30); (s "RM_radm2", 10)] [1; 2] = POk (map Some sp) /\ List.length sp = 2%nat.
Proof. eexists [_; _]. split; reflexivity. Qed.


(** C35. Chi-squared of the reported parameters, and the reduced one. *)
Theorem C35_chisq : forall model l lnL l2 q dq u du r sp, postprocess model l lnL l2 q dq u du = POk r ->
  model (combine (map pa_name l) (q_values r)) l2 = POk sp -> errors_ok dq -> errors_ok du ->
  exists x, q_chiSq r = Some x /\ x = chi2_both q (map re_of sp) dq u (map im_of sp) du /\
    (q_dof r <> 0 -> q_chiSqRed r = Some (x / q_dof r)).
Proof. exact @fit_chisq. Qed.
Print Assumptions C35_chisq.


(** C35. AIC and BIC are the standard ones for 2 N data; AICc lacks the term 2 k (finding); the degrees of freedom are one too few. *)
Theorem C35_criteria_partial : forall model l lnL l2 q dq u du r, postprocess model l lnL l2 q dq u du = POk r ->
  let k := INR (length (filter (fun a => negb (pa_delta a)) l)) in let n := 2 * INR (length l2) in
  q_AIC r = 2 * k - 2 * lnL /\ q_BIC r = k * ln n - 2 * lnL /\
  (n - k - 1 <> 0 -> exists c, q_AICc r = Some c /\ c = (2 * k - 2 * lnL + 2 * k * (k + 1) / (n - k - 1)) - 2 * k) /\
  q_dof r = n - k - 1.
Proof. exact @criteria. Qed.
Print Assumptions C35_criteria_partial.


(** C36. The median of the samples is the 50 percent quantile. *)
Theorem C36_quantile_median : forall v, v <> [] -> median v = Some (quantile (/ 2) v).
Proof. exact @quantile_half. Qed.
Print Assumptions C36_quantile_median.
Example C36_median_nonvacuous : [1; 2] <> [].
Proof. discriminate. Qed.


(** C36. The reported angle is in [0,180), congruent to the median of the samples counted from 0 or 90 degrees, and one of the samples if their number is odd. *)
Theorem C36_angle : forall l a m0, NoDup (map pa_name l) -> In a l -> is_angle a -> (forall x, In x (pa_col a) -> 0 <= x < 180) ->
  median (pa_col a) = Some m0 ->
  let v := fst (fst (summary l a)) in
  exists o offs m, (o = 0 /\ 45 <= m0 < 135 \/ o = 90 /\ (m0 < 45 \/ 135 <= m0)) /\
    Forall2 (fun x y => 0 <= y < 180 /\ same_angle y (x - o)) (pa_col a) offs /\ median offs = Some m /\
    0 <= v < 180 /\ same_angle v (m + o) /\ (Nat.even (length (pa_col a)) = false -> In v (pa_col a)).
Proof. exact @angle_reported. Qed.
Print Assumptions C36_angle.
Example C36_nonvacuous : let a := mk_param (s "psi0_deg") 0 180 (Some (s "periodic")) false [1; 179; 2] in
  is_angle a /\ (forall x, In x (pa_col a) -> 0 <= x < 180) /\ NoDup (map pa_name [a]) /\ In a [a].
Proof.
  split; [split; [exists (s "psi0_"); reflexivity|repeat split]|]. split; [intros x [<- | [<- | [<- | []]]]; lra|].
  split; [constructor; [intros []|constructor]|left; reflexivity].
Qed.


(** C36. Finding: with an even number of samples on the two sides of 0, the report is 90 degrees off. *)
Theorem C36_split_refuted : exists a, is_angle a /\ (forall x, In x (pa_col a) -> 0 <= x < 180) /\
  (forall x, In x (pa_col a) -> exists y, same_angle x y /\ -1 <= y <= 1) /\ fst (fst (summary [a] a)) = 90.
Proof. exact @angle_split_refuted. Qed.
Print Assumptions C36_split_refuted.


(** C36. Other parameters: the median of the samples. *)
Theorem C36_plain : forall l a m, NoDup (map pa_name l) -> In a l -> to_rotate a = false -> median (pa_col a) = Some m ->
  fst (fst (summary l a)) = m.
Proof. exact @plain_reported. Qed.
Print Assumptions C36_plain.


(** C36. Error bars are never negative. *)
Theorem C36_error_bars : forall l a v plus minus, pa_col a <> [] -> summary l a = (v, plus, minus) -> 0 <= plus /\ 0 <= minus.
Proof. exact @error_bars_nonneg. Qed.
Print Assumptions C36_error_bars.


(** C36. They reach from the median to the 16 and 84 percent points. *)
Theorem C36_error_bar_points : forall l a v plus minus, pa_col a <> [] -> (forall x, In x (pa_col a) -> 0 <= x < 180) -> summary l a = (v, plus, minus) ->
  exists o post lo mid hi, Forall2 (fun x y => o = 0 /\ y = x \/ o = 90 /\ same_angle y (x - 90)) (pa_col a) post /\
    splits_at (16 / 100) post lo /\ splits_at (/ 2) post mid /\ splits_at (84 / 100) post hi /\ lo <= mid <= hi /\ plus = hi - mid /\ minus = mid - lo.
Proof. exact @error_bars_spec. Qed.
Print Assumptions C36_error_bar_points.


(** C36. Quantiles increase. *)
Theorem C36_quantile_mono : forall v p q, v <> [] -> 0 <= p <= q -> q <= 1 -> quantile p v <= quantile q v.
Proof. exact @quantile_mono. Qed.
Print Assumptions C36_quantile_mono.


(** C36. Wrapping a chain: flagged columns stay congruent and within one period around the best fit, the others are unchanged. *)
Theorem C36_wrap : forall cols wraps bounds p i lo hi, (i < length cols)%nat -> nth i bounds (0, 0) = (lo, hi) -> lo < hi ->
  (forall n, nth i wraps (WInt 0) = WInt n -> n = 0%Z -> nth i (wrap_chains cols wraps bounds p) [] = nth i cols []) /\
  (forall w, nth i wraps (WInt 0) = w -> w <> WInt 0 ->
     Forall2 (fun x y => (exists k : Z, y = x + IZR k * (hi - lo)) /\ nth i p 0 - (hi - lo) / 2 <= y < nth i p 0 + (hi - lo) / 2)
       (nth i cols []) (nth i (wrap_chains cols wraps bounds p) [])).
Proof. exact @wrap_chains_spec. Qed.
Print Assumptions C36_wrap.
Example C36_wrap_nonvacuous : nth 0 [(0, 180)] (0, 0) = (0, 180) /\ 0 < 180.
Proof. split; [reflexivity|lra]. Qed.


(** C36. Finding: with the flags bilby uses (None for not periodic) every column is wrapped. *)
Theorem C36_wrap_refuted : exists cols wraps bounds p i, nth i wraps (WInt 0) = WNone /\ nth i (wrap_chains cols wraps bounds p) [] <> nth i cols [].
Proof. exact @wrap_not_periodic_refuted. Qed.
Print Assumptions C36_wrap_refuted.

