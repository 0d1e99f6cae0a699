(** Headers of the products of the 3-D tools: claim C84. *)
From Coq Require Import Reals List Arith ZArith Lia Lra Bool Permutation.
Set Warnings "-ambiguous-paths".
From Coquelicot Require Import Coquelicot.
From Verif Require Import PyRes PyStr PyStr_Proofs PyList NdArray Setup_Spec Setup_Model Setup_Proofs Synth_Model Measure_Model Cube_Model Cube_Spec Cube_Proofs Icube_Model Header_Model Header_Spec Header_Proofs Fits_Model Fits_Spec Fits_Proofs Hd_Model Hd_Spec Hd_Proofs Hd_More Hd_Rest Hd_Fit Hd_Refute.
From Coq Require Import String Ascii.
Local Notation length := List.length.
Import ListNotations.
Local Open Scope R_scope.

Local Open Scope nat_scope.

(** C84. The cubes of the dirty spectrum: the frequency axis becomes the depth axis, Stokes Q, U and neither, and no other card is touched. *)
Theorem C84_synth_fdf : forall tmpl phi phi2 lam0 pk o n l f, says tmpl (s "NAXIS") (HInt (Z.of_nat n)) -> type_list tmpl n l -> spectral_axis (s "FREQ") l f ->
  synth_write tmpl (Some phi) phi2 lam0 pk = POk o ->
  exists t, h_fdf o = Some t /\ three_parts tmpl n f t (fun x => cube_header tmpl n f phi lam0 x /\ unit_rmsf tmpl x).
Proof. exact @synth_fdf. Qed.
Print Assumptions C84_synth_fdf.
Example C84_synth_fdf_nonvacuous : says (e_head "RA---SIN" "DEC--SIN" "FREQ") (s "NAXIS") (HInt (Z.of_nat 3)) /\ type_list (e_head "RA---SIN" "DEC--SIN" "FREQ") 3 (e_types "RA---SIN" "DEC--SIN" "FREQ") /\ spectral_axis (s "FREQ") (e_types "RA---SIN" "DEC--SIN" "FREQ") 3 /\ exists o, synth_write (e_head "RA---SIN" "DEC--SIN" "FREQ") (Some e_phi) None None false = POk o.
Proof. split; [apply e_naxis|]. split; [apply e_list|]. split; [apply e_freq3|]. apply (e_runs _ _ _ 3); [apply e_freq3|]. intros p Q; discriminate Q. Qed.


(** C84. The cubes of the spread function, and the map of its width, which has two axes. *)
Theorem C84_synth_rmsf : forall tmpl phi phi2 lam0 pk o n l f, says tmpl (s "NAXIS") (HInt (Z.of_nat n)) -> type_list tmpl n l -> spectral_axis (s "FREQ") l f ->
  synth_write tmpl phi (Some phi2) lam0 pk = POk o ->
  exists t w, h_rmsf o = Some t /\ h_fwhm o = Some w /\
    three_parts tmpl n f t (fun x => cube_header tmpl n f phi2 lam0 x /\ says x (s "BUNIT") (HStr [])) /\
    says w (s "NAXIS") (HInt 2) /\ cards (s "WCSAXES") w = [(s "WCSAXES", HInt 2)] /\ says w (s "BUNIT") (HStr (s "rad/m^2")) /\
    lacks w (s "BTYPE") /\ lacks w (s "STOKES") /\ (forall k, axis_key k -> lacks w k) /\
    same_but (fun k => synth_touched tmpl n f k \/ flat_touched k \/ k = s "BTYPE") tmpl w.
Proof. exact @synth_rmsf. Qed.
Print Assumptions C84_synth_rmsf.
Example C84_synth_rmsf_nonvacuous : says (e_head "RA---SIN" "DEC--SIN" "FREQ") (s "NAXIS") (HInt (Z.of_nat 3)) /\ type_list (e_head "RA---SIN" "DEC--SIN" "FREQ") 3 (e_types "RA---SIN" "DEC--SIN" "FREQ") /\ spectral_axis (s "FREQ") (e_types "RA---SIN" "DEC--SIN" "FREQ") 3 /\ exists o, synth_write (e_head "RA---SIN" "DEC--SIN" "FREQ") (Some e_phi) (Some e_phi) None false = POk o.
Proof. split; [apply e_naxis|]. split; [apply e_list|]. split; [apply e_freq3|]. apply (e_runs _ _ _ 3); [apply e_freq3|]. intros p [= <-]; cbn; lia. Qed.


(** C84. The maps of the peak: one plane in depth, the unit of the cube and rad/m^2. *)
Theorem C84_synth_peak : forall tmpl phi phi2 lam0 o n l f, says tmpl (s "NAXIS") (HInt (Z.of_nat n)) -> type_list tmpl n l -> spectral_axis (s "FREQ") l f ->
  synth_write tmpl (Some phi) phi2 lam0 true = POk o ->
  exists m r, h_peak o = Some (m, r) /\
    (forall v, says tmpl (s "BUNIT") v -> says m (s "BUNIT") v) /\ says r (s "BUNIT") (HStr (s "rad/m^2")) /\ says r (s "BTYPE") (HStr (s "FDEP")) /\
    same_but (fun k => k = s "BUNIT" \/ k = s "BTYPE") m r /\
    degenerate m f /\ says m (key "CRVAL" f) (HNum (nth 0 phi 0%R)) /\ lacks m (s "DATAMAX") /\ lacks m (s "DATAMIN") /\ lacks m (s "STOKES") /\
    (forall a, stokes_at tmpl n f a -> says m (key "CTYPE" a) (HStr (s "DEGENERATE"))) /\
    same_but (fun k => synth_touched tmpl n f k \/ exists a, stokes_at tmpl n f a /\ k = key "CTYPE" a) tmpl m.
Proof. exact @synth_peak. Qed.
Print Assumptions C84_synth_peak.
Example C84_synth_peak_nonvacuous : says (e_head "RA---SIN" "DEC--SIN" "FREQ") (s "NAXIS") (HInt (Z.of_nat 3)) /\ type_list (e_head "RA---SIN" "DEC--SIN" "FREQ") 3 (e_types "RA---SIN" "DEC--SIN" "FREQ") /\ spectral_axis (s "FREQ") (e_types "RA---SIN" "DEC--SIN" "FREQ") 3 /\ exists o, synth_write (e_head "RA---SIN" "DEC--SIN" "FREQ") (Some e_phi) None None true = POk o.
Proof. split; [apply e_naxis|]. split; [apply e_list|]. split; [apply e_freq3|]. apply (e_runs _ _ _ 3); [apply e_freq3|]. intros p Q; discriminate Q. Qed.


(** C84. Exactly when the headers of RM-synthesis can be made. *)
Theorem C84_synth_defined : forall tmpl phi phi2 lam0 pk n l f, says tmpl (s "NAXIS") (HInt (Z.of_nat n)) -> type_list tmpl n l -> spectral_axis (s "FREQ") l f ->
  ((exists o, synth_write tmpl phi phi2 lam0 pk = POk o) <->
   usable tmpl n f /\ (phi <> None \/ phi2 <> None) /\ (forall p, phi = Some p \/ phi2 = Some p -> 2 <= List.length p)).
Proof. exact @synth_defined. Qed.
Print Assumptions C84_synth_defined.
Example C84_synth_defined_nonvacuous : says (e_head "RA---SIN" "DEC--SIN" "FREQ") (s "NAXIS") (HInt (Z.of_nat 3)) /\ type_list (e_head "RA---SIN" "DEC--SIN" "FREQ") 3 (e_types "RA---SIN" "DEC--SIN" "FREQ") /\ spectral_axis (s "FREQ") (e_types "RA---SIN" "DEC--SIN" "FREQ") 3 /\ usable (e_head "RA---SIN" "DEC--SIN" "FREQ") 3 3.
Proof. split; [apply e_naxis|]. split; [apply e_list|]. split; [apply e_freq3|]. apply e_usable. Qed.


(** C84. Names of the files and the parts in each. *)
Theorem C84_synth_names : forall prefix tmpl phi phi2 lam0 pk o, synth_write tmpl phi phi2 lam0 pk = POk o ->
  (forall q u p, h_fdf o = Some (q, u, p) ->
     (In ((prefix ++ s "FDF_real_dirty.fits")%list, [q]) (synth_files true prefix o) /\ In ((prefix ++ s "FDF_im_dirty.fits")%list, [u]) (synth_files true prefix o) /\
      In ((prefix ++ s "FDF_tot_dirty.fits")%list, [p]) (synth_files true prefix o)) /\ In ((prefix ++ s "FDF_dirty.fits")%list, [q; u; p]) (synth_files false prefix o)) /\
  (forall q u p w, h_rmsf o = Some (q, u, p) -> h_fwhm o = Some w ->
     (In ((prefix ++ s "RMSF_real.fits")%list, [q]) (synth_files true prefix o) /\ In ((prefix ++ s "RMSF_im.fits")%list, [u]) (synth_files true prefix o) /\
      In ((prefix ++ s "RMSF_tot.fits")%list, [p]) (synth_files true prefix o) /\ In ((prefix ++ s "RMSF_FWHM.fits")%list, [w]) (synth_files true prefix o)) /\
      In ((prefix ++ s "RMSF.fits")%list, [q; u; p; w]) (synth_files false prefix o)) /\
  (forall sep m r, h_peak o = Some (m, r) -> In ((prefix ++ s "FDF_maxPI.fits")%list, [m]) (synth_files sep prefix o) /\ In ((prefix ++ s "FDF_peakRM.fits")%list, [r]) (synth_files sep prefix o)) /\
  (forall sep, NoDup (map fst (synth_files sep prefix o)) /\
     List.length (synth_files sep prefix o) = (if h_fdf o then if sep then 3 else 1 else 0) + (if h_rmsf o then if sep then 4 else 1 else 0) + (if h_peak o then 2 else 0)).
Proof. exact @synth_names. Qed.
Print Assumptions C84_synth_names.


(** C84. RM-CLEAN and the peak fit read back from the cubes of RM-synthesis the depths that were synthesised. *)
Theorem C84_cube_read : forall tmpl n f phi lam0 x start step, cube_header tmpl n f phi lam0 x -> 1 <= f <= n ->
  (forall j t, f < j <= n -> says tmpl (key "CTYPE" j) (HStr t) -> ~ mentions (s "FDEP") (Some t)) ->
  2 <= List.length phi -> (0 < step)%R -> uniform phi start step -> depth_of x = POk phi.
Proof. exact @cube_read. Qed.
Print Assumptions C84_cube_read.
Example C84_cube_read_nonvacuous : exists x, cube_header (e_head "RA---SIN" "DEC--SIN" "FREQ") 3 3 e_phi None x /\ (forall j t, 3 < j <= 3 -> says (e_head "RA---SIN" "DEC--SIN" "FREQ") (key "CTYPE" j) (HStr t) -> ~ mentions (s "FDEP") (Some t)) /\
  2 <= length e_phi /\ uniform e_phi 0 1 /\ depth_of x = POk e_phi.
Proof.
  destruct (e_runs "RA---SIN" "DEC--SIN" "FREQ" 3 None false e_freq3 ltac:(intros p Q; discriminate Q)) as [o Ho].
  destruct (synth_fdf _ _ _ _ _ _ _ _ _ (e_naxis _ _ _) (e_list _ _ _) e_freq3 Ho) as ([[q u] p] & _ & (A & _) & _).
  assert (U : uniform e_phi 0 1).
  { intros k Hk. cbn [length e_phi] in Hk. assert (k = 0 \/ k = 1 \/ k = 2) as [->|[->| ->]] by lia; cbn; lra. }
  assert (J : forall j t, 3 < j <= 3 -> says (e_head "RA---SIN" "DEC--SIN" "FREQ") (key "CTYPE" j) (HStr t) -> ~ mentions (s "FDEP") (Some t)) by (intros; lia).
  exists q. split; [exact A|]. split; [exact J|]. split; [cbn; lia|]. split; [exact U|].
  apply (cube_read (e_head "RA---SIN" "DEC--SIN" "FREQ") 3 3 e_phi None q 0 1); auto; [cbn; lia|lra].
Qed.


(** C84. The cubes of RM-CLEAN: a line of history and the cards of Stokes, nothing else is touched. The map of iterations is flat on axes 3 and 4. *)
Theorem C84_clean_cubes : forall tmpl n c, says tmpl (s "NAXIS") (HInt (Z.of_nat n)) -> clean_write tmpl = POk c ->
  three_parts tmpl n 0 (c_clean c) (fun x => same_but (clean_touched tmpl n) tmpl x /\ history x = (history tmpl ++ [HStr (s "RM-CLEAN3D output from RM-Tools")])%list) /\
  three_parts tmpl n 0 (c_cc c) (fun x => same_but (clean_touched tmpl n) tmpl x /\ history x = (history tmpl ++ [HStr (s "RM-CLEAN3D output from RM-Tools")])%list) /\
  (3 <= n -> degenerate (c_iter c) 3) /\ (n = 4 -> degenerate (c_iter c) 4) /\ says (c_iter c) (s "BUNIT") (HStr (s "Iterations")) /\ lacks (c_iter c) (s "STOKES") /\
  history (c_iter c) = (history tmpl ++ [HStr (s "RM-CLEAN3D output from RM-Tools")])%list /\
  same_but (fun k => clean_touched tmpl n k \/ k = s "BUNIT" \/ exists w i, In w ["NAXIS"; "CTYPE"; "CUNIT"]%string /\ 3 <= i <= n /\ i <= 4 /\ k = key w i) tmpl (c_iter c).
Proof. exact @clean_cubes. Qed.
Print Assumptions C84_clean_cubes.
Example C84_clean_cubes_nonvacuous : says (e_head "RA---SIN" "DEC--SIN" "FREQ") (s "NAXIS") (HInt (Z.of_nat 3)) /\ exists c, clean_write (e_head "RA---SIN" "DEC--SIN" "FREQ") = POk c.
Proof. split; [apply e_naxis|]. apply (clean_defined _ 3); [apply e_naxis|]. intros i Hi. assert (i = 1 \/ i = 2 \/ i = 3) as [->|[->| ->]] by lia; eexists; reflexivity. Qed.


(** C84. Exactly when the headers of RM-CLEAN can be made. *)
Theorem C84_clean_defined : forall tmpl n, says tmpl (s "NAXIS") (HInt (Z.of_nat n)) ->
  ((exists c, clean_write tmpl = POk c) <-> forall i, 1 <= i <= n -> exists t, says tmpl (key "CTYPE" i) (HStr t)).
Proof. exact @clean_defined. Qed.
Print Assumptions C84_clean_defined.


(** C84. The cubes of RM-CLEAN have the depth axis of the cubes of RM-synthesis, and are read back with it. *)
Theorem C84_clean_read : forall tmpl n f phi c x start step, says tmpl (s "NAXIS") (HInt (Z.of_nat n)) -> 1 <= f <= n -> depth_axis tmpl f phi ->
  (forall j t, f < j <= n -> says tmpl (key "CTYPE" j) (HStr t) -> ~ mentions (s "FDEP") (Some t)) ->
  2 <= List.length phi -> (0 < step)%R -> uniform phi start step -> clean_write tmpl = POk c ->
  (let '(q, u, p) := c_clean c in x = q \/ x = u \/ x = p) \/ (let '(q, u, p) := c_cc c in x = q \/ x = u \/ x = p) ->
  depth_axis x f phi /\ depth_of x = POk phi.
Proof. exact @clean_read. Qed.
Print Assumptions C84_clean_read.


(** C84. Mask, coefficients and reference frequency of the fit of Stokes I: two axes, history, units. *)
Theorem C84_fit_maps : forall tmpl ord name o, fit_write tmpl ord name = POk o ->
  let lines := history_lines ord name in
  (fit_map tmpl lines (f_mask o) /\ lacks (f_mask o) (s "BUNIT") /\ cards (s "BTYPE") (f_mask o) = cards (s "BTYPE") tmpl) /\
  (fit_map tmpl lines (f_coeff o) /\ says (f_coeff o) (s "BUNIT") (HStr []) /\ lacks (f_coeff o) (s "BTYPE")) /\
  (fit_map tmpl lines (f_ref o) /\ says (f_ref o) (s "BUNIT") (HStr (s "Hz")) /\ lacks (f_ref o) (s "BTYPE")) /\
  (forall x, In x [f_mask o; f_coeff o; f_ref o; f_cov o] -> says x (s "DATAMAX") (HInt 1) /\ says x (s "DATAMIN") (HInt 0)).
Proof. exact @fit_headers_spec. Qed.
Print Assumptions C84_fit_maps.
Example C84_fit_maps_nonvacuous : exists o, fit_write (e_head "RA---SIN" "DEC--SIN" "FREQ") 2 (s "a") = POk o.
Proof.
  apply (fit_defined _ _ _ 3); [apply e_naxis|]. split; [|split; [|split; [lia|]]].
  - exists (s "CTYPE1", HStr (s "RA---SIN")). split; [cbn; tauto|]. left. exists "CTYPE"%string, 1. split; [cbn; tauto|]. split; [lia|reflexivity].
  - intro Q; discriminate Q.
  - intros k Hk. cbn [In map] in Hk. destruct Hk as [<-|[<-|[<-|[]]]]; intro Q; discriminate Q.
Qed.


(** C84. The covariance: two axes of six coefficients; its count of world axes stays two. *)
Theorem C84_fit_cov : forall tmpl ord name o, fit_write tmpl ord name = POk o ->
  says (f_cov o) (s "NAXIS") (HInt 4) /\ cards (s "WCSAXES") (f_cov o) = [(s "WCSAXES", HInt 2)] /\
  (forall i, 3 <= i <= 4 -> says (f_cov o) (key "NAXIS" i) (HInt 6) /\ says (f_cov o) (key "CTYPE" i) (HStr (s "INDEX")) /\ says (f_cov o) (key "CUNIT" i) (HStr []) /\
     says (f_cov o) (key "CRPIX" i) (HInt 1) /\ says (f_cov o) (key "CRVAL" i) (HInt 0) /\ says (f_cov o) (key "CDELT" i) (HInt 1)) /\
  says (f_cov o) (s "BUNIT") (HStr []) /\ lacks (f_cov o) (s "BTYPE") /\ history (f_cov o) = (history tmpl ++ map HStr (history_lines ord name))%list /\
  same_but (fun k => flat_touched k \/ In k (map s ["BUNIT"; "BTYPE"; "HISTORY"; "DATAMAX"; "DATAMIN"]%string)) tmpl (f_cov o).
Proof. exact @fit_cov_spec. Qed.
Print Assumptions C84_fit_cov.


(** C84. The model cube: three axes, everything else that is not about further axes is that of the input. *)
Theorem C84_fit_model : forall tmpl ord name o n, says tmpl (s "NAXIS") (HInt (Z.of_nat n)) -> fit_write tmpl ord name = POk o ->
  3 <= n /\ says (f_model o) (s "NAXIS") (HInt 3) /\ says (f_model o) (s "WCSAXES") (HInt 3) /\
  (forall k i, axis_kw k i -> 3 < i <= n -> lacks (f_model o) k) /\
  (forall keep : str -> bool, (forall k, keep k = true -> untouched 3 k) -> filter (fun c => keep (fst c)) (f_model o) = filter (fun c => keep (fst c)) tmpl).
Proof. exact @fit_model_spec. Qed.
Print Assumptions C84_fit_model.


(** C84. Exactly when the headers of the fit can be made. *)
Theorem C84_fit_defined : forall tmpl ord name n, says tmpl (s "NAXIS") (HInt (Z.of_nat n)) ->
  ((exists o, fit_write tmpl ord name = POk o) <->
   (exists c, In c tmpl /\ celestial_key (fst c)) /\ ~ lacks tmpl (s "BUNIT") /\ 3 <= n /\
   forall k, In k (map s ["NAXIS1"; "NAXIS2"; "NAXIS3"]%string) -> ~ lacks tmpl k).
Proof. exact @fit_defined. Qed.
Print Assumptions C84_fit_defined.


(** C84. The rescaled maps: a line of history, the new frequency and no unit. *)
Theorem C84_rescale : forall h freq, let x := rescale_write h freq in
  history x = (history h ++ [HStr (s "Stokes I model rescaled to new reference frequency.")])%list /\ says x (s "REFFREQ") (HNum freq) /\ lacks x (s "BUNIT") /\
  same_but (fun k => In k (map s ["HISTORY"; "REFFREQ"; "BUNIT"]%string)) h x.
Proof. exact @rescale_spec. Qed.
Print Assumptions C84_rescale.


(** C84. Refuted: the cubes have no trace of the frequency axis. A CD term stays. *)
Theorem C84_cd_refuted : exists tmpl o q u p, synth_write tmpl (Some e_phi) None None false = POk o /\ h_fdf o = Some (q, u, p) /\
  says tmpl (s "CD3_3") (HInt 1000000) /\ says q (s "CTYPE3") (HStr (s "FDEP")) /\ says q (s "CD3_3") (HInt 1000000) /\ says q (s "CDELT3") (HNum (1 - 0)).
Proof. exact @cd_term_kept. Qed.
Print Assumptions C84_cd_refuted.


(** C84. Refuted: the map of the width has the two sky axes. With frequency first it has the depth. *)
Theorem C84_fwhm_refuted : exists tmpl o w, synth_write tmpl (Some e_phi) (Some e_phi) None false = POk o /\ h_fwhm o = Some w /\
  says tmpl (s "CTYPE1") (HStr (s "FREQ")) /\ says tmpl (s "CTYPE3") (HStr (s "DEC--SIN")) /\
  says w (s "NAXIS") (HInt 2) /\ says w (s "CTYPE1") (HStr (s "FDEP")) /\ lacks w (s "CTYPE3").
Proof. exact @fwhm_first_axis. Qed.
Print Assumptions C84_fwhm_refuted.


(** C84. Refuted: the plane of a peak map lies at a depth of the cube. It lies half the range below. *)
Theorem C84_peak_pixel_refuted : forall tmpl phi lam0 o n l f m r start step v, says tmpl (s "NAXIS") (HInt (Z.of_nat n)) -> type_list tmpl n l -> spectral_axis (s "FREQ") l f ->
  synth_write tmpl (Some phi) None lam0 true = POk o -> h_peak o = Some (m, r) -> (0 < step)%R -> uniform phi start step ->
  pixel_world m f 1 v -> v = (start - INR (List.length phi / 2) * step)%R /\ forall k, k < List.length phi -> (v < nth k phi 0)%R.
Proof. exact @peak_pixel. Qed.
Print Assumptions C84_peak_pixel_refuted.


(** C84. Refuted: the map of iterations is flat in depth. It is flat on axis 3. *)
Theorem C84_iter_axis_refuted : forall tmpl n f c, says tmpl (s "NAXIS") (HInt (Z.of_nat n)) -> clean_write tmpl = POk c -> f < 3 <= n ->
  says tmpl (key "CTYPE" f) (HStr (s "FDEP")) ->
  says (c_iter c) (key "CTYPE" f) (HStr (s "FDEP")) /\ degenerate (c_iter c) 3 /\ forall v, says tmpl (key "NAXIS" f) v -> says (c_iter c) (key "NAXIS" f) v.
Proof. exact @iter_axis. Qed.
Print Assumptions C84_iter_axis_refuted.

