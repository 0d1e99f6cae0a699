(** What the spectra figures show: claim C88. *)
From Coq Require Import Reals List Arith ZArith Lia Lra Bool Permutation.
Set Warnings "-ambiguous-paths".
From Coquelicot Require Import Coquelicot.
From Verif Require Import CBase PyRes PyStr Fg_Model Fg_Spec Fg_Proofs Fg_Angles Fg_Depth.
From Coq Require Import String Ascii.
Local Notation length := List.length.
Import ListNotations.
Local Open Scope R_scope.

(** C88. What the figure of p, q and u holds: the data with bars, the moduli, an x range with 5 % added, and a y range that holds every value with twice the middle error to spare. *)
Theorem C88_pqu : forall l2 q u dq du a, plot_pqu_vs_lamsq l2 q u None (Some dq) (Some du) None None None None None = POk a ->
  exists p dp, pointwise modulus_of q u p /\ pointwise modulus_of dq du dp /\
    drawn a = [Bars (s "Stokes q") l2 q None (Some dq); Bars (s "Stokes u") l2 u None (Some du); Bars (s "Intensity p") l2 p None (Some dp); HLine 0] /\
    margin (5 / 100) l2 (xlim a) /\
    exists y0 y1 mp mq mu, ylim a = Some (y0, y1) /\ middle dp mp /\ middle dq mq /\ middle du mu /\
      forall x, In (Some x) q \/ In (Some x) u \/ In (Some x) p ->
        y0 + 2 * mp <= x <= y1 - 2 * mp /\ y0 + 2 * mq <= x <= y1 - 2 * mq /\ y0 + 2 * mu <= x <= y1 - 2 * mu.
Proof. exact @pqu_content. Qed.
Print Assumptions C88_pqu.


(** C88. When this figure can be made. *)
Theorem C88_pqu_runs : forall l2 q u dq du,
  (exists a, plot_pqu_vs_lamsq l2 q u None (Some dq) (Some du) None None None None None = POk a) <->
  length q = length l2 /\ length u = length l2 /\ length dq = length l2 /\ length du = length l2 /\ errors_ok dq /\ errors_ok du /\
  (exists x, In (Some x) l2) /\ (exists i x y, (i < length l2)%nat /\ nth i q None = Some x /\ nth i u None = Some y) /\
  (exists i x y, (i < length l2)%nat /\ nth i dq None = Some x /\ nth i du None = Some y).
Proof. exact @pqu_runs. Qed.
Print Assumptions C88_pqu_runs.
Example C88_pqu_nonvacuous : exists a, plot_pqu_vs_lamsq [Some 1; None] [Some 3; Some 1] [Some 4; None] None (Some [Some 1; Some 2]) (Some [Some 1; None]) None None None None None = POk a.
Proof.
  apply C88_pqu_runs. simpl. repeat split; auto; try (intros e [E|[E|[]]]; try discriminate E; injection E; lra).
  - exists 1. auto.
  - exists 0%nat, 3, 4. auto with arith.
  - exists 0%nat, 1, 1. auto with arith.
Qed.


(** C88. Refuted: it can be made without errors, as its default arguments suggest. *)
Theorem C88_no_errors_refuted : forall l2 q u p0 dq du l2h qm um smp, dq = None \/ du = None ->
  plot_pqu_vs_lamsq l2 q u p0 dq du None l2h qm um smp = PErr.
Proof. exact @pqu_needs_errors. Qed.
Print Assumptions C88_no_errors_refuted.


(** C88. The other figures can. *)
Theorem C88_others : forall l2 q u, length q = length l2 -> length u = length l2 ->
  (exists x, In (Some x) l2) -> (exists x, In (Some x) q) -> (exists x, In (Some x) u) ->
  (exists a, plot_PQU_vs_nu l2 q u None None None None None = POk a) /\
  (exists a, plot_psi_vs_lamsq l2 q u None None None None None None = POk a) /\
  (exists a, plot_q_vs_u l2 q u None None None None None = POk a).
Proof. exact @others_without_errors. Qed.
Print Assumptions C88_others.


(** C88. Refuted: errors of any sign are drawn. One negative error and there is no figure. *)
Theorem C88_negative_refuted : forall d l2 q u p0 dp du l2h qm um smp e, In (Some e) d -> e < 0 ->
  plot_pqu_vs_lamsq l2 q u p0 (Some d) du dp l2h qm um smp = PErr /\
  plot_q_vs_u l2 q u (Some d) du qm um smp = PErr /\
  plot_PQU_vs_nu l2 q u (Some d) du l2h qm um = PErr /\
  forall fr I dI fh IM, plot_Ipqu fr I q u dI (Some d) du fh IM qm um smp = PErr.
Proof. exact @negative_error. Qed.
Print Assumptions C88_negative_refuted.


(** C88. Refuted: the browser of spectra shows every source. With a negative q in one channel its errors are negative. *)
Theorem C88_browser_refuted : forall freq I dI q u fh IM qm um Q rQ I0 rI m, In (Q, rQ, I0, rI, m) q -> Q < 0 -> 0 < m -> I0 <> 0 -> rQ <> 0 ->
  plotPolsummary freq I dI q u fh IM qm um = PErr.
Proof. exact @pol_negative. Qed.
Print Assumptions C88_browser_refuted.


(** C88. The figure of the angle does not mind the sign. *)
Theorem C88_psi_sign : forall l2 q u dq du l2h qm um smp,
  plot_psi_vs_lamsq l2 q u (Some dq) (Some du) l2h qm um smp = plot_psi_vs_lamsq l2 q u (Some (map (option_map Rabs) dq)) (Some (map (option_map Rabs) du)) l2h qm um smp.
Proof. exact @psi_any_sign. Qed.
Print Assumptions C88_psi_sign.


(** C88. The error of p to first order, and how much longer the bar is. *)
Theorem C88_p_error : forall q u dq du e, (q, u) <> (0, 0) -> propagated (fun q u => Cmod (q, u)) q u dq du e ->
  e ^ 2 = ((q * dq) ^ 2 + (u * du) ^ 2) / (q ^ 2 + u ^ 2) /\ 0 <= e <= Cmod (dq, du) /\
  (e = Cmod (dq, du) <-> u * dq = 0 /\ q * du = 0).
Proof. exact @p_error. Qed.
Print Assumptions C88_p_error.


(** C88. With equal errors the bar is too long by the root of two. *)
Theorem C88_p_error_equal : forall q u d e, (q, u) <> (0, 0) -> 0 <= d -> propagated (fun q u => Cmod (q, u)) q u d d e -> e = d /\ Cmod (d, d) = sqrt 2 * e.
Proof. exact @p_error_equal. Qed.
Print Assumptions C88_p_error_equal.
Example C88_p_error_nonvacuous : exists e, propagated (fun q u => Cmod (q, u)) 3 4 1 1 e.
Proof. apply propagated_mod. intros E. injection E. lra. Qed.


(** C88. Refuted: the bar of p is its error. *)
Theorem C88_p_bar_refuted : ~ (forall l2 q u dq du a, plot_pqu_vs_lamsq l2 q u None (Some dq) (Some du) None None None None None = POk a ->
  forall lb x y d, In (Bars lb x y None (Some d)) (drawn a) -> lb = s "Intensity p" ->
  forall i q0 u0 dq0 du0 e, (i < length l2)%nat -> nth i q None = Some q0 -> nth i u None = Some u0 -> nth i dq None = Some dq0 -> nth i du None = Some du0 ->
    (q0, u0) <> (0, 0) -> propagated (fun q u => Cmod (q, u)) q0 u0 dq0 du0 e -> nth i d None = Some e).
Proof. exact @p_bar_refuted. Qed.
Print Assumptions C88_p_bar_refuted.


(** C88. Refuted: the y range holds the bars. *)
Theorem C88_limits_refuted : ~ (forall l2 q u dq du a y0 y1, plot_pqu_vs_lamsq l2 q u None (Some dq) (Some du) None None None None None = POk a -> ylim a = Some (y0, y1) ->
  forall i q0 dq0, nth i q None = Some q0 -> nth i dq None = Some dq0 -> y0 <= q0 - dq0 /\ q0 + dq0 <= y1).
Proof. exact @limits_bars_refuted. Qed.
Print Assumptions C88_limits_refuted.


(** C88. The figure of the angle: the orientation of each channel and its first-order error, away from the half line where the angle jumps. *)
Theorem C88_psi : forall l2 q u dq du a, plot_psi_vs_lamsq l2 q u (Some dq) (Some du) None None None None = POk a ->
  exists psi d, pointwise angle_rel q u psi /\ drawn a = [Bars [] l2 psi None (Some d); HLine 0] /\
    margin (5 / 100) l2 (xlim a) /\ ylim a = Some (- (999 / 10), 999 / 10) /\ length d = length l2 /\
    forall ang, (forall q u, (q, u) <> (0, 0) -> angle_at q u (ang q u)) ->
    forall i q0 u0 dq0 du0, (i < length l2)%nat -> nth i q None = Some q0 -> nth i u None = Some u0 -> nth i dq None = Some dq0 -> nth i du None = Some du0 ->
      (0 < q0 \/ u0 <> 0 -> exists e, nth i d None = Some e /\ propagated ang q0 u0 dq0 du0 e) /\
      ((q0, u0) = (0, 0) -> nth i d None = None).
Proof. exact @psi_content. Qed.
Print Assumptions C88_psi.
Example C88_psi_nonvacuous : (exists ang : R -> R -> R, forall q u, (q, u) <> (0, 0) -> angle_at q u (ang q u)) /\
  exists a, plot_psi_vs_lamsq [Some 1] [Some (-1)] [Some 2] (Some [Some 1]) (Some [Some 1]) None None None None = POk a.
Proof.
  split.
  - exists (fun q u => psi_deg u q). intros q u _. apply psi_angle.
  - unfold plot_psi_vs_lamsq. cbn [zip2 zip4 pybind]. unfold errorbar. cbn [same_len no_neg length Nat.eqb andb forallb].
    destruct (dpsi_deg (-1) 2 1 1) as [e|] eqn:E.
    + assert (0 <= e). { unfold dpsi_deg in E. cbv zeta in E. destruct (Req_EM_T _ 0) as [h|h]; [discriminate E|]. injection E as <-. unfold Measure_Model.degrees.
        pose proof PI_RGT_0. apply Rmult_le_pos; [|left; apply Rinv_0_lt_compat; lra]. apply Rmult_le_pos; [|lra].
        apply Rmult_le_pos; [apply sqrt_pos|]. left. apply Rinv_0_lt_compat. destruct (Rle_lt_or_eq_dec _ _ (pow2_ge_0 (sqrt ((-1) ^ 2 + 2 ^ 2)))) as [K|K]; [apply Rmult_lt_0_compat; [lra|exact K]|]. rewrite <- K in h. contradiction h. ring. }
      unfold PyList.Rleb. destruct (Rle_dec 0 e) as [_|n]; [|contradiction]. simpl. eauto.
    + simpl. eauto.
Qed.


(** C88. The lines and bands of sampled models: half of the samples on each side of the line, and 68 per cent within the band. *)
Theorem C88_bands : forall l2 q u p0 dq du dp0 l2h qm um rows a, length rows = 1000%nat ->
  plot_pqu_vs_lamsq l2 q u p0 dq du dp0 l2h qm um (Some rows) = POk a ->
  let hir := match l2h with Some h => h | None => l2 end in
  (exists lo med hi, In (Line [] hir med) (drawn a) /\ In (Band hir lo hi) (drawn a) /\ band_of Re (length hir) rows lo med hi) /\
  (exists lo med hi, In (Line [] hir med) (drawn a) /\ In (Band hir lo hi) (drawn a) /\ band_of Im (length hir) rows lo med hi) /\
  (qm <> None -> um <> None -> exists lo med hi, In (Line [] hir med) (drawn a) /\ In (Band hir lo hi) (drawn a) /\ band_of Cmod (length hir) rows lo med hi).
Proof. exact @pqu_bands. Qed.
Print Assumptions C88_bands.


(** C88. The same for the angle. *)
Theorem C88_psi_bands : forall f l2 q u dq du l2h qm um rows a, length rows = 1000%nat -> angle_fun f ->
  plot_psi_vs_lamsq l2 q u dq du l2h qm um (Some rows) = POk a ->
  let hir := match l2h with Some h => h | None => l2 end in
  exists lo med hi, In (Line [] hir med) (drawn a) /\ In (Band hir lo hi) (drawn a) /\ band_of f (length hir) rows lo med hi.
Proof. exact @psi_bands. Qed.
Print Assumptions C88_psi_bands.
Example C88_angle_nonvacuous : angle_fun (fun z => psi_deg (snd z) (fst z)).
Proof. split; [apply psi_zero|]. intros z _. apply psi_angle. Qed.


(** C88. Refuted: if all samples point one way, up to an angle, so does the line. Samples around 90 degrees have it at 0. *)
Theorem C88_psi_median_refuted : ~ (forall f l2 q u rows a med b w, angle_fun f -> length rows = 1000%nat -> 0 <= w < 45 ->
  plot_psi_vs_lamsq l2 q u None None None None None (Some rows) = POk a -> In (Line [] l2 med) (drawn a) ->
  (forall r, In r rows -> near b w (f (nth 0 r (RtoC 0)))) -> forall m, nth 0 med None = Some m -> near b w m).
Proof. exact @psi_median_refuted. Qed.
Print Assumptions C88_psi_median_refuted.


(** C88. The figure of four: axes in GHz and square metres, and the colours are the frequencies. *)
Theorem C88_axes : forall freq I q u dI dq du fh IM qm um smp a1 a2 a3 a4 c, plot_Ipqu freq I q u dI dq du fh IM qm um smp = POk (a1, a2, a3, (a4, c)) ->
  exists nu l2 psi p dp dpsi, each (fun f r => match f with Some f => r = Some (f / 10 ^ 9) | None => r = None end) freq nu /\
    each (fun f r => match f with Some f => (f <> 0 -> r = Some ((299792458 / f) ^ 2)) /\ (f = 0 -> r = None) | None => r = None end) freq l2 /\
    In (Bars (s "Stokes I") nu I None dI) (drawn a1) /\ In (Bars (s "Stokes q") l2 q None dq) (drawn a2) /\ In (Bars (s "Stokes u") l2 u None du) (drawn a2) /\
    In (Bars (s "Intensity p") l2 p None dp) (drawn a2) /\ In (Bars [] l2 psi None dpsi) (drawn a3) /\ In (Bars [] q u dq du) (drawn a4) /\
    length c = length freq /\ forall i f, nth i freq None = Some f -> f <> 0 -> nth i c None = Some (Rabs f).
Proof. exact @Ipqu_axes. Qed.
Print Assumptions C88_axes.


(** C88. The dirty spectrum: parts and modulus, the fitted peak within a third of its width, and the line at the peak, unless it is at zero. *)
Theorem C88_dirty : forall phi FDF g vLine a, plot_dirtyFDF phi FDF g vLine = POk a ->
  margin (1 / 100) phi (xlim a) /\
  (exists re im p, each (part Re) FDF re /\ each (part Im) FDF im /\ each (part Cmod) FDF p /\
    In (Steps (s "Real") phi re) (drawn a) /\ In (Steps (s "Imaginary") phi im) (drawn a) /\ In (Steps (s "PI") phi p) (drawn a)) /\
  (forall h b w, g = [h; b; w] -> w <> 0 -> exists y, each (fit_rel h b w) phi y /\ In (Line (s "Peak Fit") phi y) (drawn a)) /\
  (forall v, vLine = Some (Some v) -> (v <> 0 <-> In (VLine (Some v)) (drawn a))).
Proof. exact @dirty_content. Qed.
Print Assumptions C88_dirty.
Example C88_dirty_nonvacuous : exists a, plot_dirtyFDF [Some (-1); Some 2] [Some (1, 2); None] [3; 1; 5] (Some (Some 2)) = POk a.
Proof. unfold plot_dirtyFDF, step, plot. simpl. eauto. Qed.


(** C88. Refuted: the line at the peak is drawn wherever the peak is. *)
Theorem C88_peak_line_refuted : ~ (forall phi FDF g v a, plot_dirtyFDF phi FDF g (Some (Some v)) = POk a -> In (VLine (Some v)) (drawn a)).
Proof. exact @peak_line_refuted. Qed.
Print Assumptions C88_peak_line_refuted.


(** C88. The spread function and the Gaussian of its width. *)
Theorem C88_rmsf : forall phi RMSF fwhm a, plot_RMSF phi RMSF fwhm = POk a ->
  margin (1 / 100) phi (xlim a) /\
  (exists re im p, each (part Re) RMSF re /\ each (part Im) RMSF im /\ each (part Cmod) RMSF p /\
    In (Steps (s "Real") phi re) (drawn a) /\ In (Steps (s "Imaginary") phi im) (drawn a) /\ In (Steps (s "PI") phi p) (drawn a)) /\
  (forall w, fwhm = Some w -> w <> 0 -> exists y, each (fun x y => match x with Some x => y = Some (bell 1 0 w x) | None => y = None end) phi y /\ In (Line (s "Gaussian") phi y) (drawn a)).
Proof. exact @rmsf_content. Qed.
Print Assumptions C88_rmsf.


(** C88. The figure after cleaning. The residual is drawn under the name of the dirty spectrum. *)
Theorem C88_clean : forall phi clean cc dirty resid g cutoff sc a1 a2, plot_cleanFDF_fig phi clean cc dirty resid g cutoff sc = POk (a1, a2) ->
  (exists p, each (part Cmod) clean p /\ In (Steps (s "PI") phi p) (drawn a1) /\ In (Steps (s "PI") phi p) (drawn a2)) /\
  (forall c, cc = Some c -> In (Steps (s "CC") phi c) (drawn a1) /\ In (Steps (s "CC") phi c) (drawn a2)) /\
  (forall d, dirty = Some d -> exists p, each (part Cmod) d p /\ In (Steps (s "Dirty") phi p) (drawn a1)) /\
  (forall r, resid = Some r -> exists p, each (part Cmod) r p /\ In (Steps (s "Dirty") phi p) (drawn a2)) /\
  (forall c, cutoff = Some c -> In (HLine c) (drawn a1) /\ In (HLine c) (drawn a2)) /\
  (forall x y, ~ In (Steps (s "Real") x y) (drawn a1) /\ ~ In (Steps (s "Real") x y) (drawn a2)).
Proof. exact @clean_fig. Qed.
Print Assumptions C88_clean.


(** C88. Refuted: the parts are drawn when asked for. *)
Theorem C88_complex_refuted : ~ (forall phi clean cc dirty resid g cutoff a1 a2, plot_cleanFDF_fig phi clean cc dirty resid g cutoff true = POk (a1, a2) ->
  exists re, In (Steps (s "Real") phi re) (drawn a1)).
Proof. exact @show_complex_refuted. Qed.
Print Assumptions C88_complex_refuted.


(** C88. The normal distribution is drawn from -6 to 6 sigma, each point on the curve. *)
Theorem C88_normal : forall cdf mean std n i, (i < n)%nat -> exists x, nth i (norm_cdf cdf mean std n) (0, 0) = (x, cdf mean std x) /\
  x = - (6) * std + 12 * std * (INR i / INR (n - 1)).
Proof. exact @norm_points. Qed.
Print Assumptions C88_normal.


(** C88. Refuted: the mean is in this range. *)
Theorem C88_normal_refuted : ~ (forall cdf mean std n, 0 < std -> (2 <= n)%nat -> exists x y, In (x, y) (norm_cdf cdf mean std n) /\ x <= mean /\ exists x' y', In (x', y') (norm_cdf cdf mean std n) /\ mean <= x').
Proof. exact @norm_range_refuted. Qed.
Print Assumptions C88_normal_refuted.


(** C88. The share of the data below each value; it stays under one. *)
Theorem C88_ecdf : forall l x y, NoDup l -> In (x, y) (ecdf l) -> In x l /\ y = INR (length (List.filter (fun z => if Rlt_dec z x then true else false) l)) / INR (length l) /\ 0 <= y < 1.
Proof. exact @ecdf_spec. Qed.
Print Assumptions C88_ecdf.
Example C88_ecdf_nonvacuous : NoDup [2; 1] /\ In (2, 1 / 2) (ecdf [2; 1]).
Proof.
  split.
  - constructor; [intros [E|[]]; lra|]. constructor; [intros []|constructor].
  - unfold ecdf. simpl. destruct (Rle_dec 2 1) as [h|_]; [lra|]. simpl. right. left. f_equal. 
Qed.


(** C88. Refuted: it is the share not above. *)
Theorem C88_ecdf_refuted : ~ (forall l x y, NoDup l -> In (x, y) (ecdf l) -> y = INR (length (List.filter (fun z => if Rle_dec z x then true else false) l)) / INR (length l)).
Proof. exact @ecdf_refuted. Qed.
Print Assumptions C88_ecdf_refuted.


(** C88. The curves of chi squared, over one grid. *)
Theorem C88_chi : forall sig cq cu, length sig = length cq -> length sig = length cu -> chi_curves sig cq sig cu = POk (combine sig cq, combine sig cu).
Proof. exact @chi_same. Qed.
Print Assumptions C88_chi.


(** C88. Refuted: the curve of U is over the grid of U. *)
Theorem C88_chi_refuted : ~ (forall sigq cq sigu cu a b, chi_curves sigq cq sigu cu = POk (a, b) -> map fst b = sigu).
Proof. exact @chi_refuted. Qed.
Print Assumptions C88_chi_refuted.


(** C88. The cumulative likelihood: partial sums, rising to one. *)
Theorem C88_cpdf : forall sig prob, length sig = length prob -> (forall x, In x prob -> 0 <= x) -> 0 < rsum prob ->
  map fst (cpdf sig prob) = sig /\
  (forall i, (i < length prob)%nat -> snd (nth i (cpdf sig prob) (0, 0)) = rsum (firstn (S i) prob) / rsum prob) /\
  (forall i j, (i <= j < length prob)%nat -> 0 <= snd (nth i (cpdf sig prob) (0, 0)) <= snd (nth j (cpdf sig prob) (0, 0)) /\ snd (nth j (cpdf sig prob) (0, 0)) <= 1) /\
  snd (nth (length prob - 1) (cpdf sig prob) (0, 0)) = 1.
Proof. exact @cpdf_spec. Qed.
Print Assumptions C88_cpdf.
Example C88_cpdf_nonvacuous : length [1; 2] = length [3; 4] /\ (forall x, In x [3; 4] -> 0 <= x) /\ 0 < rsum [3; 4].
Proof. split; [reflexivity|]. split; [intros x [<-|[<-|[]]]; lra|]. change (0 < 3 + (4 + 0)). lra. Qed.


(** C88. The zoomed figure holds both values with their errors. *)
Theorem C88_zoom : forall sq pq mq su pu mu lo hi, 0 <= sq -> 0 <= su -> 0 <= pq -> 0 <= mq -> 0 <= pu -> 0 <= mu -> zoom (sq, pq, mq) (su, pu, mu) = (lo, hi) ->
  0 <= lo /\ lo <= sq <= hi /\ lo <= su <= hi /\ lo <= Rmax 0 (sq - mq) /\ lo <= Rmax 0 (su - mu) /\ sq + pq <= hi /\ su + pu <= hi.
Proof. exact @zoom_spec. Qed.
Print Assumptions C88_zoom.


(** C88. The curve over the histogram is the Gaussian of the width computed. *)
Theorem C88_bell : forall med noise x, 0 < noise -> normal_curve med noise x = bell (1 / (noise * sqrt (2 * PI))) med (noise * (2 * sqrt (2 * ln 2))) x.
Proof. exact @normal_bell. Qed.
Print Assumptions C88_bell.

