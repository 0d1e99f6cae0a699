(** The numbers behind the figures: claim C86. *)
From Coq Require Import Reals List Arith ZArith Lia Lra Bool Permutation.
Set Warnings "-ambiguous-paths".
From Coquelicot Require Import Coquelicot.
From Verif Require Import PyRes PyList NdArray NdIndex Pl_Model Pl_Spec Pl_Proofs Pl_More.
Import ListNotations.
Local Open Scope R_scope.

(** C86. The selection flags exactly the numbers outside the limits, and NaN if asked and a limit is given. *)
Theorem C86_filter : forall a lo hi fn, length (filter_range_indx a lo hi fn) = length a /\
  forall i, (i < length a)%nat -> (nth i (filter_range_indx a lo hi fn) false = true <->
    (exists v, nth i a None = Some v /\ outside lo hi v) \/ (nth i a None = None /\ fn = true /\ (lo <> None \/ hi <> None))).
Proof. exact @filter_spec. Qed.
Print Assumptions C86_filter.


(** C86. Refuted: NaN is flagged on request. Without limits it is not. *)
Theorem C86_filter_nan_refuted : forall a i, (i < length a)%nat -> nth i a None = None -> nth i (filter_range_indx a None None true) false = false.
Proof. exact @filter_nan_unlimited. Qed.
Print Assumptions C86_filter_nan_refuted.


(** C86. Drawn lines: the slices are the data in order, no slice is empty, and the cuts are exactly the leaps. *)
Theorem C86_lines : forall dat lo hi th, let l := unwrap_lines dat lo hi th in let d := ((hi - lo) * th)%R in
  concat (map (piece dat) l) = dat /\
  (forall i, (S i < length dat)%nat -> (leaps dat d i <-> (exists a, In (a, S i) l) /\ exists c, In (S i, c) l)) /\
  (forall a b, In (a, b) l -> (a <= b <= length dat)%nat /\ (dat <> [] -> (a < b)%nat) /\ forall i, (a <= i)%nat -> (S i < b)%nat -> ~ leaps dat d i).
Proof. exact @unwrap_spec. Qed.
Print Assumptions C86_lines.
Example C86_lines_case : leaps [Some 80; Some 89; Some (-89); Some (-80)] ((90 - -90) * (8 / 10)) 1.
Proof. exists 89, (-89). repeat split. rewrite Rabs_left; lra. Qed.


(** C86. The curve of a Gaussian: its height, its full width at half maximum, symmetric and falling away from the mean. *)
Theorem C86_gauss : forall a b w, w <> 0 -> gauss_curve a b w b = Some a /\ gauss_curve a b w (b + w / 2) = Some (a / 2) /\
  (forall x, gauss_curve a b w (b + x) = gauss_curve a b w (b - x)) /\
  (forall x y u v, 0 <= a -> Rabs (x - b) <= Rabs (y - b) -> gauss_curve a b w x = Some u -> gauss_curve a b w y = Some v -> v <= u).
Proof. exact @gauss_curve_spec. Qed.
Print Assumptions C86_gauss.
Example C86_gauss_nonvacuous : (2 : R) <> 0.
Proof. lra. Qed.


(** C86. The outline of a histogram: the bars between two points on the base. *)
Theorem C86_hist : forall bins n lg zp add, length bins = (length n + 1)%nat ->
  let n' := if lg : bool then map (fun v => if Rle_dec v 0 then zp else v) n else n in let z := if lg then zp else 0 in
  mk_hist_poly bins n lg zp add = POk (if add : bool then [(nth 0 bins 0, z)] ++ stairs bins n' ++ [(last bins 0, z); (nth 0 bins 0, z)] else stairs bins n').
Proof. exact @hist_poly_spec. Qed.
Print Assumptions C86_hist.
Example C86_hist_nonvacuous : length [0; 1; 3] = (length [5; 2] + 1)%nat.
Proof. reflexivity. Qed.


(** C86. It encloses the area of the bars above the base. *)
Theorem C86_hist_area : forall bins n lg zp l, length bins = (length n + 1)%nat -> n <> [] -> mk_hist_poly bins n lg zp true = POk l ->
  let n' := if lg : bool then map (fun v => if Rle_dec v 0 then zp else v) n else n in let z := if lg then zp else 0 in
  twice_area l = - 2 * (bars bins n' - (last bins 0 - nth 0 bins 0) * z).
Proof. exact @hist_poly_area. Qed.
Print Assumptions C86_hist_area.
Example C86_hist_area_case : bars [0; 1; 3] [5; 2] = 9.
Proof. cbn. lra. Qed.


(** C86. No outline without bin edges. *)
Theorem C86_hist_empty : forall n lg zp, mk_hist_poly [] n lg zp true = PErr.
Proof. exact @hist_poly_empty. Qed.
Print Assumptions C86_hist_empty.


(** C86. The colour scale: the limits are mapped to 0 and 1, in order and along the curve of the stretch, values beyond are clipped if asked, and the inverse gives the value back. *)
Theorem C86_scale : forall st mid e vmin vmax, sound st mid e -> vmin < vmax -> exists g : R -> R,
  g vmin = 0 /\ g vmax = 1 /\ (forall x y, vmin <= x -> x < y -> y <= vmax -> g x < g y) /\
  (forall clip val, List.Forall (fun x => forall v, x = Some v -> clip = true \/ vmin <= v <= vmax) val ->
    normalize st mid e vmin vmax clip val = POk (map (option_map (fun v => g (Rmin (Rmax v vmin) vmax))) val)) /\
  (forall v, vmin <= v <= vmax -> curve st mid e ((v - vmin) / (vmax - vmin)) (g v)) /\
  (forall v, vmin <= v <= vmax -> inverse st mid e vmin vmax (g v) = POk (Some v)).
Proof. exact @norm_scale. Qed.
Print Assumptions C86_scale.
Example C86_scale_nonvacuous : sound SLog (Some (5 / 100)) None /\ sound SArcsinh (Some (- (33 / 1000))) None /\ sound SPower None (Some 2).
Proof. cbn. repeat split; eexists; split; try reflexivity; lra. Qed.


(** C86. Exactly when values are mapped. *)
Theorem C86_scale_defined : forall st mid e vmin vmax clip val, (exists l, normalize st mid e vmin vmax clip val = POk l) <-> vmin = vmax \/ vmin < vmax /\ settled st mid e.
Proof. exact @norm_defined. Qed.
Print Assumptions C86_scale_defined.


(** C86. Equal limits give zeros, whatever the stretch. *)
Theorem C86_scale_flat : forall st mid e v clip val, normalize st mid e v v clip val = POk (map (option_map (fun _ => 0)) val).
Proof. exact @norm_flat. Qed.
Print Assumptions C86_scale_flat.


(** C86. The midpoints used by default meet the condition. *)
Theorem C86_midpoint : forall st e lo hi, st <> SOther -> (st = SPower -> exists q, e = Some q /\ 0 < q) -> exists m, midpoint st None lo hi = POk m /\ sound st m e.
Proof. exact @midpoint_default. Qed.
Print Assumptions C86_midpoint.
Example C86_midpoint_nonvacuous : SPower <> SOther /\ exists q, Some 2 = Some q /\ 0 < q.
Proof. split; [discriminate|]. exists 2. split; [reflexivity|lra]. Qed.


(** C86. Statistics of an array: count, mean, deviation, extremes and where the maximum is, median and its deviation. *)
Theorem C86_stats : forall a mz, wf_nd a -> let t := calc_stats a mz in let g := kept mz (flat a) in
  npix t = length g /\ (success t = true <-> (2 <= length g)%nat) /\
    (success t = true ->
    mean_ t * INR (length g) = total g /\
    0 <= stdev t /\ stdev t ^ 2 * INR (length g) = total (map (fun x => (x - mean_ t) ^ 2) g) /\
    In (max_ t) g /\ In (min_ t) g /\ (forall x, In x g -> min_ t <= x <= max_ t) /\
    valid (shape a) (centmax t) /\ nth (ravel (shape a) (centmax t)) (flat a) None = Some (max_ t) /\
    halves g (med t) /\ 0 <= madfm t /\ halves (map (fun x => Rabs (x - med t)) g) (6745 / 10000 * madfm t)).
Proof. exact @stats_spec. Qed.
Print Assumptions C86_stats.
Example C86_stats_nonvacuous : wf_nd (mk_nd [2; 2]%nat [Some 1; None; Some 4; Some 2]) /\ length (kept false [Some 1; None; Some 4; Some 2]) = 3%nat.
Proof.
  split; [reflexivity|]. cbn [kept]. destruct (Req_EM_T 1 0), (Req_EM_T 4 0), (Req_EM_T 2 0); try lra. reflexivity.
Qed.


(** C86. With fewer than two numbers all of them are zero. *)
Theorem C86_stats_fail : forall a mz, success (calc_stats a mz) = false -> let t := calc_stats a mz in
  stdev t = 0 /\ mean_ t = 0 /\ med t = 0 /\ max_ t = 0 /\ min_ t = 0 /\ centmax t = [0; 0]%nat /\ madfm t = 0.
Proof. exact @stats_fail. Qed.
Print Assumptions C86_stats_fail.


(** C86. Refuted: the count is then zero too. One number is counted. *)
Theorem C86_stats_one_refuted : forall sh v, npix (calc_stats (mk_nd sh [Some v]) false) = 1%nat /\ success (calc_stats (mk_nd sh [Some v]) false) = false.
Proof. exact @stats_one. Qed.
Print Assumptions C86_stats_one_refuted.


(** C86. Exactly when an image gets limits. *)
Theorem C86_limits_defined : forall mx mad st zMin zMax, (exists r, colour_limits mx mad st zMin zMax = POk r) <-> mad <> 0 /\ (st = None \/ zMax <> None).
Proof. exact @limits_defined. Qed.
Print Assumptions C86_limits_defined.


(** C86. The automatic limits. *)
Theorem C86_limits_auto : forall mx mad zMin, mad <> 0 -> colour_limits mx mad None zMin None =
  POk (if Rle_dec (Rabs (mx / mad)) 20 then (Some (- (15 / 10) * mad), Some (10 * mad), SLinear) else (Some (- 3 * mad), Some (40 * mad), SLinear)).
Proof. exact @limits_auto. Qed.
Print Assumptions C86_limits_auto.


(** C86. With an upper limit: it is raised to the maximum, and the lower limit is taken. *)
Theorem C86_limits_given : forall mx mad st zMin z r, colour_limits mx mad st zMin (Some z) = POk r -> fst (fst r) = zMin /\ snd (fst r) = Some (Rmax z mx).
Proof. exact @limits_given. Qed.
Print Assumptions C86_limits_given.


(** C86. Refuted: images above 500 sigma get a square root stretch. None does. *)
Theorem C86_sqrt_refuted : forall mx mad zMin zMax lo hi t, colour_limits mx mad None zMin zMax = POk (lo, hi, t) -> t = SLinear.
Proof. exact @limits_never_sqrt. Qed.
Print Assumptions C86_sqrt_refuted.


(** C86. Refuted: a lower limit alone is used. It is ignored. *)
Theorem C86_zmin_refuted : forall mx mad st zMin zMin', colour_limits mx mad st zMin None = colour_limits mx mad st zMin' None.
Proof. exact @limits_zmin_ignored. Qed.
Print Assumptions C86_zmin_refuted.


(** C86. Refuted: a blank image is drawn. Its noise is zero, which divides. *)
Theorem C86_blank_refuted : forall a st zMin zMax, (length (kept false (flat a)) < 2)%nat -> let t := calc_stats a false in colour_limits (max_ t) (madfm t) st zMin zMax = PErr.
Proof. exact @limits_blank. Qed.
Print Assumptions C86_blank_refuted.
Example C86_blank_case : (length (kept false (flat (mk_nd [1; 2]%nat [None; None]))) < 2)%nat.
Proof. cbn. repeat constructor. Qed.


(** C86. The part of an axis that is sampled: within the image and at most one too far, as long as asked within one, up to one above the centre. *)
Theorem C86_box : forall n frac, 0 <= frac <= 1 -> let b := box n frac in
  (1 <= fst b <= snd b)%Z /\ (snd b <= Z.of_nat n + 1)%Z /\ Rabs (IZR (snd b) - IZR (fst b) - INR n * frac) < 1 /\
  0 < (IZR (fst b) + IZR (snd b)) / 2 - INR n / 2 <= 1.
Proof. exact @box_spec. Qed.
Print Assumptions C86_box.
Example C86_box_nonvacuous : 0 <= 1 / 2 <= 1.
Proof. lra. Qed.


(** C86. Refuted: a fraction of one is the whole image. The first row and column are left out. *)
Theorem C86_box_refuted : forall n, box n 1 = (1, Z.of_nat n + 1)%Z.
Proof. exact @box_whole. Qed.
Print Assumptions C86_box_refuted.

