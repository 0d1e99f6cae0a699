(** Proofs about the colour scale, the statistics of an image and its limits. *)
From Coq Require Import Reals Lra Lia List Arith ZArith Bool Permutation.
From Coquelicot Require Import Rcomplements.
From Verif Require Import PyRes PyList PyList_Proofs NdArray NdIndex CBase Peak_Proofs Synth_Model Measure_Model Median_Proofs StokesI_Model Setup_Proofs Pl_Model Pl_Spec.
Import ListNotations.
Local Open Scope R_scope.

Lemma le_IZR1 : forall a b : Z, IZR a < IZR b + 1 -> (a <= b)%Z.
Proof. intros a b H. apply Z.lt_succ_r. apply lt_IZR. rewrite succ_IZR. exact H. Qed.

(* ----------------------------------------------------------- colour scale *)

Lemma ln10_pos : 0 < ln 10.
Proof. rewrite <- ln_1. apply ln_increasing; lra. Qed.
Lemma log10_lt : forall x y, 0 < x -> x < y -> log10 x < log10 y.
Proof. intros x y Hx H. unfold log10. apply Rmult_lt_compat_r; [apply Rinv_0_lt_compat, ln10_pos|]. apply ln_increasing; auto. Qed.
Lemma log10_1 : log10 1 = 0.
Proof. unfold log10. rewrite ln_1. pose proof ln10_pos. field. lra. Qed.
Lemma pow10_log10 : forall y, 0 < y -> Rpower 10 (log10 y) = y.
Proof. intros y H. unfold Rpower, log10. pose proof ln10_pos. replace (ln y / ln 10 * ln 10) with (ln y) by (field; lra). apply exp_ln; auto. Qed.

Lemma stretch_fun : forall st mid e vmin vmax, sound st mid e -> exists h : R -> R,
  (forall r, 0 <= r <= 1 -> stretched st mid e r = POk (Some (h r))) /\ h 0 = 0 /\ h 1 = 1 /\
  (forall x y, 0 <= x -> x < y -> y <= 1 -> h x < h y) /\
  (forall r, 0 <= r <= 1 -> curve st mid e r (h r)) /\
  (forall r, 0 <= r <= 1 -> inverse st mid e vmin vmax (h r) = POk (Some (vmin + r * (vmax - vmin)))).
Proof.
  intros st mid e vmin vmax H. destruct st; cbn [sound] in H.
  - exists (fun r => r). cbn. repeat split; auto.
  - destruct H as (m & -> & Hm). cbn [stretched inverse]. assert (M : m <> 0) by lra. destruct (Req_EM_T m 0) as [|_]; [contradiction|].
    assert (P : forall r, 0 <= r <= 1 -> 0 < r / m + 1).
    { intros r Hr. destruct Hm as [Hm|Hm].
      - assert (0 <= r / m) by (apply Rmult_le_pos; [lra|apply Rlt_le, Rinv_0_lt_compat; auto]). lra.
      - assert (I1 : -1 < / m < 0). { split; [|apply Rinv_lt_0_compat; lra]. apply Rmult_lt_reg_l with (- m); [lra|]. replace (- m * / m) with (-1) by (field; auto). lra. }
        unfold Rdiv. nra. }
    set (L := log10 (1 / m + 1)).
    assert (MO : forall x y, 0 <= x -> x < y -> y <= 1 -> (0 < m -> log10 (x / m + 1) < log10 (y / m + 1)) /\ (m < 0 -> log10 (y / m + 1) < log10 (x / m + 1))).
    { intros x y Hx Hxy Hy. split; intros Hs; apply log10_lt; try (apply P; lra); unfold Rdiv; apply Rplus_lt_compat_r.
      - apply Rmult_lt_compat_r; [apply Rinv_0_lt_compat; auto|auto].
      - assert (/ m < 0) by (apply Rinv_lt_0_compat; auto). nra. }
    assert (Z : log10 (0 / m + 1) = 0) by (replace (0 / m + 1) with 1 by (field; auto); apply log10_1).
    assert (LN : (0 < m -> 0 < L) /\ (m < 0 -> L < 0)). { destruct (MO 0 1) as [A B]; try lra. fold L in A, B. rewrite Z in A, B. split; auto. }
    assert (L0 : L <> 0) by (destruct Hm; [assert (0 < L) by (apply LN; auto)|assert (L < 0) by (apply LN; lra)]; lra).
    exists (fun r => log10 (r / m + 1) / L). split; [|split; [|split; [|split; [|split]]]].
    + intros r Hr. cbn [ma_div option_map omap]. destruct (Req_EM_T m 0) as [|_]; [contradiction|]. cbn [option_map omap]. unfold ma_log10.
      destruct (Rlt_dec 0 (r / m + 1)) as [_|n]; [|destruct (n (P r Hr))]. destruct (Rlt_dec 0 (1 / m + 1)) as [_|n]; [|destruct (n (P 1 ltac:(lra)))]. cbn [ma_div]. fold L. destruct (Req_EM_T L 0); [contradiction|]. reflexivity.
    + rewrite Z. field. auto.
    + fold L. field. auto.
    + intros x y Hx Hxy Hy. destruct (MO x y Hx Hxy Hy) as [A B]. destruct Hm as [Hm|Hm].
      * apply Rmult_lt_compat_r; [apply Rinv_0_lt_compat, LN; auto|auto].
      * assert (IL : / L < 0) by (apply Rinv_lt_0_compat, LN; lra). specialize (B ltac:(lra)). unfold Rdiv in *. nra.
    + intros r Hr m' [= <-]. assert (P1 := P 1 ltac:(lra)). assert (PR := P r Hr). assert (LL : ln (1 / m + 1) <> 0). { intros E. apply L0. unfold L, log10. rewrite E. unfold Rdiv. ring. }
      pose proof ln10_pos as LT. unfold Rpower. replace (log10 (r / m + 1) / L * ln (1 + 1 / m)) with (ln (r / m + 1)).
      * rewrite exp_ln by auto. field. auto.
      * unfold L, log10. rewrite (Rplus_comm 1). field. split; [lra|auto].
    + intros r Hr. cbn [ma_div]. destruct (Req_EM_T m 0) as [|_]; [contradiction|]. cbn [omap]. unfold ma_log10. destruct (Rlt_dec 0 (1 / m + 1)) as [_|n]; [|destruct (n (P 1 ltac:(lra)))].
      cbn [omap option_map]. fold L. replace (log10 (r / m + 1) / L * L) with (log10 (r / m + 1)) by (field; auto). rewrite pow10_log10 by (apply P; auto). do 2 f_equal. field. auto.
  - exists sqrt. cbn [stretched inverse option_map]. split; [|split; [|split; [|split; [|split]]]].
    + intros r Hr. unfold ma_sqrt. destruct (Rle_dec 0 r); [reflexivity|lra].
    + apply sqrt_0.
    + apply sqrt_1.
    + intros x y Hx Hxy Hy. apply sqrt_lt_1; lra.
    + intros r Hr. split; [apply sqrt_pos|apply sqrt_sqrt; lra].
    + intros r Hr. rewrite sqrt_sqrt by lra. reflexivity.
  - destruct H as (m & -> & M). cbn [stretched inverse]. destruct (Req_EM_T m 0) as [|_]; [contradiction|].
    set (L := arcsinh (1 / m)). assert (Z : arcsinh (0 / m) = 0) by (replace (0 / m) with 0 by (field; auto); apply arcsinh_0).
    assert (MO : forall x y, x < y -> (0 < m -> arcsinh (x / m) < arcsinh (y / m)) /\ (m < 0 -> arcsinh (y / m) < arcsinh (x / m))).
    { intros x y Hxy. split; intros Hs; apply arcsinh_lt; unfold Rdiv.
      - apply Rmult_lt_compat_r; [apply Rinv_0_lt_compat; auto|auto].
      - assert (/ m < 0) by (apply Rinv_lt_0_compat; auto). nra. }
    assert (LN : (0 < m -> 0 < L) /\ (m < 0 -> L < 0)). { destruct (MO 0 1) as [A B]; try lra. fold L in A, B. rewrite Z in A, B. split; auto. }
    assert (MS : 0 < m \/ m < 0) by lra.
    assert (L0 : L <> 0) by (destruct MS; [assert (0 < L) by (apply LN; auto)|assert (L < 0) by (apply LN; lra)]; lra).
    exists (fun r => arcsinh (r / m) / L). split; [|split; [|split; [|split; [|split]]]].
    + intros r Hr. cbn [ma_div option_map]. destruct (Req_EM_T m 0) as [|_]; [contradiction|]. cbn [option_map ma_div]. fold L. destruct (Req_EM_T L 0); [contradiction|]. reflexivity.
    + rewrite Z. field. auto.
    + fold L. field. auto.
    + intros x y Hx Hxy Hy. destruct (MO x y Hxy) as [A B]. destruct MS as [Hm|Hm].
      * apply Rmult_lt_compat_r; [apply Rinv_0_lt_compat, LN; auto|auto].
      * assert (IL : / L < 0) by (apply Rinv_lt_0_compat, LN; lra). specialize (B ltac:(lra)). unfold Rdiv in *. nra.
    + intros r Hr m' [= <-]. fold L. replace (arcsinh (r / m) / L * L) with (arcsinh (r / m)) by (field; auto). rewrite sinh_arcsinh. field. auto.
    + intros r Hr. cbn [ma_div]. destruct (Req_EM_T m 0) as [|_]; [contradiction|]. cbn [omap option_map]. fold L. replace (arcsinh (r / m) / L * L) with (arcsinh (r / m)) by (field; auto).
      rewrite sinh_arcsinh. do 2 f_equal. field. auto.
  - destruct H as (q & -> & Q). cbn [stretched inverse]. exists (fun r => if Req_EM_T r 0 then 0 else Rpower r q).
    assert (PP : forall r, 0 < r -> 0 < Rpower r q) by (intros r _; apply exp_pos).
    split; [|split; [|split; [|split; [|split]]]].
    + intros r Hr. unfold ma_power. destruct (Req_EM_T r 0) as [->|].
      * destruct (Rlt_dec 0 0); [lra|]. destruct (Req_EM_T 0 0); [|contradiction]. destruct (Rlt_dec 0 q); [reflexivity|contradiction].
      * destruct (Rlt_dec 0 r); [reflexivity|lra].
    + destruct (Req_EM_T 0 0); [reflexivity|contradiction].
    + destruct (Req_EM_T 1 0); [lra|]. unfold Rpower. rewrite ln_1, Rmult_0_r. apply exp_0.
    + intros x y Hx Hxy Hy. destruct (Req_EM_T y 0); [lra|]. destruct (Req_EM_T x 0); [apply PP; lra|]. unfold Rpower. apply exp_increasing, Rmult_lt_compat_l; auto. apply ln_increasing; lra.
    + intros r Hr q' [= <-]. destruct (Req_EM_T r 0); [left; auto|right; split; [lra|reflexivity]].
    + intros r Hr. destruct (Req_EM_T q 0) as [|_]; [lra|]. unfold ma_power. destruct (Req_EM_T r 0) as [->|].
      * destruct (Rlt_dec 0 0); [lra|]. destruct (Req_EM_T 0 0); [|contradiction]. assert (0 < 1 / q) by (apply Rdiv_lt_0_compat; lra). destruct (Rlt_dec 0 (1 / q)); [reflexivity|contradiction].
      * destruct (Rlt_dec 0 (Rpower r q)) as [_|n']; [|destruct (n' (PP r ltac:(lra)))]. rewrite Rpower_mult. replace (q * (1 / q)) with 1 by (field; lra). rewrite Rpower_1 by lra. reflexivity.
  - destruct H.
Qed.

Theorem norm_scale : forall st mid e vmin vmax, sound st mid e -> vmin < vmax -> exists g : R -> R,
  g vmin = 0 /\ g vmax = 1 /\ (forall x y, vmin <= x -> x < y -> y <= vmax -> g x < g y) /\
  (forall clip val, List.Forall (fun x => forall v, x = Some v -> clip = true \/ vmin <= v <= vmax) val ->
    normalize st mid e vmin vmax clip val = POk (map (option_map (fun v => g (Rmin (Rmax v vmin) vmax))) val)) /\
  (forall v, vmin <= v <= vmax -> curve st mid e ((v - vmin) / (vmax - vmin)) (g v)) /\
  (forall v, vmin <= v <= vmax -> inverse st mid e vmin vmax (g v) = POk (Some v)).
Proof.
  intros st mid e vmin vmax S V. destruct (stretch_fun st mid e vmin vmax S) as (h & H1 & H0 & HE & HM & HC & HI).
  set (r v := (v - vmin) * (1 / (vmax - vmin))). assert (D : 0 < 1 / (vmax - vmin)) by (apply Rdiv_lt_0_compat; lra).
  assert (RB : forall v, vmin <= v <= vmax -> 0 <= r v <= 1).
  { intros v Hv. unfold r. split; [apply Rmult_le_pos; lra|]. apply Rmult_le_reg_r with (vmax - vmin); [lra|]. replace ((v - vmin) * (1 / (vmax - vmin)) * (vmax - vmin)) with (v - vmin) by (field; lra). lra. }
  exists (fun v => h (r v)). split; [|split; [|split; [|split; [|split]]]].
  - replace (r vmin) with 0 by (unfold r; ring). auto.
  - replace (r vmax) with 1 by (unfold r; field; lra). auto.
  - intros x y Hx Hxy Hy. apply HM; [apply RB; lra|unfold r; apply Rmult_lt_compat_r; lra|apply RB; lra].
  - intros clip val F. unfold normalize. destruct (Rlt_dec vmax vmin); [lra|]. destruct (Req_EM_T vmin vmax); [lra|]. rewrite (H1 0) by lra. f_equal. apply map_ext_in. intros x Hx.
    rewrite Forall_forall in F. specialize (F x Hx). destruct x as [v|]; [|reflexivity]. cbn [omap option_map]. specialize (F v eq_refl).
    assert (B : vmin <= Rmin (Rmax v vmin) vmax <= vmax). { split; [apply Rmin_glb; [apply Rmax_r|lra]|apply Rmin_r]. }
    destruct clip.
    + fold (r (Rmin (Rmax v vmin) vmax)). rewrite H1 by (apply RB; auto). reflexivity.
    + destruct F as [F|F]; [discriminate|]. rewrite (Rmax_left v vmin), (Rmin_left v vmax) by lra. fold (r v). rewrite H1 by (apply RB; auto). reflexivity.
  - intros v Hv. replace ((v - vmin) / (vmax - vmin)) with (r v) by (unfold r; field; lra). apply HC, RB; auto.
  - intros v Hv. rewrite HI by (apply RB; auto). do 2 f_equal. unfold r. field. lra.
Qed.
Theorem norm_defined : forall st mid e vmin vmax clip val, (exists l, normalize st mid e vmin vmax clip val = POk l) <-> vmin = vmax \/ vmin < vmax /\ settled st mid e.
Proof.
  intros st mid e vmin vmax clip val. unfold normalize. destruct (Rlt_dec vmax vmin) as [H|H].
  - split; [intros [l E]; discriminate|intros [->|[E _]]; lra].
  - destruct (Req_EM_T vmin vmax) as [->|N]; [split; [left; auto|eauto]|].
    assert (X : (exists q, stretched st mid e 0 = POk q) <-> settled st mid e).
    { destruct st; cbn [stretched settled]; try (split; [auto|eauto]; fail).
      - destruct mid as [m|]; [|split; [intros [q E]; discriminate|intros (m & E & _); discriminate]].
        destruct (Req_EM_T m 0) as [->|M]; [split; [intros [q E]; discriminate|intros (m & [= <-] & C); congruence]|split; eauto].
      - destruct mid as [m|]; [|split; [intros [q E]; discriminate|intros (m & E & _); discriminate]].
        destruct (Req_EM_T m 0) as [->|M]; [split; [intros [q E]; discriminate|intros (m & [= <-] & C); congruence]|split; eauto].
      - destruct mid, e; split; try (intros [q E]; discriminate E); try congruence; eauto; intros; discriminate.
      - destruct mid, e; split; intros; try (destruct H0; discriminate); contradiction. }
    destruct (stretched st mid e 0) as [q|].
    + split; [intros _; right; split; [lra|apply X; eauto]|eauto].
    + split; [intros [l E]; discriminate|intros [E|[_ E]]; [contradiction|]]. apply X in E. destruct E as [q E]. discriminate.
Qed.
(** equal limits give zeros, whatever the stretch *)
Theorem norm_flat : forall st mid e v clip val, normalize st mid e v v clip val = POk (map (option_map (fun _ => 0)) val).
Proof. intros. unfold normalize. destruct (Rlt_dec v v); [lra|]. destruct (Req_EM_T v v); [reflexivity|contradiction]. Qed.
(** the midpoints set without vmid are sound *)
Theorem midpoint_default : forall st e lo hi, st <> SOther -> (st = SPower -> exists q, e = Some q /\ 0 < q) -> exists m, midpoint st None lo hi = POk m /\ sound st m e.
Proof.
  intros st e lo hi N P. exists (match st with SLog => Some (5 / 100) | SArcsinh => Some (- (33 / 1000)) | _ => None end). split; [reflexivity|].
  destruct st; cbn [sound]; auto; try (eexists; split; [reflexivity|lra]).
Qed.

(* -------------------------------------------------------------- statistics *)

Lemma kept_somes : forall mz l, somes (map (omap (fun x => if mz : bool then (if Req_EM_T x 0 then None else Some x) else Some x)) l) = kept mz l.
Proof.
  intros mz. induction l as [|[v|] l IH]; [reflexivity| |exact IH]. unfold somes in *. cbn [map flat_map omap kept]. rewrite IH. destruct (Req_EM_T v 0), mz; reflexivity.
Qed.
Lemma rsum_total : forall l, rsum l = total l.
Proof. induction l as [|x l IH]; [reflexivity|]. change (x + rsum l = x + total l). rewrite IH. reflexivity. Qed.
Lemma halves_median : forall l m, median l = Some m -> halves l m.
Proof. intros l m H. apply median_halves in H. exact H. Qed.
Lemma fold_max : forall l b, In (fold_right Rmax b l) (b :: l) /\ forall x, In x (b :: l) -> x <= fold_right Rmax b l.
Proof.
  induction l as [|y l IH]; intros b; cbn [fold_right]; [split; [left; auto|intros x [->|[]]; lra]|]. destruct (IH b) as [A B]. split.
  - destruct (Rmax_case_strong y (fold_right Rmax b l) (fun z => z = y \/ z = fold_right Rmax b l)) as [E|E]; auto; rewrite E; [right; left; auto|]. destruct A as [A|A]; [left; auto|right; right; auto].
  - intros x [<-|[<-|Hx]]; [|apply Rmax_l|]; apply Rle_trans with (fold_right Rmax b l); try apply Rmax_r; apply B; [left|right]; auto.
Qed.
Lemma fold_min : forall l b, In (fold_right Rmin b l) (b :: l) /\ forall x, In x (b :: l) -> fold_right Rmin b l <= x.
Proof.
  induction l as [|y l IH]; intros b; cbn [fold_right]; [split; [left; auto|intros x [->|[]]; lra]|]. destruct (IH b) as [A B]. split.
  - destruct (Rmin_case_strong y (fold_right Rmin b l) (fun z => z = y \/ z = fold_right Rmin b l)) as [E|E]; auto; rewrite E; [right; left; auto|]. destruct A as [A|A]; [left; auto|right; right; auto].
  - intros x [<-|[<-|Hx]]; [|apply Rmin_l|]; apply Rle_trans with (fold_right Rmin b l); try apply Rmin_r; apply B; [left|right]; auto.
Qed.
Lemma nth0_in : forall (l : list R), l <> [] -> In (nth 0 l 0) l.
Proof. intros [|x l] H; [congruence|left; auto]. Qed.
Lemma in_somes : forall (l : list (option R)) x, In x (somes l) -> In (Some x) l.
Proof. intros l x H. unfold somes in H. apply in_flat_map in H. destruct H as ([w|] & K1 & K2); [|destruct K2]. destruct K2 as [<-|[]]. exact K1. Qed.
Lemma kept_in : forall mz l v, In v (kept mz l) <-> In (Some v) l /\ (mz = true -> v <> 0).
Proof.
  intros mz. induction l as [|[w|] l IH]; intros v; cbn [kept].
  - split; [intros []|intros [[] _]].
  - destruct (Req_EM_T w 0) as [->|N], mz; cbn [In]; rewrite IH; intuition (try congruence).
  - rewrite IH. cbn [In]. intuition (try congruence).
Qed.

Definition ole (x y : option R) : Prop := match x, y with None, _ => True | Some p, Some q => p <= q | Some _, None => False end.

Theorem stats_spec : forall a mz, wf_nd a -> let t := calc_stats a mz in let g := kept mz (flat a) in
  npix t = length g /\ (success t = true <-> (2 <= length g)%nat) /\
    (success t = true ->
    mean_ t * INR (length g) = total g /\
    0 <= stdev t /\ stdev t ^ 2 * INR (length g) = total (map (fun x => (x - mean_ t) ^ 2) g) /\
    In (max_ t) g /\ In (min_ t) g /\ (forall x, In x g -> min_ t <= x <= max_ t) /\
    valid (shape a) (centmax t) /\ nth (ravel (shape a) (centmax t)) (flat a) None = Some (max_ t) /\
    halves g (med t) /\ 0 <= madfm t /\ halves (map (fun x => Rabs (x - med t)) g) (6745 / 10000 * madfm t)).
Proof.
  intros a mz W t g. unfold t, calc_stats. set (f := fun x : R => if mz then if Req_EM_T x 0 then None else Some x else Some x).
  set (v := map (omap f) (flat a)). assert (G : somes v = g) by apply kept_somes. rewrite G.
  destruct (Nat.leb_spec 2 (length g)) as [H2|H2].
  2:{ cbn. split; [reflexivity|]. split; [split; [discriminate|lia]|discriminate]. }
  assert (N : g <> []) by (intros E; rewrite E in H2; cbn in H2; lia).
  assert (NL : 0 < INR (length g)) by (apply lt_0_INR; lia).
  destruct (median g) as [d|] eqn:M; [|rewrite (median_is_mid g N) in M; discriminate].
  destruct (MAD_nonneg v) as [MN _]. destruct (MN ltac:(rewrite G; auto)) as (q & Q & Q0). rewrite Q.
  set (lt := fun x y : option R => match x, y with None, Some _ => true | Some p, Some q => Rltb p q | _, _ => false end).
  assert (VN : v <> []). { intros E. apply N. rewrite <- G, E. reflexivity. }
  destruct (argmax_some lt v VN) as [i I]. rewrite I. cbn [npix stdev mean_ med max_ min_ centmax madfm success].
  split; [reflexivity|]. split; [split; auto|]. intros _.
  assert (MEAN : rmean g * INR (length g) = total g) by (unfold rmean; rewrite rsum_total; field; lra).
  split; [exact MEAN|]. split; [apply sqrt_pos|].
  assert (SP : forall l : list R, 0 <= total (map (fun x => (x - rmean g) ^ 2) l)) by (induction l as [|x l IH]; cbn [map total]; [lra|pose proof (pow2_ge_0 (x - rmean g)); lra]).
  split.
  { rewrite pow2_sqrt; [unfold rmean at 1; rewrite rsum_total, map_length; field; lra|]. unfold rmean at 1. rewrite rsum_total, map_length. apply Rmult_le_pos; [apply SP|apply Rlt_le, Rinv_0_lt_compat; auto]. }
  destruct (fold_max g (nth 0 g 0)) as [X1 X2]. destruct (fold_min g (nth 0 g 0)) as [Y1 Y2].
  assert (X1' : In (fold_right Rmax (nth 0 g 0) g) g) by (destruct X1 as [X1|X1]; [rewrite <- X1; apply nth0_in; auto|auto]).
  assert (Y1' : In (fold_right Rmin (nth 0 g 0) g) g) by (destruct Y1 as [Y1|Y1]; [rewrite <- Y1; apply nth0_in; auto|auto]).
  split; [exact X1'|]. split; [exact Y1'|]. split; [intros x Hx; split; [apply Y2|apply X2]; right; auto|].
  destruct (argmax_spec lt ole) with (l := v) (r := i) (d := @None R) as [A B]; auto.
  { intros [x|]; cbn; auto. lra. }
  { intros [x|] [y|] [z|]; cbn; auto; try contradiction; lra. }
  { intros [x|] [y|]; cbn; auto; try discriminate. unfold Rltb. destruct (Rlt_dec x y); [lra|discriminate]. }
  { intros [x|] [y|]; cbn; auto; try discriminate. unfold Rltb. destruct (Rlt_dec x y); [discriminate|lra]. }
  assert (LV : length v = length (flat a)) by apply map_length. red in W. rewrite LV in A, B. rewrite W in A.
  destruct (unravel_valid (shape a) i A) as [U1 U2]. split; [exact U1|]. rewrite U2.
  assert (NV : forall j, nth j v None = omap f (nth j (flat a) None)). { intros j. change None with (omap f None) at 1. apply map_nth. }
  split.
  { set (mx := fold_right Rmax (nth 0 g 0) g) in *. rewrite <- G in X1'.
    assert (INV : In (Some mx) v). { apply in_somes; auto. }
    apply (In_nth _ _ None) in INV. destruct INV as (j & J1 & J2). rewrite LV in J1. specialize (B j J1). rewrite J2, NV in B.
    assert (F : forall x y, f x = Some y -> x = y) by (intros x y; unfold f; destruct mz; [destruct (Req_EM_T x 0)|]; congruence).
    destruct (nth i (flat a) None) as [x|] eqn:NI; [|destruct B]. cbn [omap] in B. destruct (f x) as [y|] eqn:FX; [|destruct B]. apply F in FX as FX'. subst y. cbn in B.
    assert (IG : In x g). { unfold g. apply kept_in. split; [rewrite <- NI; apply nth_In; rewrite W; auto|]. intros E0 E1. unfold f in FX. rewrite E0 in FX. destruct (Req_EM_T x 0); [discriminate FX|contradiction]. }
    assert (x <= mx) by (apply X2; right; auto). f_equal. lra. }
  split; [apply halves_median; auto|]. split; [exact Q0|].
  destruct (MAD_is_median_deviation v q Q) as (d' & D1 & D2). rewrite G in D1, D2. assert (d' = d) by congruence. subst d'. apply halves_median. exact D2.
Qed.
Theorem stats_fail : forall a mz, success (calc_stats a mz) = false -> let t := calc_stats a mz in
  stdev t = 0 /\ mean_ t = 0 /\ med t = 0 /\ max_ t = 0 /\ min_ t = 0 /\ centmax t = [0; 0]%nat /\ madfm t = 0.
Proof.
  intros a mz H t. unfold t. clear t. revert H. unfold calc_stats. destruct (2 <=? _)%nat; [|cbn; intros _; repeat split].
  destruct (median _); [|cbn; intros _; repeat split]. destruct (MAD _); [|cbn; intros _; repeat split]. destruct (argmax _ _); [discriminate|cbn; intros _; repeat split].
Qed.
(** refuted: without success no pixel is counted *)
Theorem stats_one : forall sh v, npix (calc_stats (mk_nd sh [Some v]) false) = 1%nat /\ success (calc_stats (mk_nd sh [Some v]) false) = false.
Proof. intros. split; reflexivity. Qed.

(* ------------------------------------------------------------------ limits *)

Theorem limits_defined : forall mx mad st zMin zMax, (exists r, colour_limits mx mad st zMin zMax = POk r) <-> mad <> 0 /\ (st = None \/ zMax <> None).
Proof.
  intros mx mad st zMin zMax. unfold colour_limits. destruct (Req_EM_T mad 0) as [->|N]; [split; [intros [r E]; discriminate|intros [E _]; congruence]|].
  destruct zMax as [z|]; [split; [intros _; split; [auto|right; discriminate]|eauto]|]. destruct st as [t|].
  - cbn. split; [intros [r E]; discriminate|intros [_ [E|E]]; congruence].
  - split; [auto|]. intros _. destruct (Rle_dec (Rabs (mx / mad)) 20); [cbn; eauto|]. destruct (Rlt_dec 20 (Rabs (mx / mad))); [cbn; eauto|lra].
Qed.
(** without limits: two ranges of multiples of the noise, always linear *)
Theorem limits_auto : forall mx mad zMin, mad <> 0 -> colour_limits mx mad None zMin None =
  POk (if Rle_dec (Rabs (mx / mad)) 20 then (Some (- (15 / 10) * mad), Some (10 * mad), SLinear) else (Some (- 3 * mad), Some (40 * mad), SLinear)).
Proof.
  intros mx mad zMin N. unfold colour_limits. destruct (Req_EM_T mad 0); [contradiction|].
  destruct (Rle_dec (Rabs (mx / mad)) 20); [cbn [fst snd]|destruct (Rlt_dec 20 (Rabs (mx / mad))); [cbn [fst snd]|lra]]; f_equal; f_equal; f_equal; f_equal; ring.
Qed.
Theorem limits_given : forall mx mad st zMin z r, colour_limits mx mad st zMin (Some z) = POk r -> fst (fst r) = zMin /\ snd (fst r) = Some (Rmax z mx).
Proof.
  intros mx mad st zMin z r. unfold colour_limits. destruct (Req_EM_T mad 0); [discriminate|]. intros H. injection H as <-. cbn [fst snd]. split; [reflexivity|]. f_equal.
  destruct (Rlt_dec z mx); [rewrite Rmax_right|rewrite Rmax_left]; lra.
Qed.
(** refuted: bright images get a square root stretch *)
Theorem limits_never_sqrt : forall mx mad zMin zMax lo hi t, colour_limits mx mad None zMin zMax = POk (lo, hi, t) -> t = SLinear.
Proof.
  intros mx mad zMin zMax lo hi t. unfold colour_limits. destruct (Req_EM_T mad 0); [discriminate|].
  destruct (Rle_dec (Rabs (mx / mad)) 20); [|destruct (Rlt_dec 20 (Rabs (mx / mad))); [|lra]]; destruct zMax; cbn [fst snd]; congruence.
Qed.
(** refuted: a lower limit is used *)
Theorem limits_zmin_ignored : forall mx mad st zMin zMin', colour_limits mx mad st zMin None = colour_limits mx mad st zMin' None.
Proof. reflexivity. Qed.
(** refuted: an image with no two numbers is drawn *)
Theorem limits_blank : forall a st zMin zMax, (length (kept false (flat a)) < 2)%nat -> let t := calc_stats a false in colour_limits (max_ t) (madfm t) st zMin zMax = PErr.
Proof.
  intros a st zMin zMax H t. assert (F : success t = false).
  { unfold t, calc_stats. rewrite (kept_somes false). destruct (Nat.leb_spec 2 (length (kept false (flat a)))); [lia|reflexivity]. }
  destruct (stats_fail a false F) as (_ & _ & _ & _ & _ & _ & M). fold t in M. rewrite M. unfold colour_limits. destruct (Req_EM_T 0 0); [reflexivity|contradiction].
Qed.

Lemma py_int_floor : forall x, 0 <= x -> IZR (py_int x) <= x < IZR (py_int x) + 1.
Proof. exact py_int_pos. Qed.
(** the sampled rows or columns: as many as asked to within one, up to one above the centre *)
Theorem box_spec : forall n frac, 0 <= frac <= 1 -> let b := box n frac in
  (1 <= fst b <= snd b)%Z /\ (snd b <= Z.of_nat n + 1)%Z /\ Rabs (IZR (snd b) - IZR (fst b) - INR n * frac) < 1 /\
  0 < (IZR (fst b) + IZR (snd b)) / 2 - INR n / 2 <= 1.
Proof.
  intros n frac F b. unfold b, box. cbn [fst snd]. pose proof (pos_INR n) as P. set (N := INR n) in *.
  assert (NF : 0 <= N * frac <= N) by nra.
  pose proof (py_int_floor (N / 2 - N * frac / 2 + 1) ltac:(lra)) as A. pose proof (py_int_floor (N / 2 + N * frac / 2 + 1) ltac:(lra)) as B.
  set (u := py_int (N / 2 - N * frac / 2 + 1)) in *. set (w := py_int (N / 2 + N * frac / 2 + 1)) in *.
  assert (U : (1 <= u)%Z) by (apply le_IZR1; lra). assert (UW : (u <= w)%Z) by (apply le_IZR1; lra).
  assert (WN : (w <= Z.of_nat n + 1)%Z). { apply le_IZR. rewrite plus_IZR, <- INR_IZR_INZ. fold N. lra. }
  split; [lia|]. split; [exact WN|]. split; [apply Rabs_def1; lra|lra].
Qed.
(** refuted: the whole image is sampled with a fraction of one *)
Theorem box_whole : forall n, box n 1 = (1, Z.of_nat n + 1)%Z.
Proof.
  intros n. unfold box. rewrite Rmult_1_r. replace (INR n / 2 - INR n / 2 + 1) with 1 by ring. replace (INR n / 2 + INR n / 2 + 1) with (IZR (Z.of_nat n + 1)).
  - rewrite (py_int_IZR 1), (py_int_IZR (Z.of_nat n + 1)). reflexivity.
  - rewrite plus_IZR, <- INR_IZR_INZ. lra.
Qed.
