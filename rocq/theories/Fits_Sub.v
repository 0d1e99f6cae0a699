(** Laws of mkWCSDict and get_subfits. *)
From Coq Require Import Reals List Arith ZArith Bool Ascii String Lia Lra.
From Verif Require Import PyRes PyStr PyStr_Proofs PyList PyList_Proofs NdArray NdIndex Setup_Model Setup_Proofs Measure_Model Synth_Model Cube_Model Icube_Model Header_Model Header_Spec Header_Proofs Region_Proofs Fits_Model Fits_Spec Fits_Proofs.
Import ListNotations.
Local Open Scope nat_scope.
Local Arguments s : simpl never.

(* --------------------------------------------------------- pixel limits *)

Lemma cut_spec : forall centre radius delt n, delt <> 0%R ->
  exists c r, nearest centre c /\ covers radius (Rabs delt) r /\ cut centre radius delt n = (Z.max (c - r) 0, Z.min (c + r) (n - 1)).
Proof.
  intros centre radius delt n Hd. exists (py_round centre), (Rceil (radius / Rabs delt)).
  split; [apply py_round_close|]. split; [|reflexivity].
  assert (P : (0 < Rabs delt)%R) by (now apply Rabs_pos_lt).
  assert (RC : (IZR (Rceil (radius / Rabs delt)) - 1 < radius / Rabs delt <= IZR (Rceil (radius / Rabs delt)))%R).
  { unfold Rceil. rewrite opp_IZR. pose proof (Rfloor_spec (- (radius / Rabs delt))). lra. }
  unfold covers. rewrite minus_IZR. set (q := IZR (Rceil (radius / Rabs delt))) in *.
  replace radius with (radius / Rabs delt * Rabs delt)%R by (field; lra). nra.
Qed.

Lemma cut_range : forall n c r, (-1 <= c + r)%Z ->
  let lo := Z.max (c - r) 0 in
  let b := Z.to_nat (py_bound (Z.of_nat n) lo) in
  let k := Z.to_nat (py_bound (Z.of_nat n) (Z.min (c + r) (Z.of_nat n - 1) + 1)) - b in
  (forall p : Z, (0 <= p < Z.of_nat n /\ Z.abs (p - c) <= r)%Z <-> exists i, i < k /\ p = (lo + Z.of_nat i)%Z) /\
  (forall i, i < k -> i + b = Z.to_nat (lo + Z.of_nat i)).
Proof.
  intros n c r H lo b k.
  assert (Eb : b = Z.to_nat (Z.min (Z.of_nat n) lo)) by (unfold b; rewrite bound_max by lia; reflexivity).
  assert (Ek : k = Z.to_nat (Z.min (c + r) (Z.of_nat n - 1) + 1) - b) by (unfold k; rewrite bound_max by lia; f_equal; lia).
  clearbody b k. subst b. subst k. split.
  - intros p. split.
    + intros ((P0 & P1) & P2). exists (Z.to_nat (p - lo)). lia.
    + intros (i & Hi & ->). lia.
  - intros i Hi. lia.
Qed.

Lemma slice_ranges_app : forall s1 s2 b1 b2, List.length s1 = List.length b1 ->
  slice_ranges (s1 ++ s2) (b1 ++ b2) = (slice_ranges s1 b1 ++ slice_ranges s2 b2)%list.
Proof.
  intros s1 s2 b1 b2 H. unfold slice_ranges. rewrite <- map_app. f_equal.
  revert b1 H. induction s1 as [|x s1 IH]; intros [|y b1] H; try discriminate; cbn; [reflexivity|]. f_equal. apply IH. now injection H.
Qed.

Lemma slice_ranges_full : forall sh, slice_ranges sh (map (fun n => (0%Z, Z.of_nat n)) sh) = map (fun n => (0, n)) sh.
Proof.
  unfold slice_ranges. induction sh as [|n sh IH]; cbn [map combine fst snd]; [reflexivity|]. rewrite IH. f_equal.
  rewrite py_bound_mid by lia. rewrite py_bound_high by lia. rewrite Nat2Z.id. now rewrite Nat.sub_0_r.
Qed.

Lemma combine_app_l : forall {A B} (a1 a2 : list A) (b1 b2 : list B), List.length a1 = List.length b1 ->
  combine (a1 ++ a2) (b1 ++ b2) = (combine a1 b1 ++ combine a2 b2)%list.
Proof.
  intros A B a1. induction a1 as [|x a1 IH]; intros a2 [|y b1] b2 H; try discriminate; cbn; [reflexivity|]. f_equal. apply IH. now injection H.
Qed.

Lemma add_zero : forall (p pre : list nat), List.length p = List.length pre ->
  map (fun ib : nat * nat => fst ib + snd ib) (combine p (map fst (map (fun n : nat => (0, n)) pre))) = p.
Proof.
  induction p as [|a p IH]; intros [|b pre] H; try discriminate; cbn; [reflexivity|]. rewrite Nat.add_0_r. f_equal. apply IH. now injection H.
Qed.

Lemma slice_last2 : forall {A} (d : A) data pre ny nx by1 bx,
  shape data = (pre ++ [ny; nx])%list ->
  let sub := slice_nd d data (map (fun n => (0%Z, Z.of_nat n)) pre ++ [by1; bx])%list in
  let rng (n : nat) (b : Z * Z) := (Z.to_nat (py_bound (Z.of_nat n) (fst b)), Z.to_nat (py_bound (Z.of_nat n) (snd b)) - Z.to_nat (py_bound (Z.of_nat n) (fst b))) in
  shape sub = (pre ++ [snd (rng ny by1); snd (rng nx bx)])%list /\
  forall p j i, valid pre p -> j < snd (rng ny by1) -> i < snd (rng nx bx) ->
    at_nd d sub (p ++ [j; i])%list = at_nd d data (p ++ [j + fst (rng ny by1); i + fst (rng nx bx)])%list.
Proof.
  intros A d data pre ny nx by1 bx E sub rng.
  assert (ER : slice_ranges (shape data) (map (fun n => (0%Z, Z.of_nat n)) pre ++ [by1; bx]) = (map (fun n => (0, n)) pre ++ [rng ny by1; rng nx bx])%list).
  { rewrite E, slice_ranges_app by (now rewrite map_length). rewrite slice_ranges_full. reflexivity. }
  assert (ES : map snd (slice_ranges (shape data) (map (fun n => (0%Z, Z.of_nat n)) pre ++ [by1; bx])) = (pre ++ [snd (rng ny by1); snd (rng nx bx)])%list).
  { rewrite ER, map_app, map_map. cbn [map snd]. f_equal. apply map_id. }
  split; [unfold sub, slice_nd; cbn [shape tab_nd]; exact ES|].
  intros p j i V Hj Hi. unfold sub. rewrite slice_nd_at.
  - rewrite ER. rewrite map_app, combine_app_l by (rewrite !map_length; now apply valid_length). rewrite map_app, add_zero by (now apply valid_length). reflexivity.
  - rewrite ES. apply valid_app; [exact V|]. apply valid_cons. split; [exact Hj|]. apply valid_cons. split; [exact Hi|]. constructor.
Qed.

(* -------------------------------------------------------------- cut-outs *)

Lemma dict_naxis : forall WCS h w f d, mkWCSDict WCS h w f = POk d -> hint (s "NAXIS1") h = POk (fst (d_naxis d)) /\ hint (s "NAXIS2") h = POk (snd (d_naxis d)).
Proof.
  intros WCS h w f d E. unfold mkWCSDict in E.
  destruct (strip_header h 2 f); [|discriminate]. cbn [pybind] in E. destruct (hint (s "NAXIS") h) as [z|]; [|discriminate]. cbn [pybind] in E.
  destruct (if (3 <=? z)%Z then _ else _); [|discriminate]. cbn [pybind] in E.
  destruct (hint (s "NAXIS1") h); [|discriminate]. cbn [pybind] in E. destruct (hint (s "NAXIS2") h); [|discriminate]. cbn [pybind] in E.
  destruct (if (3 <=? z)%Z then hint _ _ else _); [|discriminate]. cbn [pybind] in E.
  destruct (pyall _) as [vs|]; [|discriminate]. cbn [pybind] in E. injection E as <-. auto.
Qed.

Lemma get_subfits_eq : forall WCS h data x y radius zlo zhi wrap r,
  get_subfits WCS (Some (h, data)) x y radius zlo zhi wrap = POk (Some r) ->
  exists w c1 c2, mkWCSDict WCS h wrap 5 = POk w /\ d_xdelt w <> 0%R /\ d_ydelt w <> 0%R /\ given zlo && given zhi = false /\
    2 <= List.length (shape data) <= 4 /\ hnum (s "CRPIX1") h = POk c1 /\ hnum (s "CRPIX2") h = POk c2 /\
    let c := w2p (WCS (d_head2 w)) (wrap180 wrap x, y) in
    let xs := cut (fst c) radius (d_xdelt w) (fst (d_naxis w)) in
    let ys := cut (snd c) radius (d_ydelt w) (snd (d_naxis w)) in
    let sub := slice_nd None data (map (fun n => (0%Z, Z.of_nat n)) (firstn (List.length (shape data) - 2) (shape data)) ++ [(fst ys, snd ys + 1)%Z; (fst xs, snd xs + 1)%Z])%list in
    r = (sub, sizes_updated sub (hset (s "CRPIX2") (HNum (c2 - IZR (fst ys))) (hset (s "CRPIX1") (HNum (c1 - IZR (fst xs))) h))).
Proof.
  intros WCS h data x y radius zlo zhi wrap r E. unfold get_subfits in E.
  destruct (mkWCSDict WCS h wrap 5) as [w|]; [|discriminate]. cbn [pybind] in E. cbv zeta in E.
  destruct (Req_EM_T (d_xdelt w) 0) as [|Hx]; [discriminate|]. destruct (Req_EM_T (d_ydelt w) 0) as [|Hy]; [discriminate|].
  destruct (given zlo && given zhi) eqn:G; [discriminate|]. destruct (hnum (s "CRPIX1") h) as [c1|]; [|discriminate]. cbn [pybind] in E.
  destruct (hnum (s "CRPIX2") h) as [c2|]; [|discriminate]. cbn [pybind] in E.
  destruct ((List.length (shape data) <? 2) || (4 <? List.length (shape data))) eqn:L; [discriminate|]. apply orb_false_iff in L. rewrite !Nat.ltb_ge in L.
  exists w, c1, c2. injection E as <-. do 7 (split; [auto; lia|]). reflexivity.
Qed.

Lemma somes_nonempty : forall (l : list (option R)) v, In (Some v) l -> exists a t, somes l = a :: t.
Proof.
  intros l v H. destruct (somes l) as [|a t] eqn:E; [|eauto]. exfalso. revert E H. induction l as [|[x|] l IH]; cbn; [tauto|discriminate|].
  intros E [H|H]; [discriminate|auto].
Qed.

Lemma in_somes : forall (l : list (option R)) v, In v (somes l) <-> In (Some v) l.
Proof.
  induction l as [|[x|] l IH]; intros v; cbn; [tauto| |].
  - rewrite IH. split; intros [H|H]; auto; left; congruence.
  - rewrite IH. split; auto. intros [H|H]; [discriminate|auto].
Qed.

Lemma fold_min_spec : forall l x, (fold_left Rmin l x <= x)%R /\ (forall y, In y l -> fold_left Rmin l x <= y)%R /\ (fold_left Rmin l x = x \/ In (fold_left Rmin l x) l).
Proof.
  induction l as [|a l IH]; intros x; cbn; [split; [lra|split; [intros y []|auto]]|].
  destruct (IH (Rmin x a)) as (A & B & D). pose proof (Rmin_l x a). pose proof (Rmin_r x a). split; [lra|]. split.
  - intros y [<-|Hy]; [lra|auto].
  - destruct D as [D|D]; [|auto]. rewrite D. unfold Rmin. destruct (Rle_dec x a); auto.
Qed.
Lemma fold_rmax_spec : forall l x, (x <= fold_left Rmax l x)%R /\ (forall y, In y l -> y <= fold_left Rmax l x)%R /\ (fold_left Rmax l x = x \/ In (fold_left Rmax l x) l).
Proof.
  induction l as [|a l IH]; intros x; cbn; [split; [lra|split; [intros y []|auto]]|].
  destruct (IH (Rmax x a)) as (A & B & D). pose proof (Rmax_l x a). pose proof (Rmax_r x a). split; [lra|]. split.
  - intros y [<-|Hy]; [lra|auto].
  - destruct D as [D|D]; [|auto]. rewrite D. unfold Rmax. destruct (Rle_dec x a); auto.
Qed.
Lemma rmin2_spec : forall l, l <> [] -> In (rmin2 l) l /\ forall y, In y l -> (rmin2 l <= y)%R.
Proof.
  intros [|a l] N; [congruence|]. cbn [rmin2]. destruct (fold_min_spec l a) as (A & B & D). split.
  - destruct D as [-> |D]; cbn; auto.
  - intros y [<-|H]; auto.
Qed.
Lemma rmax2_spec : forall l, l <> [] -> In (rmax2 l) l /\ forall y, In y l -> (y <= rmax2 l)%R.
Proof.
  intros [|a l] N; [congruence|]. cbn [rmax2]. destruct (fold_rmax_spec l a) as (A & B & D). split.
  - destruct D as [-> |D]; cbn; auto.
  - intros y [<-|H]; auto.
Qed.

(** the cut-out: the pixels within so many steps of the one that is nearest to
    the position, with their values *)
Theorem subfits_pixels : forall WCS h data x y radius zlo zhi wrap sub h' w pre ny nx,
  get_subfits WCS (Some (h, data)) x y radius zlo zhi wrap = POk (Some (sub, h')) ->
  mkWCSDict WCS h wrap 5 = POk w -> shape data = (pre ++ [ny; nx])%list ->
  hint (s "NAXIS1") h = POk (Z.of_nat nx) -> hint (s "NAXIS2") h = POk (Z.of_nat ny) ->
  let at_ := w2p (WCS (d_head2 w)) (if wrap then (if Rlt_dec 180 x then x - 360 else x)%R else x, y) in
  exists cx cy rx ry, nearest (fst at_) cx /\ nearest (snd at_) cy /\ covers radius (Rabs (d_xdelt w)) rx /\ covers radius (Rabs (d_ydelt w)) ry /\
    let x0 := Z.max (cx - rx) 0 in let y0 := Z.max (cy - ry) 0 in
    (exists c1 c2, hnum (s "CRPIX1") h = POk c1 /\ hnum (s "CRPIX2") h = POk c2 /\
       hget (s "CRPIX1") h' = Some (HNum (c1 - IZR x0)) /\ hget (s "CRPIX2") h' = Some (HNum (c2 - IZR y0))) /\
    ((-1 <= cx + rx)%Z -> (-1 <= cy + ry)%Z -> exists my mx, shape sub = (pre ++ [my; mx])%list /\
      (forall p, (0 <= p < Z.of_nat nx /\ Z.abs (p - cx) <= rx)%Z <-> exists i, i < mx /\ p = (x0 + Z.of_nat i)%Z) /\
      (forall p, (0 <= p < Z.of_nat ny /\ Z.abs (p - cy) <= ry)%Z <-> exists j, j < my /\ p = (y0 + Z.of_nat j)%Z) /\
      (forall p j i, valid pre p -> j < my -> i < mx ->
         at_nd None sub (p ++ [j; i])%list = at_nd None data (p ++ [Z.to_nat (y0 + Z.of_nat j); Z.to_nat (x0 + Z.of_nat i)])%list)).
Proof.
  intros WCS h data x y radius zlo zhi wrap sub h' w pre ny nx E HW ES H1 H2 at_.
  apply get_subfits_eq in E. destruct E as (w' & c1 & c2 & HW' & Hx & Hy & _ & HL & HC1 & HC2 & Er). rewrite HW in HW'. injection HW' as <-.
  destruct (dict_naxis _ _ _ _ _ HW) as [N1 N2]. rewrite H1 in N1. rewrite H2 in N2. injection N1 as N1. injection N2 as N2.
  cbv zeta in Er. change (wrap180 wrap x) with (if wrap then (if Rlt_dec 180 x then x - 360 else x)%R else x) in Er. fold at_ in Er. rewrite <- N1, <- N2 in Er.
  destruct (cut_spec (fst at_) radius (d_xdelt w) (Z.of_nat nx) Hx) as (cx & rx & Ncx & Crx & Ex).
  destruct (cut_spec (snd at_) radius (d_ydelt w) (Z.of_nat ny) Hy) as (cy & ry & Ncy & Cry & Ey).
  rewrite Ex, Ey in Er. cbn [fst snd] in Er.
  assert (Ep : firstn (List.length (shape data) - 2) (shape data) = pre).
  { rewrite ES, app_length. cbn [List.length]. replace (List.length pre + 2 - 2) with (List.length pre) by lia. rewrite firstn_app, Nat.sub_diag, firstn_all. cbn. apply app_nil_r. }
  rewrite Ep in Er. injection Er as Esub Eh.
  exists cx, cy, rx, ry. do 4 (split; [assumption|]). intros x0 y0. split.
  - exists c1, c2. do 2 (split; [assumption|]). rewrite Eh, <- Esub. fold x0 y0. unfold sizes_updated.
    destruct (somes (flat sub)) as [|v l].
    + split; [rewrite hget_hset_other by discriminate|]; apply hget_hset.
    + assert (G : forall k v' (hh : fheader), k = s "CRPIX1" \/ k = s "CRPIX2" -> hget k hh = v' ->
        hget k (let n i := HInt (Z.of_nat (nth (List.length (shape sub) - i) (shape sub) 0)) in
          let h0 := hset (s "DATAMAX") (HNum (rmax2 (v :: l))) (hset (s "DATAMIN") (HNum (rmin2 (v :: l))) hh) in
          let h1 := hset (s "NAXIS2") (n 2) (hset (s "NAXIS1") (n 1) h0) in
          if 2 <? List.length (shape sub) then hset (s "NAXIS3") (n 3) h1 else h1) = v').
      { intros k v' hh Hk Hv. cbv zeta. destruct (2 <? List.length (shape sub)); destruct Hk as [-> | ->]; rewrite !hget_hset_other by discriminate; exact Hv. }
      split; [apply G; [now left|]; rewrite hget_hset_other by discriminate; apply hget_hset|apply G; [now right|]; apply hget_hset].
  - intros Gx Gy.
    destruct (slice_last2 None data pre ny nx (y0, (Z.min (cy + ry) (Z.of_nat ny - 1) + 1)%Z) (x0, (Z.min (cx + rx) (Z.of_nat nx - 1) + 1)%Z) ES) as [Sh At].
    cbn [fst snd] in Sh, At. unfold y0, x0 in Sh, At. rewrite <- Esub in Sh, At. fold x0 y0 in Sh, At.
    destruct (cut_range nx cx rx Gx) as [Rx Ox]. destruct (cut_range ny cy ry Gy) as [Ry Oy]. fold x0 in Rx, Ox. fold y0 in Ry, Oy.
    eexists _, _. split; [exact Sh|]. split; [exact Rx|]. split; [exact Ry|].
    intros p j i V Hj Hi. rewrite (At p j i V Hj Hi). rewrite (Oy j Hj), (Ox i Hi). reflexivity.
Qed.

(** what else the header of the cut-out says *)
Theorem subfits_header : forall WCS h data x y radius zlo zhi wrap sub h',
  get_subfits WCS (Some (h, data)) x y radius zlo zhi wrap = POk (Some (sub, h')) ->
  (forall keep : str -> bool, (forall k, keep k = true -> ~ In k (map s ["CRPIX1"; "CRPIX2"; "DATAMIN"; "DATAMAX"; "NAXIS1"; "NAXIS2"; "NAXIS3"]%string)) ->
     filter (fun c => keep (fst c)) h' = filter (fun c => keep (fst c)) h) /\
  forall pre my mx v, shape sub = (pre ++ [my; mx])%list -> In (Some v) (flat sub) ->
    hget (s "NAXIS1") h' = Some (HInt (Z.of_nat mx)) /\ hget (s "NAXIS2") h' = Some (HInt (Z.of_nat my)) /\
    (forall q n, pre = (q ++ [n])%list -> hget (s "NAXIS3") h' = Some (HInt (Z.of_nat n))) /\
    exists lo hi, hget (s "DATAMIN") h' = Some (HNum lo) /\ hget (s "DATAMAX") h' = Some (HNum hi) /\
      In (Some lo) (flat sub) /\ In (Some hi) (flat sub) /\ forall u, In (Some u) (flat sub) -> (lo <= u <= hi)%R.
Proof.
  intros WCS h data x y radius zlo zhi wrap sub h' E.
  apply get_subfits_eq in E. destruct E as (w & c1 & c2 & _ & _ & _ & _ & _ & _ & _ & Er). cbv zeta in Er.
  set (ys := cut (snd _) _ _ _) in Er. set (xs := cut (fst _) _ _ _) in Er. injection Er as Esub Eh. rewrite <- Esub in Eh. clear Esub. split.
  - intros keep K. rewrite Eh.
    assert (KF : forall k, In k (map s ["CRPIX1"; "CRPIX2"; "DATAMIN"; "DATAMAX"; "NAXIS1"; "NAXIS2"; "NAXIS3"]%string) -> keep k = false).
    { intros k Hk. destruct (keep k) eqn:Ek; [|reflexivity]. exfalso. now apply (K k). }
    unfold sizes_updated. destruct (somes (flat sub)); cbv zeta.
    + rewrite !filter_hset by (apply KF; cbn; tauto). reflexivity.
    + destruct (2 <? List.length (shape sub)); rewrite !filter_hset by (apply KF; cbn; tauto); reflexivity.
  - intros pre my mx v Sh Hv. destruct (somes_nonempty _ _ Hv) as (a & t & Es). unfold sizes_updated in Eh. rewrite Es in Eh. cbv zeta in Eh.
    assert (Ln : List.length (shape sub) = List.length pre + 2) by (rewrite Sh, app_length; reflexivity).
    assert (N1 : nth (List.length (shape sub) - 1) (shape sub) 0 = mx).
    { rewrite Ln, Sh. rewrite app_nth2 by lia. replace (List.length pre + 2 - 1 - List.length pre) with 1 by lia. reflexivity. }
    assert (N2 : nth (List.length (shape sub) - 2) (shape sub) 0 = my).
    { rewrite Ln, Sh. rewrite app_nth2 by lia. replace (List.length pre + 2 - 2 - List.length pre) with 0 by lia. reflexivity. }
    rewrite N1, N2 in Eh.
    assert (A1 : hget (s "NAXIS1") h' = Some (HInt (Z.of_nat mx))).
    { rewrite Eh. destruct (2 <? _); rewrite ?hget_hset_other by discriminate; apply hget_hset. }
    assert (A2 : hget (s "NAXIS2") h' = Some (HInt (Z.of_nat my))).
    { rewrite Eh. destruct (2 <? _); rewrite ?hget_hset_other by discriminate; apply hget_hset. }
    assert (A3 : hget (s "DATAMIN") h' = Some (HNum (rmin2 (a :: t)))).
    { rewrite Eh. destruct (2 <? _); rewrite ?hget_hset_other by discriminate; apply hget_hset. }
    assert (A4 : hget (s "DATAMAX") h' = Some (HNum (rmax2 (a :: t)))).
    { rewrite Eh. destruct (2 <? _); rewrite ?hget_hset_other by discriminate; apply hget_hset. }
    split; [exact A1|]. split; [exact A2|]. split.
    + intros q n ->. rewrite app_length in Ln. cbn [List.length] in Ln. rewrite Eh.
      destruct (Nat.ltb_spec 2 (List.length (shape sub))); [|lia]. rewrite hget_hset. do 3 f_equal.
      rewrite Ln, Sh, <- app_assoc. rewrite app_nth2 by lia. replace (List.length q + 1 + 2 - 3 - List.length q) with 0 by lia. reflexivity.
    + exists (rmin2 (a :: t)), (rmax2 (a :: t)). split; [exact A3|]. split; [exact A4|].
      destruct (rmin2_spec (a :: t)) as [I1 B1]; [discriminate|]. destruct (rmax2_spec (a :: t)) as [I2 B2]; [discriminate|].
      rewrite <- Es in *. split; [now apply in_somes|]. split; [now apply in_somes|].
      intros u Hu. apply in_somes in Hu. split; auto.
Qed.

(** what a request needs *)
Theorem subfits_defined : forall WCS h data x y radius zlo zhi wrap w c1 c2,
  mkWCSDict WCS h wrap 5 = POk w -> d_xdelt w <> 0%R -> d_ydelt w <> 0%R -> (zlo = None \/ zhi = None) ->
  hnum (s "CRPIX1") h = POk c1 -> hnum (s "CRPIX2") h = POk c2 ->
  (2 <= List.length (shape data) <= 4 <-> exists sub h', get_subfits WCS (Some (h, data)) x y radius zlo zhi wrap = POk (Some (sub, h'))).
Proof.
  intros WCS h data x y radius zlo zhi wrap w c1 c2 HW Hx Hy Hz H1 H2. split.
  - intros L. unfold get_subfits. rewrite HW. cbn [pybind]. destruct (Req_EM_T (d_xdelt w) 0); [contradiction|]. destruct (Req_EM_T (d_ydelt w) 0); [contradiction|].
    assert (given zlo && given zhi = false) as -> by (destruct Hz as [-> | ->]; [reflexivity|apply andb_false_r]).
    rewrite H1, H2. cbn [pybind]. destruct (Nat.ltb_spec (List.length (shape data)) 2); [lia|]. destruct (Nat.ltb_spec 4 (List.length (shape data))); [lia|].
    cbn [orb]. eauto.
  - intros (sub & h' & E). apply get_subfits_eq in E. destruct E as (? & ? & ? & _ & _ & _ & _ & L & _). exact L.
Qed.

(** a range of channels cannot be asked for *)
Theorem subfits_channels : forall WCS h data x y radius a b wrap, a <> 0%R -> b <> 0%R ->
  get_subfits WCS (Some (h, data)) x y radius (Some a) (Some b) wrap = PErr.
Proof.
  intros WCS h data x y radius a b wrap Ha Hb. unfold get_subfits. destruct (mkWCSDict WCS h wrap 5) as [w|]; [|reflexivity]. cbn [pybind]. cbv zeta.
  destruct (Req_EM_T (d_xdelt w) 0); [reflexivity|]. destruct (Req_EM_T (d_ydelt w) 0); [reflexivity|].
  assert (given (Some a) && given (Some b) = true) as ->; [|reflexivity]. unfold given. destruct (Req_EM_T a 0); [contradiction|]. destruct (Req_EM_T b 0); [contradiction|]. reflexivity.
Qed.

(* -------------------------------------------------------- the dictionary *)

Local Open Scope R_scope.

Lemma dict_eq : forall WCS h wrap f d n, mkWCSDict WCS h wrap f = POk d -> hint (s "NAXIS") h = POk n ->
  let W2 := WCS (d_head2 d) in
  strip_header h 2 f = POk (d_head2 d) /\
  d_x d = (wrap180 wrap (rmin2 (map fst (foot W2))), wrap180 wrap (rmax2 (map fst (foot W2)))) /\
  d_y d = (rmin2 (map snd (foot W2)), rmax2 (map snd (foot W2))) /\
  d_pixscale d = Rabs ((d_xdelt d + d_xdelt d) / 2) /\
  d_type d = (if str_eqb (lngtyp W2) (s "RA") then s "EQU" else if str_eqb (lngtyp W2) (s "GLON") then s "GAL" else []) /\
  if (3 <=? n)%Z
  then exists h3 nx ny nz, d_head3 d = Some h3 /\ strip_header h 3 f = POk h3 /\ hint (s "NAXIS1") h = POk nx /\ hint (s "NAXIS2") h = POk ny /\ hint (s "NAXIS3") h = POk nz /\
    let W3 := WCS h3 in
    let xc := IZR nx / 2 + 1 / 2 in let yc := IZR ny / 2 + 1 / 2 in
    let c := p2w3 W3 (xc, yc, IZR nz / 2 + 1 / 2) in
    d_cent d = (wrap180 wrap (fst (fst c)), snd (fst c)) /\ d_zcent d = Some (snd c) /\
    d_z d = Some (Rmin (snd (p2w3 W3 (xc, yc, 1))) (snd (p2w3 W3 (xc, yc, IZR nz))), Rmax (snd (p2w3 W3 (xc, yc, 1))) (snd (p2w3 W3 (xc, yc, IZR nz)))) /\
    let '(a, b, e) := crpix3 W3 in
    let u := p2w3 W3 (a, b, e) in let v := p2w3 W3 (a + 1, b + 1, e + 1) in
    d_xdelt d = (fst (fst v) - fst (fst u)) * cos ((snd (fst u) + snd (fst v)) / 2 * PI / 180) /\
    d_ydelt d = snd (fst v) - snd (fst u) /\ d_zdelt d = Some (snd v - snd u)
  else exists nx ny, d_head3 d = None /\ hint (s "NAXIS1") h = POk nx /\ hint (s "NAXIS2") h = POk ny /\
    let c := p2w2 W2 (IZR nx / 2 + 1 / 2, IZR ny / 2 + 1 / 2) in
    d_cent d = (wrap180 wrap (fst c), snd c) /\ d_zcent d = None /\ d_z d = None /\ d_zdelt d = None /\
    let '(a, b) := crpix2 W2 in
    let u := p2w2 W2 (a, b) in let v := p2w2 W2 (a - 1, b - 1) in
    d_xdelt d = (fst v - fst u) * cos ((snd u + snd v) / 2 * PI / 180) /\ d_ydelt d = snd v - snd u.
Proof.
  intros WCS h w f d n E HN W2. unfold mkWCSDict in E. rewrite HN in E.
  destruct (strip_header h 2 f) as [h2|]; [|discriminate]. cbn [pybind] in E. destruct (3 <=? n)%Z.
  - destruct (strip_header h 3 f) as [h3|]; [|discriminate]. cbn [pybind] in E.
    destruct (hint (s "NAXIS1") h) as [nx|]; [|discriminate]. cbn [pybind] in E. destruct (hint (s "NAXIS2") h) as [ny|]; [|discriminate]. cbn [pybind] in E.
    destruct (hint (s "NAXIS3") h) as [nz|]; [|discriminate]. cbn [pybind] in E.
    destruct (pyall _) as [vs|]; [|discriminate]. cbn [pybind] in E. cbv zeta in E. destruct (crpix3 (WCS h3)) as [[a b] e] eqn:EC. injection E as <-.
    subst W2. cbn [d_head2 d_head3 d_x d_y d_z d_type d_xdelt d_ydelt d_zdelt d_pixscale d_cent d_zcent fst snd].
    do 5 (split; [reflexivity|]). exists h3, nx, ny, nz. do 5 (split; [reflexivity|]). cbv zeta. do 3 (split; [reflexivity|]).
    rewrite EC. do 2 (split; [reflexivity|]). reflexivity.
  - cbn [pybind] in E. destruct (hint (s "NAXIS1") h) as [nx|]; [|discriminate]. cbn [pybind] in E. destruct (hint (s "NAXIS2") h) as [ny|]; [|discriminate]. cbn [pybind] in E.
    destruct (pyall _) as [vs|]; [|discriminate]. cbn [pybind] in E. cbv zeta in E. destruct (crpix2 (WCS h2)) as [a b] eqn:EC. injection E as <-.
    subst W2. cbn [d_head2 d_head3 d_x d_y d_z d_type d_xdelt d_ydelt d_zdelt d_pixscale d_cent d_zcent fst snd].
    do 5 (split; [reflexivity|]). exists nx, ny. do 3 (split; [reflexivity|]). cbv zeta. do 4 (split; [reflexivity|]).
    rewrite EC. split; reflexivity.
Qed.

(** the limits hold the corners of the image and the ends of the third axis *)
Theorem dict_bounds : forall WCS h wrap f d n, mkWCSDict WCS h wrap f = POk d -> hint (s "NAXIS") h = POk n ->
  let W2 := WCS (d_head2 d) in
  (forall p, In p (foot W2) -> fst (d_y d) <= snd p <= snd (d_y d) /\ (wrap = false -> fst (d_x d) <= fst p <= snd (d_x d))) /\
  (foot W2 <> [] -> (exists p, In p (foot W2) /\ snd p = fst (d_y d)) /\ (exists p, In p (foot W2) /\ snd p = snd (d_y d)) /\
     (wrap = false -> (exists p, In p (foot W2) /\ fst p = fst (d_x d)) /\ exists p, In p (foot W2) /\ fst p = snd (d_x d))) /\
  d_pixscale d = Rabs (d_xdelt d) /\
  ((n < 3)%Z -> d_z d = None) /\
  ((3 <= n)%Z -> exists h3 nx ny nz lo hi, strip_header h 3 f = POk h3 /\ hint (s "NAXIS1") h = POk nx /\ hint (s "NAXIS2") h = POk ny /\ hint (s "NAXIS3") h = POk nz /\
     d_z d = Some (lo, hi) /\
     let z k := snd (p2w3 (WCS h3) (IZR (nx + 1) / 2, IZR (ny + 1) / 2, k)) in
     (lo = z 1 /\ hi = z (IZR nz) \/ lo = z (IZR nz) /\ hi = z 1) /\ lo <= hi).
Proof.
  intros WCS h wrap f d n E HN W2. pose proof (dict_eq _ _ _ _ _ _ E HN) as (E2 & Ex & Ey & Ep & _ & EZ). fold W2 in Ex, Ey.
  assert (IN : forall (g : R * R -> R) (p : R * R), In p (foot W2) -> rmin2 (map g (foot W2)) <= g p <= rmax2 (map g (foot W2))).
  { intros g p Hp. assert (N : map g (foot W2) <> []) by (destruct (foot W2); [destruct Hp|discriminate]).
    destruct (rmin2_spec _ N) as [_ A]. destruct (rmax2_spec _ N) as [_ B]. split; [apply A|apply B]; now apply in_map. }
  assert (AT : forall (g : R * R -> R), foot W2 <> [] -> (exists p, In p (foot W2) /\ g p = rmin2 (map g (foot W2))) /\ exists p, In p (foot W2) /\ g p = rmax2 (map g (foot W2))).
  { intros g N0. assert (N : map g (foot W2) <> []) by (destruct (foot W2); [congruence|discriminate]).
    destruct (rmin2_spec _ N) as [A _]. destruct (rmax2_spec _ N) as [B _]. apply in_map_iff in A. apply in_map_iff in B.
    destruct A as (p & A1 & A2). destruct B as (q & B1 & B2). split; [exists p|exists q]; auto. }
  rewrite Ex, Ey. cbn [fst snd]. split.
  { intros p Hp. split; [now apply (IN snd)|]. intros ->. cbn [wrap180]. now apply (IN fst). }
  split.
  { intros N. destruct (AT snd N) as [A B]. split; [exact A|]. split; [exact B|]. intros ->. cbn [wrap180]. exact (AT fst N). }
  split. { rewrite Ep. f_equal. field. }
  destruct (Z.leb_spec 3 n) as [L|L].
  - split; [intros; lia|]. intros _. destruct EZ as (h3 & nx & ny & nz & _ & E3 & H1 & H2 & H3 & _ & _ & EZ & _).
    replace (IZR nx / 2 + 1 / 2) with (IZR (nx + 1) / 2) in EZ by (rewrite plus_IZR; field).
    replace (IZR ny / 2 + 1 / 2) with (IZR (ny + 1) / 2) in EZ by (rewrite plus_IZR; field).
    exists h3, nx, ny, nz. eexists _, _. do 4 (split; [assumption|]). split; [exact EZ|]. cbv zeta.
    set (a := snd (p2w3 (WCS h3) (IZR (nx + 1) / 2, IZR (ny + 1) / 2, 1))). set (b := snd (p2w3 (WCS h3) (IZR (nx + 1) / 2, IZR (ny + 1) / 2, IZR nz))).
    unfold Rmin, Rmax. destruct (Rle_dec a b); split; auto; lra.
  - split; [|intros; lia]. intros _. now destruct EZ as (_ & _ & _ & _ & _ & _ & _ & EZ & _).
Qed.

(** a longitude between -180 and 180 where that is asked for *)
Lemma wrap180_eq : forall w x, wrap180 w x = if w then (if Rlt_dec 180 x then x - 360 else x) else x.
Proof. reflexivity. Qed.

(** the centre of the image, and the name of its coordinates *)
Theorem dict_centre : forall WCS h wrap f d n, mkWCSDict WCS h wrap f = POk d -> hint (s "NAXIS") h = POk n ->
  (lngtyp (WCS (d_head2 d)) = s "RA" -> d_type d = s "EQU") /\
  (lngtyp (WCS (d_head2 d)) = s "GLON" -> d_type d = s "GAL") /\
  (lngtyp (WCS (d_head2 d)) <> s "RA" -> lngtyp (WCS (d_head2 d)) <> s "GLON" -> d_type d = []) /\
  exists nx ny, hint (s "NAXIS1") h = POk nx /\ hint (s "NAXIS2") h = POk ny /\
    ((n < 3)%Z -> exists x y, p2w2 (WCS (d_head2 d)) (IZR (nx + 1) / 2, IZR (ny + 1) / 2) = (x, y) /\
       d_cent d = (if wrap then (if Rlt_dec 180 x then x - 360 else x) else x, y) /\ d_zcent d = None) /\
    ((3 <= n)%Z -> exists h3 nz x y z, strip_header h 3 f = POk h3 /\ hint (s "NAXIS3") h = POk nz /\
       p2w3 (WCS h3) (IZR (nx + 1) / 2, IZR (ny + 1) / 2, IZR (nz + 1) / 2) = (x, y, z) /\
       d_cent d = (if wrap then (if Rlt_dec 180 x then x - 360 else x) else x, y) /\ d_zcent d = Some z).
Proof.
  intros WCS h wrap f d n E HN. pose proof (dict_eq _ _ _ _ _ _ E HN) as (E2 & _ & _ & _ & ET & EZ). cbv zeta in ET, EZ.
  split. { intros L. now rewrite L in ET. } split. { intros L. now rewrite L in ET. }
  split. { intros L1 L2. apply str_eqb_neq in L1. apply str_eqb_neq in L2. now rewrite L1, L2 in ET. }
  destruct (Z.leb_spec 3 n) as [L|L].
  - destruct EZ as (h3 & nx & ny & nz & _ & E3 & H1 & H2 & H3 & EC & EZC & _). exists nx, ny. do 2 (split; [assumption|]).
    split; [intros; lia|]. intros _.
    replace (IZR nx / 2 + 1 / 2) with (IZR (nx + 1) / 2) in * by (rewrite plus_IZR; field).
    replace (IZR ny / 2 + 1 / 2) with (IZR (ny + 1) / 2) in * by (rewrite plus_IZR; field).
    replace (IZR nz / 2 + 1 / 2) with (IZR (nz + 1) / 2) in * by (rewrite plus_IZR; field).
    destruct (p2w3 (WCS h3) (IZR (nx + 1) / 2, IZR (ny + 1) / 2, IZR (nz + 1) / 2)) as [[x y] z] eqn:EP.
    exists h3, nz, x, y, z. do 3 (split; [assumption|]). cbn [fst snd] in EC, EZC. rewrite wrap180_eq in EC. auto.
  - destruct EZ as (nx & ny & _ & H1 & H2 & EC & EZC & _). exists nx, ny. do 2 (split; [assumption|]). split; [|intros; lia]. intros _.
    replace (IZR nx / 2 + 1 / 2) with (IZR (nx + 1) / 2) in * by (rewrite plus_IZR; field).
    replace (IZR ny / 2 + 1 / 2) with (IZR (ny + 1) / 2) in * by (rewrite plus_IZR; field).
    destruct (p2w2 (WCS (d_head2 d)) (IZR (nx + 1) / 2, IZR (ny + 1) / 2)) as [x y] eqn:EP.
    exists x, y. cbn [fst snd] in EC. rewrite wrap180_eq in EC. auto.
Qed.

(** the step per pixel where the conversion is linear: opposite signs without
    and with a third axis *)
Theorem dict_steps : forall WCS h wrap f d n, mkWCSDict WCS h wrap f = POk d -> hint (s "NAXIS") h = POk n ->
  ((n < 3)%Z -> forall a b x0 y0 dx dy, crpix2 (WCS (d_head2 d)) = (a, b) ->
     (forall x y, p2w2 (WCS (d_head2 d)) (x, y) = (x0 + (x - a) * dx, y0 + (y - b) * dy)) ->
     d_xdelt d = - dx * cos ((y0 - dy / 2) * PI / 180) /\ d_ydelt d = - dy) /\
  ((3 <= n)%Z -> forall h3 a b c x0 y0 z0 dx dy dz, strip_header h 3 f = POk h3 -> crpix3 (WCS h3) = (a, b, c) ->
     (forall x y z, p2w3 (WCS h3) (x, y, z) = (x0 + (x - a) * dx, y0 + (y - b) * dy, z0 + (z - c) * dz)) ->
     d_xdelt d = dx * cos ((y0 + dy / 2) * PI / 180) /\ d_ydelt d = dy /\ d_zdelt d = Some dz).
Proof.
  intros WCS h wrap f d n E HN. pose proof (dict_eq _ _ _ _ _ _ E HN) as (E2 & _ & _ & _ & _ & EZ). split; intros L.
  - destruct (Z.leb_spec 3 n); [lia|]. intros a b x0 y0 dx dy HC HL. destruct EZ as (nx & ny & _ & _ & _ & _ & _ & _ & _ & EZ).
    cbv zeta in EZ. rewrite HC in EZ. rewrite !HL in EZ. cbn [fst snd] in EZ. destruct EZ as [-> ->]. split; [|ring].
    replace ((y0 + (b - b) * dy + (y0 + (b - 1 - b) * dy)) / 2) with (y0 - dy / 2) by field. ring.
  - destruct (Z.leb_spec 3 n); [|lia]. intros h3 a b c x0 y0 z0 dx dy dz E3 HC HL. destruct EZ as (h3' & nx & ny & nz & _ & E3' & _ & _ & _ & _ & _ & _ & EZ).
    rewrite E3 in E3'. injection E3' as <-. cbv zeta in EZ. rewrite HC in EZ. rewrite !HL in EZ. cbn [fst snd] in EZ. destruct EZ as (-> & -> & ->).
    split; [|split; [ring|f_equal; ring]].
    replace ((y0 + (b - b) * dy + (y0 + (b + 1 - b) * dy)) / 2) with (y0 + dy / 2) by field. ring.
Qed.
