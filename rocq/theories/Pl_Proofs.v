(** Proofs about the numbers behind the figures: selections, lines, outlines. *)
From Coq Require Import Reals Lra Lia List Arith ZArith Bool Sorted.
From Coquelicot Require Import Rcomplements.
From Verif Require Import PyRes PyList PyList_Proofs Peak_Proofs Synth_Model Measure_Model Pl_Model Pl_Spec.
Import ListNotations.
Local Open Scope R_scope.

(* ------------------------------------------------------------ selections *)

Lemma Rleb_iff : forall a b, Rleb a b = true <-> a <= b.
Proof. intros a b. unfold Rleb. destruct (Rle_dec a b); split; auto; discriminate. Qed.
Lemma Rleb_not : forall a b, Rleb a b = false <-> b < a.
Proof. intros a b. unfold Rleb. destruct (Rle_dec a b); split; auto; try discriminate; lra. Qed.

Theorem filter_spec : forall a lo hi fn, length (filter_range_indx a lo hi fn) = length a /\
  forall i, (i < length a)%nat -> (nth i (filter_range_indx a lo hi fn) false = true <->
    (exists v, nth i a None = Some v /\ outside lo hi v) \/ (nth i a None = None /\ fn = true /\ (lo <> None \/ hi <> None))).
Proof.
  intros a lo hi fn. unfold filter_range_indx. split; [apply map_length|]. intros i Hi.
  match goal with |- nth i (map ?f a) false = true <-> _ => set (g := f) end.
  rewrite (nth_indep (map g a) false (g None)) by (rewrite map_length; auto). rewrite (map_nth g). unfold g; clear g. cbv beta.
  set (x := nth i a None). clearbody x. unfold outside. destruct x as [v|].
  - cbn [is_some is_none negb]. replace (if fn then false else false) with false by (destruct fn; reflexivity). rewrite orb_true_iff, !negb_true_iff.
    split.
    + intros [H|H]; left; exists v; (split; [auto|]).
      * destruct lo as [l|]; [|discriminate]. rewrite orb_false_r in H. apply Rleb_not in H. left; eauto.
      * destruct hi as [h|]; [|discriminate]. rewrite orb_false_r in H. apply Rleb_not in H. right; eauto.
    + intros [(v' & [= <-] & [(l & -> & H)|(h & -> & H)])|(H & _)]; [left|right|discriminate]; rewrite orb_false_r; apply Rleb_not; auto.
  - cbn [is_some is_none negb]. destruct fn; cbn [orb].
    + split.
      * intros H. right. split; auto. split; auto. destruct lo; [left; discriminate|]. destruct hi; [right; discriminate|discriminate].
      * intros [(v & H & _)|(_ & _ & [H|H])]; [discriminate|..].
        -- destruct lo; [reflexivity|congruence].
        -- destruct hi; [|congruence]. rewrite orb_true_r. reflexivity.
    + replace (match lo with Some _ => true | None => true end) with true by (destruct lo; reflexivity).
      replace (match hi with Some _ => true | None => true end) with true by (destruct hi; reflexivity).
      split; [discriminate|]. intros [(v & H & _)|(_ & H & _)]; discriminate.
Qed.
Theorem filter_nan_unlimited : forall a i, (i < length a)%nat -> nth i a None = None -> nth i (filter_range_indx a None None true) false = false.
Proof.
  intros a i Hi H. destruct (nth i (filter_range_indx a None None true) false) eqn:E; auto. apply (proj2 (filter_spec a None None true) i Hi) in E.
  destruct E as [(v & E & _)|(_ & _ & [E|E])]; congruence.
Qed.

(* ----------------------------------------------------------------- lines *)
Local Open Scope nat_scope.

Lemma jumps_spec : forall dat lo hi th i, In i (jumps dat lo hi th) <-> S i < length dat /\ leaps dat ((hi - lo) * th)%R i.
Proof.
  intros dat lo hi th i. unfold jumps. rewrite filter_In, in_seq. unfold leaps.
  split.
  - intros [H1 H2]. split; [lia|]. destruct (nth i dat None) as [x|]; [|discriminate]. destruct (nth (S i) dat None) as [y|]; [|discriminate].
    exists x, y. repeat split. unfold Rltb in H2. destruct Rlt_dec; [auto|discriminate].
  - intros [H1 (x & y & -> & -> & H2)]. split; [lia|]. unfold Rltb. destruct Rlt_dec; [auto|contradiction].
Qed.
Lemma jumps_sorted : forall dat lo hi th, StronglySorted lt (jumps dat lo hi th).
Proof.
  intros. unfold jumps. generalize (length dat - 1) as n. generalize 0 as k.
  assert (S : forall n k, StronglySorted lt (seq k n)).
  { induction n as [|n IH]; intros k; cbn [seq]; constructor; auto. apply Forall_forall. intros x Hx. apply in_seq in Hx. lia. }
  intros k n. specialize (S n k). induction S as [|a l S IH F]; cbn [filter]; [constructor|]. destruct (match nth a dat None with Some _ => _ | None => _ end); auto.
  constructor; auto. apply Forall_forall. intros x Hx. apply filter_In in Hx. rewrite Forall_forall in F. apply F, Hx.
Qed.

Lemma skipn_twice : forall (A : Type) (l : list A) a b, skipn a (skipn b l) = skipn (b + a) l.
Proof. intros A. induction l as [|x l IH]; intros a b; [rewrite !skipn_nil; reflexivity|]. destruct b; [reflexivity|]. cbn [skipn Nat.add]. apply IH. Qed.
Lemma cuts_spec : forall j k n, StronglySorted lt j -> (forall i, In i j -> k <= i /\ S i < n) -> k <= n ->
  (forall a b, In (a, b) (cuts k n j) -> k <= a <= b /\ b <= n /\ (a = k \/ exists i, In i j /\ a = S i) /\ (b = n \/ exists i, In i j /\ b = S i) /\ forall i, In i j -> a <= i -> S i < b -> False) /\
  (forall i, In i j -> (exists a, In (a, S i) (cuts k n j)) /\ exists c, In (S i, c) (cuts k n j)) /\
  (exists b, In (k, b) (cuts k n j)) /\
  forall (dat : list (option R)), length dat = n -> concat (map (piece dat) (cuts k n j)) = skipn k dat.
Proof.
  induction j as [|i j IH]; intros k n SS H Hk.
  - cbn [cuts]. split; [|split; [|split]].
    + intros a b [[= <- <-]|[]]. split; [lia|]. split; [lia|]. split; [auto|]. split; [auto|]. intros i [].
    + intros i [].
    + exists n. left; auto.
    + intros dat L. cbn [map concat piece fst snd]. rewrite app_nil_r. unfold piece. cbn [fst snd]. apply firstn_all2. rewrite skipn_length. lia.
  - cbn [cuts]. inversion SS as [|? ? S' F]; subst. rewrite Forall_forall in F. destruct (H i (or_introl eq_refl)) as [H1 H2].
    destruct (IH (i + 1) n S') as (A & B & C & D).
    { intros x Hx. split; [specialize (F x Hx); lia|apply H; right; auto]. }
    { lia. }
    split; [|split; [|split]].
    + intros a b [[= <- <-]|Hab].
      * split; [lia|]. split; [lia|]. split; [left; auto|]. split; [right; exists i; split; [left; auto|lia]|].
        intros x [<-|Hx] Hx1 Hx2; [lia|]. specialize (F x Hx). lia.
      * destruct (A a b Hab) as (A1 & A2 & A3 & A4 & A5). split; [lia|]. split; [lia|]. split; [|split].
        -- destruct A3 as [->|(x & Hx & ->)]; right; [exists i; split; [left; auto|lia]|exists x; split; [right; auto|auto]].
        -- destruct A4 as [->|(x & Hx & ->)]; [left; auto|right; exists x; split; [right; auto|auto]].
        -- intros x [<-|Hx] Hx1 Hx2; [lia|]. apply (A5 x Hx Hx1 Hx2).
    + intros x [<-|Hx].
      * split; [exists k; left; f_equal; lia|]. destruct C as [c C]. exists c. right. replace (S i) with (i + 1) by lia. exact C.
      * destruct (B x Hx) as [[a Ha] [c Hc]]. split; [exists a|exists c]; right; auto.
    + eexists. left; reflexivity.
    + intros dat L. cbn [map concat]. rewrite (D dat L). unfold piece. cbn [fst snd].
      rewrite <- (firstn_skipn (i + 1 - k) (skipn k dat)) at 2. f_equal. rewrite skipn_twice. f_equal. lia.
Qed.

(** The slices are the data in order, cut exactly where it leaps. *)
Theorem unwrap_spec : forall dat lo hi th, let l := unwrap_lines dat lo hi th in let d := ((hi - lo) * th)%R in
  concat (map (piece dat) l) = dat /\
  (forall i, (S i < length dat)%nat -> (leaps dat d i <-> (exists a, In (a, S i) l) /\ exists c, In (S i, c) l)) /\
  (forall a b, In (a, b) l -> (a <= b <= length dat)%nat /\ (dat <> [] -> (a < b)%nat) /\ forall i, (a <= i)%nat -> (S i < b)%nat -> ~ leaps dat d i).
Proof.
  intros dat lo hi th l d. assert (J := jumps_spec dat lo hi th). pose proof (jumps_sorted dat lo hi th) as SS.
  destruct (cuts_spec (jumps dat lo hi th) 0 (length dat) SS) as (A & B & C & D).
  { intros i Hi. apply J in Hi. lia. } { lia. }
  fold (unwrap_lines dat lo hi th) in *. fold l in A, B, C, D. split; [apply (D dat eq_refl)|]. split.
  - intros i Hi. split.
    + intros L. apply B. apply J. auto.
    + intros [[a Ha] [c Hc]]. destruct (A _ _ Ha) as (A1 & A2 & A3 & [A4|(x & Hx & A4)] & A5); [lia|]. injection A4 as ->. apply J in Hx. apply Hx.
  - intros a b Hab. destruct (A _ _ Hab) as (A1 & A2 & A3 & A4 & A5). split; [lia|]. split.
    + intros Hd. assert (0 < length dat) by (destruct dat; [congruence|cbn; lia]).
      destruct A3 as [->|(x & Hx & ->)].
      * destruct A4 as [->|(y & Hy & ->)]; lia.
      * apply J in Hx as Hx'. destruct Hx' as [Hx' _]. destruct A4 as [->|(y & Hy & ->)]; [lia|]. destruct (Nat.eq_dec x y) as [->|]; [|lia].
        (* a = b = S y: two slices would start and end there *)
        exfalso. clear - SS Hab Hx. assert (G : forall j k n, StronglySorted lt j -> (forall i, In i j -> k <= i) -> k < n -> (forall i, In i j -> S i < n) -> forall q, In (q, q) (cuts k n j) -> False).
        { clear. induction j as [|i j IH]; intros k n SS H Hk Hn q; cbn [cuts].
          - intros [E|[]]. injection E as E1 E2. lia.
          - intros [E|E]; [injection E as E1 E2; specialize (H i (or_introl eq_refl)); lia|]. inversion SS as [|? ? S' F]; subst. rewrite Forall_forall in F.
            apply (IH (i + 1) n S') with (q := q); auto.
            + intros x Hx. specialize (F x Hx). lia.
            + specialize (Hn i (or_introl eq_refl)). lia.
            + intros x Hx. apply Hn. right; auto. }
        apply (G (jumps dat lo hi th) 0 (length dat) SS) with (q := Datatypes.S y); auto; [intros; lia| |].
        -- apply jumps_spec in Hx. lia.
        -- intros i Hi. apply jumps_spec in Hi. lia.
    + intros i Hi1 Hi2 L. apply (A5 i); auto. apply J. split; [lia|exact L].
Qed.

(* -------------------------------------------------------------- outlines *)
Local Open Scope R_scope.

Lemma stairs_cons : forall b0 b1 bs h n, stairs (b0 :: b1 :: bs) (h :: n) = (b0, h) :: (b1, h) :: stairs (b1 :: bs) n.
Proof. reflexivity. Qed.

Lemma hist_loop_spec : forall m bins n i fuel, (length bins = length n + 1)%nat -> (length n - i = m)%nat -> (i <= length n)%nat -> (2 * m + 2 <= fuel)%nat ->
  hist_loop fuel bins n i i = stairs (skipn i bins) (skipn i n).
Proof.
  induction m as [|m IH]; intros bins n i fuel L M Hi Hf.
  - assert (i = length n) by lia. subst i. destruct fuel as [|fuel]; [lia|]. cbn [hist_loop].
    destruct (Nat.ltb_spec (length n) (length bins)); [|lia]. destruct (Nat.ltb_spec (length n) (length n)); [lia|]. rewrite Nat.eqb_refl. cbn [app].
    rewrite skipn_all. destruct (skipn (length n) bins) as [|? [|? ?]]; cbn [stairs]; destruct fuel as [|fuel]; try lia; cbn [hist_loop]; (destruct (Nat.ltb_spec (S (length n)) (length bins)); [lia|reflexivity]).
  - destruct fuel as [|[|fuel]]; try lia. cbn [hist_loop]. destruct (Nat.ltb_spec i (length bins)); [|lia]. destruct (Nat.ltb_spec i (length n)); [|lia].
    rewrite Nat.eqb_refl. destruct (Nat.ltb_spec (S i) (length bins)); [|lia]. destruct (Nat.eqb_spec (S i) i); [lia|].
    rewrite (IH bins n (S i) fuel) by lia.
    assert (SK : forall (A : Type) (l : list A) d k, (k < length l)%nat -> skipn k l = nth k l d :: skipn (S k) l).
    { clear. intros A. induction l as [|x l IH]; intros d k Hk; cbn in Hk; [lia|]. destruct k; [reflexivity|]. cbn [skipn nth]. rewrite (IH d k) by lia. destruct l; reflexivity. }
    rewrite (SK _ bins 0 i), (SK _ n 0 i) by lia. rewrite (SK _ bins 0 (S i)) by lia. rewrite stairs_cons. reflexivity.
Qed.

(** the polygon: down to the base at both ends, bars in between *)
Theorem hist_poly_spec : forall bins n lg zp add, length bins = (length n + 1)%nat ->
  let n' := if lg : bool then map (fun v => if Rle_dec v 0 then zp else v) n else n in let z := if lg then zp else 0 in
  mk_hist_poly bins n lg zp add = POk (if add : bool then [(nth 0 bins 0, z)] ++ stairs bins n' ++ [(last bins 0, z); (nth 0 bins 0, z)] else stairs bins n').
Proof.
  intros bins n lg zp add L n' z. unfold mk_hist_poly. fold n' z.
  assert (L' : length n' = length n) by (unfold n'; destruct lg; [apply map_length|reflexivity]).
  rewrite (hist_loop_spec (length n') bins n' 0 (2 * length bins + 2)) by lia. cbn [skipn].
  destruct bins as [|b0 bs]; [cbn in L; lia|]. destruct add; reflexivity.
Qed.
Theorem hist_poly_empty : forall n lg zp, mk_hist_poly [] n lg zp true = PErr.
Proof. reflexivity. Qed.

(** its area is that of the bars above the base *)
Lemma area_stairs : forall bins n p z, length bins = (length n + 1)%nat -> n <> [] ->
  twice_area (p :: stairs bins n ++ [(last bins 0, z); (nth 0 bins 0, z)]) =
  fst p * nth 0 n 0 - nth 0 bins 0 * snd p - bars bins n + (last bins 0 * z - nth 0 bins 0 * nth 0 n 0) + (last bins 0 - nth 0 bins 0) * z - bars bins n.
Proof.
  induction bins as [|b0 bins IH]; intros n p z L N; [cbn in L; lia|]. destruct n as [|h n]; [congruence|]. destruct bins as [|b1 bs]; [cbn in L; lia|].
  rewrite stairs_cons. destruct n as [|h2 n].
  - destruct bs; [|cbn in L; lia]. cbn. lra.
  - specialize (IH (h2 :: n) (b1, h) z ltac:(cbn [List.length] in *; lia) ltac:(discriminate)).
    set (ST := stairs (b1 :: bs) (h2 :: n)) in *. change (last (b0 :: b1 :: bs) 0) with (last (b1 :: bs) 0). cbn [nth] in *.
    set (la := last (b1 :: bs) 0) in *. change (bars (b0 :: b1 :: bs) (h :: h2 :: n)) with (h * (b1 - b0) + bars (b1 :: bs) (h2 :: n)). set (B := bars (b1 :: bs) (h2 :: n)) in *.
    assert (E : exists q t, ST = q :: t). { unfold ST. destruct bs; [cbn in L; lia|]. rewrite stairs_cons. eauto. }
    destruct E as (q & t & E).
    assert (AP : forall (l : list (R * R)) (u v : R * R), twice_area (l ++ [u; v]) = twice_area (l ++ [u]) + (fst u * snd v - fst v * snd u)).
    { clear. induction l as [|y l IHl]; intros u v; [cbn; lra|]. destruct l as [|y' l]; [cbn; lra|]. cbn [app] in *. change (fst y * snd y' - fst y' * snd y + twice_area (y' :: l ++ [u; v]) = fst y * snd y' - fst y' * snd y + twice_area (y' :: l ++ [u]) + (fst u * snd v - fst v * snd u)). rewrite IHl. lra. }
    assert (X : forall v, twice_area ((b1, h) :: ST ++ [(la, z); v]) = twice_area ((b1, h) :: ST ++ [(la, z)]) + (la * snd v - fst v * z)).
    { intros v. pose proof (AP ((b1, h) :: ST) (la, z) v) as Q. exact Q. }
    rewrite (X (b1, z)) in IH. cbn [fst snd] in IH.
    change (p :: ((b0, h) :: (b1, h) :: ST) ++ [(la, z); (b0, z)]) with (p :: (b0, h) :: (b1, h) :: ST ++ [(la, z); (b0, z)]).
    change (twice_area (p :: (b0, h) :: (b1, h) :: ST ++ [(la, z); (b0, z)])) with
      (fst p * h - b0 * snd p + (b0 * h - b1 * h + twice_area ((b1, h) :: ST ++ [(la, z); (b0, z)]))). rewrite (X (b0, z)). cbn [fst snd]. lra.
Qed.
Theorem hist_poly_area : forall bins n lg zp l, length bins = (length n + 1)%nat -> n <> [] -> mk_hist_poly bins n lg zp true = POk l ->
  let n' := if lg : bool then map (fun v => if Rle_dec v 0 then zp else v) n else n in let z := if lg then zp else 0 in
  twice_area l = - 2 * (bars bins n' - (last bins 0 - nth 0 bins 0) * z).
Proof.
  intros bins n lg zp l L N H n' z. rewrite (hist_poly_spec bins n lg zp true L) in H. fold n' z in H. injection H as <-.
  assert (L' : length n' = length n) by (unfold n'; destruct lg; [apply map_length|reflexivity]).
  cbn [app]. rewrite (area_stairs bins n' (nth 0 bins 0, z) z); [|lia|destruct n'; [destruct n; [congruence|discriminate L']|discriminate]]. cbn [fst snd]. lra.
Qed.

(** the width of the curve is the full width at half maximum *)
Theorem gauss_curve_spec : forall a b w, w <> 0 -> gauss_curve a b w b = Some a /\ gauss_curve a b w (b + w / 2) = Some (a / 2) /\
  (forall x, gauss_curve a b w (b + x) = gauss_curve a b w (b - x)) /\
  (forall x y u v, 0 <= a -> Rabs (x - b) <= Rabs (y - b) -> gauss_curve a b w x = Some u -> gauss_curve a b w y = Some v -> v <= u).
Proof.
  intros a b w W. unfold gauss_curve. assert (L2 : 0 < ln 2) by (rewrite <- ln_1; apply ln_increasing; lra).
  assert (Q : sqrt (2 * ln 2) ^ 2 = 2 * ln 2) by (rewrite <- Rsqr_pow2; apply Rsqr_sqrt; lra).
  assert (P : 0 < sqrt (2 * ln 2)) by (apply sqrt_lt_R0; lra).
  assert (E : 2 * (w / (2 * sqrt (2 * ln 2))) ^ 2 = w ^ 2 / (4 * ln 2)).
  { replace ((w / (2 * sqrt (2 * ln 2))) ^ 2) with (w ^ 2 / (4 * sqrt (2 * ln 2) ^ 2)) by (field; lra). rewrite Q. field. lra. }
  assert (W2 : 0 < w ^ 2) by (rewrite <- Rsqr_pow2; apply Rsqr_pos_lt; auto).
  assert (D : 0 < w ^ 2 / (4 * ln 2)) by (apply Rdiv_lt_0_compat; lra). rewrite E. destruct Req_EM_T as [q|_]; [lra|].
  split; [|split; [|split]].
  - f_equal. replace (- (b - b) ^ 2 / (w ^ 2 / (4 * ln 2))) with 0 by (field; lra). rewrite exp_0. ring.
  - f_equal. replace (- (b + w / 2 - b) ^ 2 / (w ^ 2 / (4 * ln 2))) with (- ln 2) by (field; lra). rewrite exp_Ropp, exp_ln by lra. reflexivity.
  - intros x. f_equal. f_equal. f_equal. f_equal. ring.
  - intros x y u v Ha H [= <-] [= <-]. apply Rmult_le_compat_l; auto.
    assert (- (y - b) ^ 2 / (w ^ 2 / (4 * ln 2)) <= - (x - b) ^ 2 / (w ^ 2 / (4 * ln 2))).
    { set (D0 := w ^ 2 / (4 * ln 2)) in *. assert (Q2 : (x - b) ^ 2 <= (y - b) ^ 2).
      { rewrite <- (pow2_abs (x - b)), <- (pow2_abs (y - b)). pose proof (Rabs_pos (x - b)). nra. }
      assert (ID : 0 < / D0) by (apply Rinv_0_lt_compat; auto). unfold Rdiv. nra. }
    assert (EM : forall p q, p <= q -> exp p <= exp q) by (intros p q [h|h]; [apply Rlt_le, exp_increasing; auto|rewrite h; lra]).
    apply EM. exact H0.
Qed.
