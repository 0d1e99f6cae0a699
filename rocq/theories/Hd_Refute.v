(** What does not hold of the headers, and examples. *)
From Coq Require Import Reals Lra Lia List Arith ZArith Bool Ascii String Sorted.
From Verif Require Import PyRes PyStr PyStr_Proofs PyList NdArray Setup_Spec Setup_Model Setup_Proofs Synth_Model Measure_Model Cube_Model Cube_Spec Cube_Proofs
  Icube_Model Header_Model Header_Spec Header_Proofs Fits_Model Fits_Spec Fits_Proofs Hd_Model Hd_Spec Hd_Proofs Hd_More Hd_Rest Hd_Fit.
Import ListNotations.
Local Open Scope nat_scope.

(** a cube of three axes with frequency on axis [f] *)
Definition e_head (t1 t2 t3 : string) : fheader :=
  [(s "NAXIS", HInt 3); (s "NAXIS1", HInt 8); (s "NAXIS2", HInt 8); (s "NAXIS3", HInt 16);
   (s "CTYPE1", HStr (s t1)); (s "CTYPE2", HStr (s t2)); (s "CTYPE3", HStr (s t3)); (s "CD3_3", HInt 1000000); (s "BUNIT", HStr (s "Jy/beam")); (s "OBJECT", HStr (s "A"))].
Definition e_types (t1 t2 t3 : string) : list (option str) := [Some (s t1); Some (s t2); Some (s t3)].
Definition e_phi : list R := [0; 1; 2]%R.

Lemma e_list : forall t1 t2 t3, type_list (e_head t1 t2 t3) 3 (e_types t1 t2 t3).
Proof.
  intros t1 t2 t3. split; [reflexivity|]. intros i Hi t. assert (i = 1 \/ i = 2 \/ i = 3) as [->|[->| ->]] by lia;
  cbn [nth Nat.sub e_types]; unfold says; (split; [intros [= <-]; reflexivity|intros [= ->]; reflexivity]).
Qed.
Lemma e_naxis : forall t1 t2 t3, says (e_head t1 t2 t3) (s "NAXIS") (HInt (Z.of_nat 3)).
Proof. reflexivity. Qed.
Lemma e_usable : forall t1 t2 t3 f, usable (e_head t1 t2 t3) 3 f.
Proof.
  intros t1 t2 t3 f. split; [lia|]. split; [|split].
  - intros i Hi. assert (i = 1 \/ i = 2 \/ i = 3) as [->|[->| ->]] by lia; intro Q; discriminate Q.
  - right. exists (s "Jy/beam"). reflexivity.
  - intros i Hi _. assert (i = 1 \/ i = 2 \/ i = 3) as [->|[->| ->]] by lia; eexists; reflexivity.
Qed.
Lemma not_mention : forall pat t, caps pat -> contains pat (upper t) = false -> ~ mentions pat (Some t).
Proof. intros pat t C H Q. apply (hit_iff pat (Some t) C) in Q. cbn in Q. congruence. Qed.
Lemma e_freq3 : spectral_axis (s "FREQ") (e_types "RA---SIN" "DEC--SIN" "FREQ") 3.
Proof.
  split; [cbn; lia|]. split; [cbn; intros j Hj; lia|]. left. exists [], (s "FREQ"), []. split; [reflexivity|]. repeat constructor.
Qed.
Lemma e_freq1 : spectral_axis (s "FREQ") (e_types "FREQ" "RA---SIN" "DEC--SIN") 1.
Proof.
  split; [cbn; lia|]. split.
  - cbn [List.length e_types]. intros j Hj. assert (j = 2 \/ j = 3) as [-> | ->] by lia; apply (not_mention _ _ caps_FREQ); reflexivity.
  - left. exists [], (s "FREQ"), []. split; [reflexivity|]. repeat constructor.
Qed.
Lemma e_runs : forall t1 t2 t3 f phi2 pk, spectral_axis (s "FREQ") (e_types t1 t2 t3) f -> (forall p, phi2 = Some p -> 2 <= List.length p) ->
  exists o, synth_write (e_head t1 t2 t3) (Some e_phi) phi2 None pk = POk o.
Proof.
  intros t1 t2 t3 f phi2 pk F H. apply (synth_defined _ _ _ _ _ 3 _ f (e_naxis _ _ _) (e_list _ _ _) F). split; [apply e_usable|].
  split; [left; discriminate|]. intros p [[= <-]|E]; [cbn; lia|auto].
Qed.

(** the frequency term of a CD matrix stays in the cubes of RM-synthesis, beside a
    CDELT in depth that readers of FITS then leave out *)
Theorem cd_term_kept : exists tmpl o q u p, synth_write tmpl (Some e_phi) None None false = POk o /\ h_fdf o = Some (q, u, p) /\
  says tmpl (s "CD3_3") (HInt 1000000) /\ says q (s "CTYPE3") (HStr (s "FDEP")) /\ says q (s "CD3_3") (HInt 1000000) /\ says q (s "CDELT3") (HNum (1 - 0)).
Proof.
  destruct (e_runs "RA---SIN" "DEC--SIN" "FREQ" 3 None false e_freq3 ltac:(intros p Q; discriminate Q)) as [o H].
  destruct (synth_fdf _ _ _ _ _ _ _ _ _ (e_naxis _ _ _) (e_list _ _ _) e_freq3 H) as ([[q u] p] & E & ((N & D & _ & _ & _ & S) & _) & _).
  exists (e_head "RA---SIN" "DEC--SIN" "FREQ"), o, q, u, p. split; [exact H|]. split; [exact E|]. destruct D as (D1 & _ & _ & D4 & _).
  split; [reflexivity|]. split; [exact D1|]. split; [|exact D4].
  apply (sb_says _ _ _ (s "CD3_3") _ S); [|reflexivity]. intros [(w & Hw & Q)|[[Q|(a & _ & [Q|Q])]|Q]].
  - cases Hw; apply (f_equal (firstn 3)) in Q; discriminate Q.
  - discriminate Q.
  - apply (f_equal (firstn 2)) in Q. discriminate Q.
  - apply (f_equal (firstn 2)) in Q. discriminate Q.
  - cbn [In map] in Q. repeat (destruct Q as [Q|Q]; [discriminate Q|]). destruct Q.
Qed.

(** with frequency on the first axis the map of the width keeps a depth axis and
    loses an axis of the sky *)
Theorem fwhm_first_axis : exists tmpl o w, synth_write tmpl (Some e_phi) (Some e_phi) None false = POk o /\ h_fwhm o = Some w /\
  says tmpl (s "CTYPE1") (HStr (s "FREQ")) /\ says tmpl (s "CTYPE3") (HStr (s "DEC--SIN")) /\
  says w (s "NAXIS") (HInt 2) /\ says w (s "CTYPE1") (HStr (s "FDEP")) /\ lacks w (s "CTYPE3").
Proof.
  destruct (e_runs "FREQ" "RA---SIN" "DEC--SIN" 1 (Some e_phi) false e_freq1 ltac:(intros p [= <-]; cbn; lia)) as [o H].
  destruct (synth_rmsf _ _ _ _ _ _ _ _ _ (e_naxis _ _ _) (e_list _ _ _) e_freq1 H) as (t & w & _ & W & _ & A & _ & _ & _ & _ & X & _).
  exists (e_head "FREQ" "RA---SIN" "DEC--SIN"), o, w. split; [exact H|]. split; [exact W|]. split; [reflexivity|]. split; [reflexivity|]. split; [exact A|]. split.
  - apply synth_steps in H. destruct H as (_ & h & f' & r1 & r2 & r3 & Hb & H1 & H2 & _ & ->). destruct (base_axis _ _ _ _ _ _ _ (e_naxis _ _ _) (e_list _ _ _) e_freq1 Hb) as [-> _].
    destruct (base_core _ _ _ _ _ (e_naxis _ _ _) Hb) as [C _]. pose proof (fdf_core _ _ _ _ _ _ _ C H1) as C0.
    destruct H2 as (h2 & w' & t2 & A2 & W2 & _ & ->). cbn [h_fwhm snd] in W. injection W as <-.
    destruct (depth_spec _ _ _ _ _ _ _ C0 A2) as (_ & _ & D2 & _). destruct (flat_spec _ _ W2) as (_ & _ & _ & _ & S).
    change (s "CTYPE1") with (key "CTYPE" 1). apply (sb_says _ _ _ _ _ S).
    + intros [Q|Q].
      * apply keys_axis in Q. revert Q. apply not_in_b. vm_compute. reflexivity.
      * litin Q.
    + destruct D2 as (D2 & _). unfold wide. card.
  - apply X. left. exists "CTYPE"%string, 3. split; [inn|]. split; auto.
Qed.

(** the only plane of a peak map lies below all depths of the cube *)
Theorem peak_pixel : forall tmpl phi lam0 o n l f m r start step v, says tmpl (s "NAXIS") (HInt (Z.of_nat n)) -> type_list tmpl n l -> spectral_axis (s "FREQ") l f ->
  synth_write tmpl (Some phi) None lam0 true = POk o -> h_peak o = Some (m, r) -> (0 < step)%R -> uniform phi start step ->
  pixel_world m f 1 v -> v = (start - INR (List.length phi / 2) * step)%R /\ forall k, k < List.length phi -> (v < nth k phi 0)%R.
Proof.
  intros tmpl phi lam0 o n l f m r st d v N T F H Hm Hd U (c & x & y & A & B & C & V). apply synth_steps in H.
  destruct H as (_ & h & f' & r1 & r2 & r3 & Hb & H1 & H2 & H3 & ->). cbn [h_peak] in Hm. subst r3.
  destruct (base_axis _ _ _ _ _ _ _ N T F Hb) as [-> _]. destruct (base_core _ _ _ _ _ N Hb) as [C0 _]. pose proof (fdf_core _ _ _ _ _ _ _ C0 H1) as C1.
  cbn in H2. subst r2. cbn [fst] in H3. destruct H3 as (m' & P & [= <- _]). destruct H1 as (h1 & t1 & A1 & B1 & ->). cbn [fst] in *.
  destruct (depth_spec _ _ _ _ _ _ _ C0 A1) as (L & C1' & D1 & _). destruct (three_core _ _ _ _ _ _ _ C1' D1 B1) as [P1 _]. destruct t1 as [[q u] p]. cbn [snd] in *.
  destruct P1 as (_ & _ & ((_ & D & _) & SP) & _). destruct (peak_spec _ _ _ _ _ _ _ C1 P) as (_ & V1 & _ & _ & _ & _ & K & _).
  destruct D as (_ & _ & _ & D4 & c0 & D5 & _ & _).
  assert (E5 : says p (key "CRPIX" f) (HInt (Z.of_nat (List.length phi / 2 + 1)))).
  { apply (sb_says _ _ _ (key "CRPIX" f) _ SP); [apply stokes_touched_not; left; exists "CRPIX"%string; split; [reflexivity|inn]|].
    unfold depth_cards in A1. rewrite (proj2 (write_depth_spec phi _) (conj L eq_refl)) in A1. cbn [pybind] in A1. injection A1 as <-. change (kw "CRPIX" f) with (key "CRPIX" f). change (kw "CRVAL" f) with (key "CRVAL" f). card. }
  pose proof (says_fun _ _ _ _ V1 B) as [= <-].
  pose proof (says_fun _ _ _ _ (K "CDELT"%string _ (or_intror eq_refl) D4) C) as [= <-].
  pose proof (says_fun _ _ _ _ (K "CRPIX"%string _ (or_introl eq_refl) E5) A) as [= <-].
  rewrite (U 1), (U 0) in V by lia. rewrite <- !INR_IZR_INZ, plus_INR in V. change (INR 1) with 1%R in V. change (INR 0) with 0%R in V.
  change (INR (fst (Nat.divmod (List.length phi) 1 0 1))) with (INR (List.length phi / 2)) in V.
  assert (E : v = (st - INR (List.length phi / 2) * d)%R)
   by (rewrite V; ring). split; auto. intros k Hk. rewrite (U k Hk), E.
  assert (1 <= List.length phi / 2) by (apply Nat.div_le_lower_bound; lia).
  assert (1 <= INR (List.length phi / 2))%R by (change 1%R with (INR 1); apply le_INR; lia). pose proof (pos_INR k). nra.
Qed.

(** the count of iterations flattens axis 3, whichever axis is the depth *)
Theorem iter_axis : forall tmpl n f c, says tmpl (s "NAXIS") (HInt (Z.of_nat n)) -> clean_write tmpl = POk c -> f < 3 <= n ->
  says tmpl (key "CTYPE" f) (HStr (s "FDEP")) ->
  says (c_iter c) (key "CTYPE" f) (HStr (s "FDEP")) /\ degenerate (c_iter c) 3 /\ forall v, says tmpl (key "NAXIS" f) v -> says (c_iter c) (key "NAXIS" f) v.
Proof.
  intros tmpl n f c N H Hf A. destruct (clean_cubes _ _ _ N H) as (_ & _ & D & _ & _ & _ & _ & S).
  assert (K : forall w, w = "CTYPE"%string \/ w = "NAXIS"%string -> ~ (clean_touched tmpl n (key w f) \/ key w f = s "BUNIT" \/
     exists w' i, In w' ["NAXIS"; "CTYPE"; "CUNIT"]%string /\ 3 <= i <= n /\ i <= 4 /\ key w f = key w' i)).
  { intros w Hw [[E|[E|(a & _ & E)]]|[E|(w' & i & Hw' & Hi & _ & E)]].
    - destruct Hw as [-> | ->]; revert E; kneq.
    - destruct Hw as [-> | ->]; revert E; kneq.
    - destruct E as [E|E]; destruct Hw as [-> | ->]; revert E; kneq.
    - destruct Hw as [-> | ->]; revert E; kneq.
    - apply key_inj in E; [lia| |]; [destruct Hw as [-> | ->]; reflexivity|]. cases Hw'; reflexivity. }
  split; [apply (sb_says _ _ _ _ _ S (K "CTYPE"%string (or_introl eq_refl))), A|]. split; [apply D; lia|].
  intros v Hv. apply (sb_says _ _ _ _ _ S (K "NAXIS"%string (or_intror eq_refl))), Hv.
Qed.
