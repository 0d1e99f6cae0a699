(** The step of the Levenberg-Marquardt method (Mp_Model.lmpar): what it solves. *)
From Coq Require Import Reals List Arith ZArith Bool Lra Lia Psatz Permutation.
From Verif Require Import PyRes CBase PyList Mp_Model Mp_Spec Mp_Sums Mp_QR Mp_Solve Mp_Givens.
Import ListNotations.
Local Open Scope R_scope.

(** the part of r on and above the diagonal *)
Definition same_upper (n : nat) (r r' : mat) : Prop := forall i c, (i <= c < n)%nat -> r' i c = r i c.

Lemma same_upper_up : forall n r r', same_upper n r r' -> forall i c, (c < n)%nat -> up r' i c = up r i c.
Proof. intros n r r' H i c Hc. unfold up. destruct (Nat.leb_spec i c); auto. Qed.

Lemma same_upper_trans : forall n r r' r'', same_upper n r r' -> same_upper n r' r'' -> same_upper n r r''.
Proof. intros n r r' r'' H K i c Hc. rewrite K, H; auto. Qed.

Lemma factored_upper : forall m n J f ipvt r r' qtf, same_upper n r r' -> factored m n J f ipvt r qtf -> factored m n J f ipvt r' qtf.
Proof.
  intros m n J f ipvt r r' qtf H [P G Q]. pose proof (same_upper_up n r r' H) as U. split; auto.
  - intros a b Ha Hb. rewrite <- G by auto. apply ssum_ext. intros i Hi. now rewrite !U.
  - intros a Ha. rewrite <- Q by auto. apply ssum_ext. intros i Hi. now rewrite !U.
Qed.

Lemma qrsolv_upper : forall n r ipvt diag qtb sdiag, is_perm n ipvt -> (forall c, (c < n)%nat -> diag (ipvt c) <> 0) ->
  let '(r', x, sd') := qrsolv n r ipvt diag qtb sdiag in same_upper n r r'.
Proof.
  intros n r ipvt diag qtb sdiag Hp Hd. pose proof (qrsolv_spec n r ipvt diag qtb sdiag Hp Hd) as K.
  destruct (qrsolv n r ipvt diag qtb sdiag) as [[r' x] sd']. exact (proj1 K).
Qed.

(** ---------- the damped step *)

Lemma qrsolv_equations : forall m n J f ipvt r qtf diag sdiag par, factored m n J f ipvt r qtf ->
  (forall l, (l < n)%nat -> 0 < diag l) -> 0 < par -> (n <= 2)%nat ->
  let '(r', x, sd') := qrsolv n r ipvt (fun i => sqrt par * diag i) qtf sdiag in
  lm_equations m n J f diag par x.
Proof.
  intros m n J f ipvt r qtf diag sdiag par F Hd Hp Hn.
  assert (0 < sqrt par) as Sp by now apply sqrt_lt_R0.
  assert (forall c, (c < n)%nat -> sqrt par * diag (ipvt c) <> 0) as Hz.
  { intros c Hc. pose proof (Hd (ipvt c) (is_perm_lt n ipvt c (f_perm _ _ _ _ _ _ _ F) Hc)). nra. }
  pose proof (qrsolv_spec n r ipvt (fun i => sqrt par * diag i) qtf sdiag (f_perm _ _ _ _ _ _ _ F) Hz) as K.
  assert (qrsolv_clean n r ipvt (fun i => sqrt par * diag i) qtf sdiag) as Cl.
  { unfold qrsolv_clean. apply clean_small; auto. intros j Hj. apply in_seq in Hj. split; [lia|]. apply Hz. lia. }
  destruct (qrsolv n r ipvt (fun i => sqrt par * diag i) qtf sdiag) as [[r' x] sd'].
  destruct K as [_ K]. specialize (K Cl). intros l Hl.
  destruct (is_perm_surj n ipvt l (f_perm _ _ _ _ _ _ _ F) Hl) as [a [Ha <-]].
  specialize (K a Ha). rewrite (f_qtf _ _ _ _ _ _ _ F) in K by auto. rewrite <- K.
  rewrite total_ssum.
  rewrite <- (ssum_perm n ipvt (fun k => gram m J (ipvt a) k * x k) (f_perm _ _ _ _ _ _ _ F)).
  f_equal.
  - apply ssum_ext. intros b Hb. rewrite (f_gram _ _ _ _ _ _ _ F) by lia. reflexivity.
  - replace (sqrt par * diag (ipvt a) * (sqrt par * diag (ipvt a))) with (sqrt par * sqrt par * (diag (ipvt a) * diag (ipvt a))) by ring.
    rewrite sqrt_sqrt by lra. reflexivity.
Qed.

Lemma dwarf_pos : 0 < dwarf.
Proof. unfold dwarf. apply Rinv_0_lt_compat. apply pow_lt. lra. Qed.
Lemma machep_pos : 0 < machep.
Proof. unfold machep. apply Rinv_0_lt_compat. apply pow_lt. lra. Qed.

Lemma Rdiv_nonneg : forall a b, 0 <= a -> 0 < b -> 0 <= a / b.
Proof. intros a b Ha Hb. apply Rmult_le_pos; auto. left. now apply Rinv_0_lt_compat. Qed.

Lemma div2_nonneg : forall a t, 0 <= a -> 0 <= a / t / t.
Proof.
  intros a t Ha. unfold Rdiv. rewrite Rmult_assoc. apply Rmult_le_pos; auto. nra.
Qed.

(** the damping parameter in use is positive at every round *)
Definition next_par (par paru : R) : R := if Req_EM_T par 0 then Rmax dwarf (paru * (1 / 1000)) else par.

Lemma next_par_pos : forall par paru, 0 <= par -> 0 < next_par par paru.
Proof.
  intros par paru H. unfold next_par. destruct (Req_EM_T par 0).
  - pose proof dwarf_pos. pose proof (Rmax_l dwarf (paru * (1 / 1000))). lra.
  - lra.
Qed.

Lemma lmpar_loop_spec : forall k n ipvt diag qtb delta r sdiag fp parl paru par, is_perm n ipvt ->
  (forall c, (c < n)%nat -> 0 < diag c) -> 0 <= parl -> 0 <= par ->
  let '(r', par', x) := lmpar_loop n ipvt diag qtb delta k r sdiag fp parl paru par in
  same_upper n r r' /\ 0 < par' /\
  (forall m J f, factored m n J f ipvt r qtb -> (n <= 2)%nat -> lm_equations m n J f diag par' x).
Proof.
  induction k as [|k IH]; intros n ipvt diag qtb delta r sdiag fp parl paru par Hp Hd Hl Hpar;
    cbn [lmpar_loop]; fold (next_par par paru);
    pose proof (next_par_pos par paru Hpar) as Np; set (p1 := next_par par paru) in *; clearbody p1.
  all: assert (0 < sqrt p1) as Sp by now apply sqrt_lt_R0.
  all: assert (forall c, (c < n)%nat -> sqrt p1 * diag (ipvt c) <> 0) as Hz by
    (intros c Hc; pose proof (Hd (ipvt c) (is_perm_lt n ipvt c Hp Hc)); nra).
  all: pose proof (qrsolv_upper n r ipvt (fun i => sqrt p1 * diag i) qtb sdiag Hp Hz) as U.
  all: pose proof (fun m J f F Hn => qrsolv_equations m n J f ipvt r qtb diag sdiag p1 F Hd Np Hn) as Eq.
  all: destruct (qrsolv n r ipvt (fun i => sqrt p1 * diag i) qtb sdiag) as [[r1 x1] sd1].
  - split; [exact U|]. split; [exact Np|]. exact Eq.
  - destruct (_ || _).
    + split; [exact U|]. split; [exact Np|]. exact Eq.
    + match goal with |- context [lmpar_loop n ipvt diag qtb delta k r1 sd1 ?fp' ?pl ?pu ?pa] =>
        specialize (IH n ipvt diag qtb delta r1 sd1 fp' pl pu pa Hp Hd) end.
      match type of IH with 0 <= ?pl -> _ => assert (0 <= pl) as P1 end.
      { destruct (Rlt_dec 0 _); auto. pose proof (Rmax_l parl p1). lra. }
      specialize (IH P1).
      match type of IH with 0 <= Rmax ?a ?b -> _ => assert (0 <= Rmax a b) as P2 by (pose proof (Rmax_l a b); lra) end.
      specialize (IH P2). destruct (lmpar_loop _ _ _ _ _ _ _ _ _ _ _ _) as [[r' par'] x].
      destruct IH as (I1 & I2 & I3). split; [eapply same_upper_trans; eauto|]. split; [exact I2|].
      intros m J f F Hn. apply I3; auto. eapply factored_upper; eauto.
Qed.

(** ---------- the full step *)

(** lengths are those of the triangle *)
Lemma factored_len : forall m n J f ipvt r qtf z, factored m n J f ipvt r qtf ->
  sqlen m (times n J z) =
  ssum 0 n (fun i => ssum 0 n (fun c => up r i c * z (ipvt c)) * ssum 0 n (fun c => up r i c * z (ipvt c))).
Proof.
  intros m n J f ipvt r qtf z F. unfold sqlen. rewrite dot_times, total_ssum.
  rewrite <- (ssum_perm n ipvt _ (f_perm _ _ _ _ _ _ _ F)).
  rewrite (ssum_ext 0 n _ (fun a => ssum 0 n (fun b => ssum 0 n (fun i => up r i a * up r i b) * z (ipvt b)) * z (ipvt a))).
  2:{ intros a Ha. rewrite dot_sym, dot_times, total_ssum.
      rewrite <- (ssum_perm n ipvt _ (f_perm _ _ _ _ _ _ _ F)).
      f_equal. apply ssum_ext. intros b Hb. rewrite (f_gram _ _ _ _ _ _ _ F) by lia. reflexivity. }
  rewrite (ssum_ext 0 n (fun a => _ * z (ipvt a))
             (fun a => ssum 0 n (fun i => up r i a * z (ipvt a) * ssum 0 n (fun b => up r i b * z (ipvt b))))).
  2:{ intros a Ha. rewrite <- ssum_scal_r.
      rewrite (ssum_ext 0 n (fun b => _ * z (ipvt a)) (fun b => ssum 0 n (fun i => up r i a * up r i b * z (ipvt b) * z (ipvt a)))).
      2:{ intros b Hb. rewrite <- ssum_scal_r, <- ssum_scal_r. reflexivity. }
      rewrite ssum_swap. apply ssum_ext. intros i Hi. rewrite <- ssum_scal. apply ssum_ext. intros; ring. }
  rewrite ssum_swap. apply ssum_ext. intros i Hi. rewrite ssum_scal_r. reflexivity.
Qed.

(** reading a vector through the inverse of the permutation *)
Lemma perm_vector : forall n ipvt (w : vec), is_perm n ipvt -> exists z : vec, forall c, (c < n)%nat -> z (ipvt c) = w c.
Proof.
  intros n ipvt w Hp. exists (scatter n ipvt w (fun _ => 0)). intros c Hc. now apply scatter_spec.
Qed.

Lemma diag_is_length : forall m n J f ipvt r qtf j, factored m n J f ipvt r qtf -> (j < n)%nat ->
  (forall i, (i < j)%nat -> r i i <> 0) ->
  exists z, z (ipvt j) = 1 /\ sqlen m (times n J z) = r j j * r j j.
Proof.
  intros m n J f ipvt r qtf j F Hj Hr.
  set (s := solve_upper j r (fun i => - r i j)).
  assert (forall i, (i < j)%nat -> ssum i j (fun c => r i c * s c) = - r i j) as Hs by (apply solve_upper_spec; auto).
  set (w := fun c => if Nat.eqb c j then 1 else if Nat.ltb c j then s c else 0).
  destruct (perm_vector n ipvt w (f_perm _ _ _ _ _ _ _ F)) as [z Hzw]. exists z. split.
  - rewrite Hzw by auto. unfold w. now rewrite Nat.eqb_refl.
  - rewrite (factored_len m n J f ipvt r qtf z F).
    assert (forall i, (i < n)%nat -> ssum 0 n (fun c => up r i c * z (ipvt c)) = if Nat.eqb i j then r j j else 0) as Row.
    { intros i Hi. rewrite (ssum_ext 0 n _ (fun c => up r i c * w c)) by (intros; rewrite Hzw by lia; reflexivity).
      rewrite (ssum_split 0 (S j) n) by lia. rewrite (ssum_0 (S j) n).
      2:{ intros c Hc. unfold w. destruct (Nat.eqb_spec c j), (Nat.ltb_spec c j); try lia. ring. }
      rewrite ssum_last by lia. unfold w at 2. rewrite Nat.eqb_refl.
      rewrite (ssum_ext 0 j _ (fun c => up r i c * s c)).
      2:{ intros c Hc. unfold w. destruct (Nat.eqb_spec c j), (Nat.ltb_spec c j); try lia. reflexivity. }
      destruct (Nat.eqb_spec i j) as [->|Hij].
      - rewrite ssum_0. 2:{ intros c Hc. unfold up. destruct (Nat.leb_spec j c); [lia|ring]. }
        unfold up. rewrite Nat.leb_refl. ring.
      - destruct (Nat.lt_ge_cases i j) as [L|L].
        + rewrite (ssum_split 0 i j) by lia. rewrite (ssum_0 0 i).
          2:{ intros c Hc. unfold up. destruct (Nat.leb_spec i c); [lia|ring]. }
          rewrite (ssum_ext i j _ (fun c => r i c * s c)).
          2:{ intros c Hc. unfold up. destruct (Nat.leb_spec i c); [reflexivity|lia]. }
          rewrite Hs by auto. unfold up. destruct (Nat.leb_spec i j); [ring|lia].
        + rewrite ssum_0. 2:{ intros c Hc. unfold up. destruct (Nat.leb_spec i c); [lia|ring]. }
          unfold up. destruct (Nat.leb_spec i j); [lia|ring]. }
    rewrite (ssum_single 0 n j).
    + rewrite Row by auto. rewrite Nat.eqb_refl. reflexivity.
    + lia.
    + intros i Hi Hij. rewrite Row by lia. destruct (Nat.eqb_spec i j); [contradiction|ring].
Qed.

Lemma diag_le_gram : forall m n J f ipvt r qtf j, factored m n J f ipvt r qtf -> (j < n)%nat ->
  r j j * r j j <= gram m J (ipvt j) (ipvt j).
Proof.
  intros m n J f ipvt r qtf j F Hj. rewrite <- (f_gram _ _ _ _ _ _ _ F j j) by auto.
  rewrite (ssum_split 0 j n), (ssum_first j n) by lia.
  pose proof (ssum_sq_nonneg 0 j (fun i => up r i j)). pose proof (ssum_sq_nonneg (S j) n (fun i => up r i j)).
  replace (r j j) with (up r j j) by (unfold up; now rewrite Nat.leb_refl). lra.
Qed.

(** independent columns give a diagonal well away from zero *)
Lemma diag_margin : forall tol m n J f ipvt r qtf, 0 <= tol -> factored m n J f ipvt r qtf -> independent tol m n J ->
  forall i j, (i < n)%nat -> (j < n)%nat -> tol * Rabs (r j j) < Rabs (r i i).
Proof.
  intros tol m n J f ipvt r qtf Ht F I.
  assert (forall i, (i < n)%nat -> (forall l, (l < i)%nat -> r l l <> 0) ->
            forall j, (j < n)%nat -> tol * Rabs (r j j) < Rabs (r i i)) as K.
  { intros i Hi Hl j Hj. destruct (diag_is_length m n J f ipvt r qtf i F Hi Hl) as [z [Z1 Z2]].
    pose proof (I z (ipvt i) (ipvt j) (is_perm_lt n ipvt i (f_perm _ _ _ _ _ _ _ F) Hi) (is_perm_lt n ipvt j (f_perm _ _ _ _ _ _ _ F) Hj) Z1) as L.
    rewrite Z2 in L. pose proof (diag_le_gram m n J f ipvt r qtf j F Hj) as G.
    pose proof (Rabs_pos (r j j)). pose proof (Rabs_pos (r i i)).
    apply Rsqr_incrst_0; [|nra|auto]. unfold Rsqr.
    replace (tol * Rabs (r j j) * (tol * Rabs (r j j))) with (tol ^ 2 * (Rabs (r j j) * Rabs (r j j))) by ring.
    rewrite <- !Rabs_mult. rewrite !(Rabs_right (_ * _)) by nra.
    assert (tol ^ 2 * (r j j * r j j) <= tol ^ 2 * gram m J (ipvt j) (ipvt j)) by (apply Rmult_le_compat_l; [nra|auto]). lra. }
  assert (forall i, (i <= n)%nat -> forall l, (l < i)%nat -> r l l <> 0) as Nz.
  { induction i as [|i IH]; intros Hi l Hl; [lia|].
    destruct (Nat.eq_dec l i) as [->|]; [|apply IH; lia].
    pose proof (K i ltac:(lia) (IH ltac:(lia)) i ltac:(lia)) as L. intros E. rewrite E, Rabs_R0 in L. lra. }
  intros i j Hi Hj. apply K; auto. apply (Nz i). lia.
Qed.

Lemma max_abs_diag_spec : forall n r B, 0 <= B -> (forall j, (j < n)%nat -> Rabs (r j j) <= B) -> max_abs_diag n r <= B.
Proof.
  intros n r B H0 H. unfold max_abs_diag.
  apply (fold_seq_inv0 (fun _ v => v <= B) (fun v j => Rmax v (Rabs (r j j)))); auto.
  intros j v Hj Hv. apply Rmax_lub; auto.
Qed.

Lemma full_rank : forall m n J f ipvt r qtf, factored m n J f ipvt r qtf -> independent machep m n J ->
  first_from (fun i => Rltb (Rabs (r i i)) (max_abs_diag n r * machep)) 0 n = n /\ (forall i, (i < n)%nat -> r i i <> 0).
Proof.
  intros m n J f ipvt r qtf F I. pose proof machep_pos as Mp.
  pose proof (diag_margin machep m n J f ipvt r qtf (Rlt_le _ _ Mp) F I) as M. split.
  - apply (first_from_none _ n 0). intros i Hi. unfold Rltb. destruct (Rlt_dec _ _) as [L|]; auto. exfalso.
    assert (max_abs_diag n r <= Rabs (r i i) / machep) as K.
    { apply max_abs_diag_spec.
      - apply Rdiv_nonneg; auto. apply Rabs_pos.
      - intros j Hj. specialize (M i j ltac:(lia) Hj). apply Rmult_le_reg_l with machep; auto.
        replace (machep * (Rabs (r i i) / machep)) with (Rabs (r i i)) by (field; lra). lra. }
    apply Rmult_le_compat_r with (r := machep) in K; [|lra].
    replace (Rabs (r i i) / machep * machep) with (Rabs (r i i)) in K by (field; lra). lra.
  - intros i Hi E. specialize (M i i Hi Hi). rewrite E, Rabs_R0 in M. lra.
Qed.

Lemma paru_nonneg : forall g delta, 0 < delta -> 0 <= g ->
  0 <= (if Req_EM_T (g / delta) 0 then dwarf / Rmin delta (1 / 10) else g / delta).
Proof.
  intros g delta Hd Hg. destruct (Req_EM_T _ _).
  - apply Rdiv_nonneg; [pose proof dwarf_pos; lra|]. apply Rmin_glb_lt; lra.
  - apply Rdiv_nonneg; auto.
Qed.

Lemma par0_nonneg : forall par parl paru g dx, 0 <= par -> 0 <= paru -> 0 <= g -> 0 < dx ->
  0 <= (if Req_EM_T (Rmin (Rmax par parl) paru) 0 then g / dx else Rmin (Rmax par parl) paru).
Proof.
  intros par parl paru g dx H1 H2 H3 H4. destruct (Req_EM_T _ _).
  - apply Rdiv_nonneg; auto.
  - apply Rmin_glb; auto. apply Rle_trans with par; auto. apply Rmax_l.
Qed.

(** what lmpar hands back in every case *)
Lemma lmpar_frame : forall n r ipvt diag qtb delta par, is_perm n ipvt -> (forall c, (c < n)%nat -> 0 < diag c) ->
  0 < delta -> 0 <= par ->
  let '(r', par', x) := lmpar n r ipvt diag qtb delta par in same_upper n r r' /\ 0 <= par' /\
    (par' = 0 -> enorm 0 n (fun i => diag i * x i) <= 11 / 10 * delta).
Proof.
  intros n r ipvt diag qtb delta par Hp Hd Hde Hpar. unfold lmpar. cbv zeta.
  destruct (Rle_dec _ _) as [L|L].
  - split; [intros i c _; reflexivity|]. split; [lra|]. intros _. lra.
  - match goal with |- context [lmpar_loop ?n ?ip ?di ?qt ?de ?k ?r ?sd ?fp ?pl ?pu ?pa] =>
      pose proof (lmpar_loop_spec k n ip di qt de r sd fp pl pu pa Hp Hd) as K;
      destruct (lmpar_loop n ip di qt de k r sd fp pl pu pa) as [[r' par'] x] end.
    match type of K with 0 <= ?pl -> _ => assert (0 <= pl) as P1 end.
    { destruct (Nat.leb _ _); [|lra]. apply div2_nonneg. apply Rdiv_nonneg; lra. }
    specialize (K P1).
    match type of K with 0 <= ?pl -> _ => assert (0 <= pl) as P2 end.
    { apply par0_nonneg; try lra; [|apply enorm_nonneg]. apply paru_nonneg; auto. apply enorm_nonneg. }
    destruct (K P2) as (K1 & K2 & _). split; auto. split; [lra|]. intros E. lra.
Qed.

(** independent columns: the step solves the (damped) normal equations *)
Lemma lmpar_solves : forall m n J f r ipvt diag qtb delta par, factored m n J f ipvt r qtb -> independent machep m n J ->
  (forall c, (c < n)%nat -> 0 < diag c) -> 0 < delta -> 0 <= par ->
  let '(r', par', x) := lmpar n r ipvt diag qtb delta par in
  ((n <= 2)%nat -> lm_equations m n J f diag par' x) /\
  ((forall x, lm_equations m n J f diag 0 x -> enorm 0 n (fun i => diag i * x i) <= 11 / 10 * delta) ->
     par' = 0 /\ lm_equations m n J f diag 0 x /\ r' = r) /\
  (par' = 0 -> lm_equations m n J f diag 0 x).
Proof.
  intros m n J f r ipvt diag qtb delta par F I Hd Hde Hpar.
  destruct (full_rank m n J f ipvt r qtb F I) as [Ns Nz]. pose proof (f_perm _ _ _ _ _ _ _ F) as Hp.
  unfold lmpar. cbv zeta. rewrite Ns.
  set (w := solve_upper n r (fun i => if Nat.leb n i then 0 else qtb i)).
  set (x0 := scatter n ipvt w (fun _ => 0)).
  assert (lm_equations m n J f diag 0 x0) as GN.
  { intros l Hl. rewrite (normal_from_upper m n J f ipvt r qtb w x0 F); auto; [ring| |].
    - intros j Hj. apply scatter_spec; auto.
    - intros i Hi. unfold w. rewrite solve_upper_spec by auto. destruct (Nat.leb_spec n i); [lia|reflexivity]. }
  destruct (Rle_dec _ _) as [L|L].
  - split; [|split]; auto.
  - match goal with |- context [lmpar_loop ?n ?ip ?di ?qt ?de ?k ?r ?sd ?fp ?pl ?pu ?pa] =>
      pose proof (lmpar_loop_spec k n ip di qt de r sd fp pl pu pa Hp Hd) as K;
      destruct (lmpar_loop n ip di qt de k r sd fp pl pu pa) as [[r' par'] x] end.
    match type of K with 0 <= ?pl -> _ => assert (0 <= pl) as P1 end.
    { destruct (Nat.leb _ _); [|lra]. apply div2_nonneg. apply Rdiv_nonneg; lra. }
    specialize (K P1).
    match type of K with 0 <= ?pl -> _ => assert (0 <= pl) as P2 end.
    { apply par0_nonneg; try lra; [|apply enorm_nonneg]. apply paru_nonneg; auto. apply enorm_nonneg. }
    destruct (K P2) as (K1 & K2 & K3). split; [|split].
    + intros Hn. apply K3; auto.
    + intros Hx. exfalso. specialize (Hx x0 GN). lra.
    + lra.
Qed.
