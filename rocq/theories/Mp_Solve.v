(** Triangular systems, the Gauss-Newton step and the Levenberg-Marquardt step
    of the fitter (Mp_Model: solve_upper, scatter, qrsolv, lmpar). *)
From Coq Require Import Reals List Arith ZArith Bool Lra Lia Psatz Permutation.
From Verif Require Import PyRes CBase PyList Mp_Model Mp_Spec Mp_Sums Mp_QR.
Import ListNotations.
Local Open Scope R_scope.

Lemma solve_upper_spec : forall n r b, (forall i, (i < n)%nat -> r i i <> 0) ->
  forall i, (i < n)%nat -> ssum i n (fun c => r i c * solve_upper n r b c) = b i.
Proof.
  intros n r b Hr. unfold solve_upper.
  set (step := fun w j => _).
  assert (let w := fold_left step (rev (seq 0 n)) b in
          (forall i, (0 <= i < n)%nat -> ssum i n (fun c => r i c * w c) = b i) /\
          (forall i, (i < 0)%nat -> w i = b i - ssum 0 n (fun c => r i c * w c))) as K.
  { apply (fold_rev_inv (fun j w =>
      (forall i, (j <= i < n)%nat -> ssum i n (fun c => r i c * w c) = b i) /\
      (forall i, (i < j)%nat -> w i = b i - ssum j n (fun c => r i c * w c)))).
    - split; [intros; lia|]. intros i Hi. rewrite ssum_empty by lia. ring.
    - intros j w Hj [H1 H2].
      set (v := w j / r j j). set (w' := step w j).
      assert (forall i, w' i = if Nat.eqb i j then v else if Nat.ltb i j then w i - r i j * v else w i) as Ew by reflexivity.
      clearbody w'.
      assert (w' j = v) as Wj by (rewrite Ew; now rewrite Nat.eqb_refl).
      assert (forall i, (j < i)%nat -> w' i = w i) as Wh.
      { intros i Hi. rewrite Ew. destruct (Nat.eqb_spec i j), (Nat.ltb_spec i j); auto; lia. }
      assert (forall i, (i < j)%nat -> w' i = w i - r i j * v) as Wl.
      { intros i Hi. rewrite Ew. destruct (Nat.eqb_spec i j), (Nat.ltb_spec i j); auto; lia. }
      split.
      + intros i Hi. destruct (Nat.eq_dec i j) as [->|].
        * rewrite ssum_first by auto. rewrite Wj.
          rewrite (ssum_ext (S j) n _ (fun c => r j c * w c)) by (intros c Hc; rewrite Wh by lia; reflexivity).
          unfold v. rewrite (H2 j) by lia. field. auto.
        * rewrite (ssum_ext i n _ (fun c => r i c * w c)) by (intros c Hc; rewrite Wh by lia; reflexivity).
          apply H1. lia.
      + intros i Hi. rewrite Wl by auto. rewrite (ssum_first j n) by auto. rewrite Wj.
        rewrite (ssum_ext (S j) n _ (fun c => r i c * w c)) by (intros c Hc; rewrite Wh by lia; reflexivity).
        rewrite (H2 i) by lia. ring. }
  intros i Hi. apply K. lia.
Qed.

Lemma scatter_spec : forall n ipvt w x j, is_perm n ipvt -> (j < n)%nat -> scatter n ipvt w x (ipvt j) = w j.
Proof.
  intros n ipvt w x j Hp Hj. unfold scatter.
  assert (forall k s, (k <= n)%nat -> (j < k)%nat ->
            fold_left (fun x j => upd x (ipvt j) (w j)) (seq 0 k) s (ipvt j) = w j) as K.
  { induction k as [|k IH]; intros s Hk Hjk; [lia|].
    rewrite seq_S, fold_left_app. cbn. unfold upd at 1.
    destruct (Nat.eqb_spec (ipvt j) (ipvt k)) as [E|E].
    - assert (j = k) as -> by (apply (is_perm_inj n ipvt); auto; lia). reflexivity.
    - apply IH; [lia|]. destruct (Nat.eq_dec j k) as [->|]; [congruence|lia]. }
  apply K; auto.
Qed.

(** multiplying R w = qtf by R^T *)
Lemma normal_from_upper : forall m n J f ipvt r qtf w x, factored m n J f ipvt r qtf ->
  (forall j, (j < n)%nat -> x (ipvt j) = w j) ->
  (forall i, (i < n)%nat -> ssum i n (fun c => r i c * w c) = qtf i) ->
  forall l, (l < n)%nat -> total n (fun k => gram m J l k * x k) = dot m (column J l) f.
Proof.
  intros m n J f ipvt r qtf w x [P G Q] Hx Hw l Hl.
  destruct (is_perm_surj n ipvt l P Hl) as [a [Ha <-]].
  rewrite total_ssum. rewrite <- (ssum_perm n ipvt) by auto.
  rewrite (ssum_ext 0 n _ (fun b => ssum 0 n (fun i => up r i a * up r i b) * w b)).
  2:{ intros b Hb. rewrite G, Hx by lia. reflexivity. }
  rewrite (ssum_ext 0 n _ (fun b => ssum 0 n (fun i => up r i a * (up r i b * w b)))).
  2:{ intros b Hb. rewrite <- ssum_scal_r. apply ssum_ext. intros; ring. }
  rewrite ssum_swap. rewrite <- Q by auto. apply ssum_ext. intros i Hi. rewrite ssum_scal. f_equal.
  rewrite <- Hw by lia. rewrite (ssum_split 0 i n) by lia. rewrite (ssum_0 0 i).
  - rewrite Rplus_0_l. apply ssum_ext. intros c Hc. unfold up. destruct (Nat.leb_spec i c); [reflexivity|lia].
  - intros c Hc. unfold up. destruct (Nat.leb_spec i c); [lia|ring].
Qed.

(* ---------------------------------------------------------------- least squares *)

Lemma total_ext : forall n f g, (forall i, (i < n)%nat -> f i = g i) -> total n f = total n g.
Proof. intros n f g H. rewrite !total_ssum. apply ssum_ext. intros; apply H; lia. Qed.

Lemma dot_sym : forall m u v, dot m u v = dot m v u.
Proof. intros. unfold dot. apply total_ext. intros; ring. Qed.

Lemma dot_plus_r : forall m u v w, dot m u (fun i => v i + w i) = dot m u v + dot m u w.
Proof.
  intros. unfold dot. rewrite !total_ssum, <- ssum_plus. apply ssum_ext. intros; ring.
Qed.

Lemma dot_times : forall m n J u p, dot m u (times n J p) = total n (fun j => dot m u (column J j) * p j).
Proof.
  intros. unfold dot, times, column. rewrite !total_ssum.
  rewrite (ssum_ext 0 m _ (fun i => ssum 0 n (fun j => u i * J i j * p j))).
  2:{ intros i Hi. rewrite total_ssum, <- ssum_scal. apply ssum_ext. intros; ring. }
  rewrite ssum_swap. apply ssum_ext. intros j Hj. rewrite total_ssum, <- ssum_scal_r. reflexivity.
Qed.

Lemma sqlen_plus : forall m u v, sqlen m (fun i => u i + v i) = sqlen m u + 2 * dot m u v + sqlen m v.
Proof.
  intros. unfold sqlen, dot. rewrite !total_ssum.
  rewrite (ssum_ext 0 m _ (fun i => u i * u i + (2 * (u i * v i) + v i * v i))) by (intros; ring).
  rewrite !ssum_plus, ssum_scal. ring.
Qed.

Lemma sqlen_nonneg : forall m v, 0 <= sqlen m v.
Proof. intros. unfold sqlen, dot. rewrite total_ssum. apply ssum_sq_nonneg. Qed.

Lemma sqlen_ext : forall m u v, (forall i, (i < m)%nat -> u i = v i) -> sqlen m u = sqlen m v.
Proof. intros m u v H. unfold sqlen, dot. apply total_ext. intros i Hi. now rewrite H. Qed.

Lemma times_opp : forall n J p i, times n J (fun k => - p k) i = - times n J p i.
Proof.
  intros. unfold times. rewrite !total_ssum. replace (- ssum 0 n (fun j => J i j * p j)) with ((-1) * ssum 0 n (fun j => J i j * p j)) by ring.
  rewrite <- ssum_scal. apply ssum_ext. intros; ring.
Qed.

Lemma times_minus : forall n J p q i, times n J (fun k => p k - q k) i = times n J p i - times n J q i.
Proof. intros. unfold times. rewrite !total_ssum, <- ssum_minus. apply ssum_ext. intros; ring. Qed.

Lemma times_plus : forall n J p q i, times n J (fun k => p k + q k) i = times n J p i + times n J q i.
Proof. intros. unfold times. rewrite !total_ssum, <- ssum_plus. apply ssum_ext. intros; ring. Qed.

(** the residual is orthogonal to the columns *)
Lemma normal_residual : forall m n J f x,
  (forall l, (l < n)%nat -> total n (fun k => gram m J l k * x k) = dot m (column J l) f) ->
  forall l, (l < n)%nat -> dot m (column J l) (fun i => f i + times n J (fun k => - x k) i) = 0.
Proof.
  intros m n J f x H l Hl. rewrite dot_plus_r, dot_times. rewrite <- (H l Hl).
  rewrite !total_ssum, <- ssum_plus. apply ssum_0. intros k Hk. unfold gram. ring.
Qed.

Lemma orthogonal_least : forall m n J f p,
  (forall l, (l < n)%nat -> dot m (column J l) (fun i => f i + times n J p i) = 0) -> least_squares m n J f p.
Proof.
  intros m n J f p H z.
  rewrite (sqlen_ext m (fun i => f i + times n J z i) (fun i => (f i + times n J p i) + times n J (fun k => z k - p k) i)).
  2:{ intros i _. rewrite times_minus. ring. }
  set (e := fun i => f i + times n J p i) in *.
  change (fun i => f i + times n J p i + times n J (fun k => z k - p k) i)
    with (fun i => e i + times n J (fun k => z k - p k) i).
  rewrite (sqlen_plus m e), dot_times.
  replace (total n _) with 0.
  - pose proof (sqlen_nonneg m (times n J (fun k => z k - p k))). lra.
  - symmetry. rewrite total_ssum. apply ssum_0. intros j Hj. rewrite dot_sym, H by lia. ring.
Qed.

Lemma normal_least : forall m n J f x,
  (forall l, (l < n)%nat -> total n (fun k => gram m J l k * x k) = dot m (column J l) f) ->
  least_squares m n J f (fun k => - x k).
Proof. intros m n J f x H. apply orthogonal_least. now apply normal_residual. Qed.

(** what the step takes off the squared length of the linearised residual *)
Lemma lm_reduction : forall m n J f diag par x, lm_equations m n J f diag par x ->
  sqlen m f - sqlen m (fun i => f i + times n J (fun k => - x k) i) =
  sqlen m (times n J x) + 2 * par * sqlen n (fun k => diag k * x k).
Proof.
  intros m n J f diag par x H. rewrite sqlen_plus.
  rewrite (sqlen_ext m (times n J (fun k => - x k)) (fun i => (-1) * times n J x i)) by (intros; rewrite times_opp; ring).
  replace (sqlen m (fun i => -1 * times n J x i)) with (sqlen m (times n J x)).
  2:{ unfold sqlen, dot. apply total_ext. intros; ring. }
  assert (dot m f (times n J x) = sqlen m (times n J x) + par * sqlen n (fun k => diag k * x k)) as D.
  { rewrite dot_times. unfold sqlen at 2, dot at 2. rewrite !total_ssum, <- ssum_scal.
    unfold sqlen. rewrite dot_times, total_ssum, <- ssum_plus. apply ssum_ext. intros l Hl.
    rewrite dot_sym, <- (H l) by lia. rewrite (dot_sym m (times n J x)), dot_times. unfold gram.
    rewrite !total_ssum. ring. }
  replace (dot m f (times n J (fun k => - x k))) with (- dot m f (times n J x)).
  2:{ rewrite !dot_times, !total_ssum. replace (- ssum 0 n (fun j => dot m f (column J j) * x j)) with ((-1) * ssum 0 n (fun j => dot m f (column J j) * x j)) by ring.
      rewrite <- ssum_scal. apply ssum_ext. intros; ring. }
  rewrite D. ring.
Qed.
