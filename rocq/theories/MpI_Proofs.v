(** The Stokes I fit with its fitter: proofs. *)
From Coq Require Import Reals List Arith ZArith Bool Lra Lia Psatz.
Set Warnings "-ambiguous-paths".
From Coquelicot Require Import Coquelicot.
From Verif Require Run1D_Proofs.
From Verif Require Import PyRes CBase PyList StokesI_Model StokesI_Spec StokesI_Proofs StokesI_Fit
  Mp_Model Mp_Spec Mp_Sums Mp_QR Mp_Solve Mp_Step Mp_Covar Mp_Run Mp_Fit Mp_Linear Mp_Exact MpI_Model MpI_Spec.
Import ListNotations.
Local Open Scope R_scope.

Lemma total_list : forall {A} (l : list A) (d : A) (F : A -> R), total (length l) (fun i => F (nth i l d)) = rsum (map F l).
Proof.
  intros A l d F. unfold total. f_equal. induction l as [|a l IH]; [reflexivity|].
  cbn [length]. rewrite <- cons_seq, <- seq_shift. cbn [map]. rewrite map_map. cbn [nth]. now rewrite IH.
Qed.

Lemma with_errors_len : forall g, length (with_errors g) = length g.
Proof. intros g. unfold with_errors. destruct (forallb _ g); auto. now rewrite map_length. Qed.

Lemma with_errors_fst : forall g i, fst (nth i (with_errors g) (0, 0, 0)) = fst (nth i g (0, 0, 0)).
Proof.
  intros g i. unfold with_errors. destruct (forallb _ g); auto.
  destruct (lt_dec i (length g)) as [L|L].
  - rewrite (nth_indep (map _ g) _ ((fun t : R * R * R => (fst t, 1)) (0, 0, 0))) by (rewrite map_length; auto). rewrite (map_nth (fun t : R * R * R => (fst t, 1))). reflexivity.
  - rewrite !nth_overflow; auto; rewrite ?map_length; lia.
Qed.

Lemma question_x : forall g o ff i, (i < length g)%nat ->
  nth i (in_x (fit_question g o ff)) 0 = fst (fst (nth i (with_errors g) (0, 0, 0))) / fit_ref g.
Proof.
  intros g o ff i Hi. rewrite with_errors_fst. cbn [fit_question in_x].
  rewrite (nth_indep _ 0 ((fun t : R * R * R => fst (fst t) / fit_ref g) (0, 0, 0))) by (rewrite map_length; auto).
  now rewrite (map_nth (fun t : R * R * R => fst (fst t) / fit_ref g)).
Qed.

Lemma question_y : forall g o ff i, (i < length g)%nat ->
  nth i (in_y (fit_question g o ff)) 0 = snd (fst (nth i (with_errors g) (0, 0, 0))).
Proof.
  intros g o ff i Hi. rewrite with_errors_fst. cbn [fit_question in_y].
  rewrite (nth_indep _ 0 ((fun t : R * R * R => snd (fst t)) (0, 0, 0))) by (rewrite map_length; auto).
  now rewrite (map_nth (fun t : R * R * R => snd (fst t))).
Qed.

Lemma forallb_map_snd : forall g : list (R * R * R),
  forallb (fun d => if Req_EM_T d 0 then true else false) (map snd g) =
  forallb (fun t => if Req_EM_T (snd t) 0 then true else false) g.
Proof. induction g as [|a g IH]; [reflexivity|]. cbn [map forallb]. now rewrite IH. Qed.

Lemma question_dy_list : forall g o ff, in_dy (fit_question g o ff) = map snd (with_errors g).
Proof.
  intros g o ff. cbn [fit_question in_dy]. rewrite forallb_map_snd. unfold with_errors. destruct (forallb _ g); auto.
  now rewrite !map_map.
Qed.

Lemma question_dy : forall g o ff i, (i < length g)%nat ->
  nth i (in_dy (fit_question g o ff)) 0 = snd (nth i (with_errors g) (0, 0, 0)).
Proof.
  intros g o ff i Hi. rewrite question_dy_list.
  rewrite (nth_indep _ 0 (snd (0, 0, 0))) by (rewrite map_length, with_errors_len; auto). now rewrite map_nth.
Qed.

Lemma question_usable : forall g o ff, (forall t, In t (with_errors g) -> snd t <> 0) ->
  existsb (fun d => if Req_EM_T d 0 then true else false) (in_dy (fit_question g o ff)) = false.
Proof.
  intros g o ff H. rewrite question_dy_list. destruct (existsb _ _) eqn:E; auto. exfalso.
  apply existsb_exists in E. destruct E as (d & Hd & Ed). apply in_map_iff in Hd. destruct Hd as (t & <- & Ht).
  destruct (Req_EM_T (snd t) 0) as [Z|]; [|discriminate]. now apply (H t).
Qed.

Lemma question_len : forall g o ff, length (in_x (fit_question g o ff)) = length g.
Proof. intros. cbn [fit_question in_x]. apply map_length. Qed.

(** the parameters left free *)
Lemma free_question : forall g o ff, (0 <= o)%Z ->
  let d := Z.to_nat (Z.min o 5) in
  free_params (in_fixed (fit_question g o ff)) = seq (5 - d) (S d) /\ (d <= 5)%nat.
Proof.
  intros g o ff Ho d. cbn [fit_question in_fixed].
  assert (Z.min o 5 = Z.of_nat d) as E by (unfold d; lia). rewrite E.
  assert (d <= 5)%nat as Hd by (unfold d; lia). split; auto. clearbody d. clear - Hd.
  do 6 (destruct d as [|d]; [reflexivity|]). lia.
Qed.

Definition eval (ff : fit_fun) (p : list R) (ref f : R) : R :=
  match ff with Log => log_model p ref f | _ => lin_model p ref f end.

Lemma errFn_eval : forall g o ff p i, (i < length g)%nat ->
  errFn (fit_question g o ff) p i =
  let t := nth i (with_errors g) (0, 0, 0) in
  (eval ff (map p (seq 0 6)) (fit_ref g) (fst (fst t)) - snd (fst t)) / snd t.
Proof.
  intros g o ff p i Hi. unfold errFn. rewrite question_x, question_y, question_dy by auto. cbv zeta.
  cbn [fit_question in_fun]. unfold eval. destruct ff; now rewrite ?poly5_lin, ?power_log.
Qed.

Lemma chi2_misfit : forall g o ff p,
  chi2 (length g) (errFn (fit_question g o ff)) p = misfit (with_errors g) (eval ff (map p (seq 0 6)) (fit_ref g)).
Proof.
  intros g o ff p. unfold chi2, sqlen, dot, misfit.
  rewrite <- (total_list (with_errors g) (0, 0, 0)). rewrite with_errors_len. apply total_ext. intros i Hi.
  rewrite errFn_eval by auto. cbv zeta. ring.
Qed.

Lemma map6_ext : forall p q : nat -> R, (forall k, (k < 6)%nat -> p k = q k) -> map p (seq 0 6) = map q (seq 0 6).
Proof. intros p q H. apply map_ext_in. intros k Hk. apply in_seq in Hk. apply H. lia. Qed.

Lemma errFn_reads : forall q m, reads 6 m (errFn q).
Proof. intros q m p p' H i Hi. unfold errFn. now rewrite (map6_ext p p' H). Qed.

(** a constant spectrum *)
Lemma eval_start : forall ff ref f g o, eval ff (map (start_values (fit_question g o ff)) (seq 0 6)) ref f = mean_I g.
Proof.
  intros ff ref f g o. unfold eval, lin_model, log_model, start_values. cbn [fit_question in_start seq map Nat.eqb]. fold (mean_I g).
  destruct ff; rewrite ?rsum_cons, ?rsum_nil; cbn [nth Nat.sub].
  - ring.
  - rewrite !Rmult_0_l, !Rplus_0_l, Rpower_O by lra. ring.
  - ring.
Qed.

Lemma free_nodup : forall d, NoDup (seq (5 - d) (S d)).
Proof. intros. apply seq_NoDup. Qed.

(** what the fitter is asked and answers *)
Lemma code_inv : forall fuel g o ff mp, (0 <= o)%Z -> (forall t, In t (with_errors g) -> snd t <> 0) ->
  mpfit_code fuel (fun _ => PErr) (fit_question g o ff) = POk mp ->
  let d := Z.to_nat (Z.min o 5) in
  exists out, mpfit fuel (errFn (fit_question g o ff)) 6 (length g) (seq (5 - d) (S d)) (start_values (fit_question g o ff)) = Some (POk out) /\
    mp = mk_mp (map (o_params out) (seq 0 6)) (o_status out) (o_fnorm out) (o_covar out) (option_map (fun e => map e (seq 0 6)) (o_perror out)).
Proof.
  intros fuel g o ff mp Ho Us H d. unfold mpfit_code in H. rewrite question_usable in H by auto.
  rewrite question_len in H. destruct (free_question g o ff Ho) as [Fq _]. rewrite Fq in H. fold d in H.
  destruct (mpfit _ _ _ _ _ _) as [[out|]|]; [|discriminate|discriminate]. injection H as <-. exists out. auto.
Qed.

Lemma in_free : forall d k, (d <= 5)%nat -> ~ In k (seq (5 - d) (S d)) -> (k < 6)%nat -> (k < 5 - d)%nat.
Proof. intros d k Hd H Hk. rewrite in_seq in H. lia. Qed.

Lemma fit_errors : forall mpfit freq I dI po ff r,
  length I = length freq -> length dI = length freq -> ff <> OtherFun ->
  fit_StokesI_model mpfit freq I dI po ff = POk r ->
  forall mp, mpfit (fit_question (finite_chans freq I dI) (polyOrd r) ff) = POk mp ->
  perror r = match mp_perror mp with Some e => map Some e | None => map (fun _ => Some 0) (mp_params mp) end.
Proof.
  intros mpfit freq I dI po ff r HI HD E H mp' Hmp'.
  unfold fit_StokesI_model in H. rewrite good_chans_spec in H by auto.
  remember (finite_chans freq I dI) as g eqn:G. destruct g as [|g0 gt]; [discriminate|].
  set (g := g0 :: gt) in *. rewrite rmean_inv in H.
  destruct (Z.ltb_spec po 0) as [Hn|Hn].
  - set (fit := fun o => fit_spec_poly5 mpfit (map (fun f => f / fit_ref g) (map (fun t => fst (fst t)) g))
         (map (fun t => snd (fst t)) g) (map (fun t => snd t) g) o ff) in H.
    assert (FA : forall o, (0 <= o)%Z -> fit o = mpfit (fit_question g o ff)) by (intros; now apply fit_asks).
    change (fit_spec_poly5 mpfit (map (fun f => f / fit_ref g) (map (fun t => fst (fst t)) g))
         (map (fun t => snd (fst t)) g) (map (fun t => snd t) g) 0 ff) with (fit 0%Z) in H.
    destruct (fit 0%Z) as [mp0|] eqn:E0; [|discriminate]. cbn [pybind] in H.
    destruct (order_loop fit _ 1 mp0 _) as [[[mp b] k]|] eqn:EL; [|discriminate]. cbn [pybind] in H.
    apply order_loop_spec in EL; [|lia|exact E0|unfold aic_of; change (1 - 1)%Z with 0%Z; lra].
    destruct EL as (K & F & _). injection H as <-. cbn [polyOrd perror] in *.
    rewrite <- FA, F in Hmp' by lia. now injection Hmp' as <-.
  - rewrite fit_asks in H by auto. destruct (mpfit (fit_question g po ff)) as [mp|] eqn:EM; [|discriminate].
    cbn [pybind] in H. injection H as <-. cbn [polyOrd perror] in *. rewrite EM in Hmp'. now injection Hmp' as <-.
Qed.

(** ---------- the fit is never worse than a constant *)

Theorem stokes_fit : forall fuel freq I dI po ff r,
  length I = length freq -> length dI = length freq -> ff <> OtherFun ->
  let g := finite_chans freq I dI in let h := with_errors g in
  (forall t, In t h -> snd t <> 0) ->
  (forall rest, fit_StokesI_model (mpfit_code fuel rest) freq I dI po ff = POk r) ->
  (Z.min (polyOrd r) 5 < Z.of_nat (length g))%Z ->
  misfit h (model_at r) <= misfit h (fun _ => mean_I g) /\
  misfit h (model_at r) <= chiSq r /\
  (fitStatus r = 4%Z -> misfit h (model_at r) = chiSq r) /\
  (forall k, (k < 5)%nat -> (polyOrd r < Z.of_nat (5 - k))%Z -> nth k (params r) 0 = 0) /\
  length (params r) = 6%nat /\ (1 <= fitStatus r <= 8)%Z /\
  exists cov err, pcov r = Some cov /\ perror r = map Some err /\ length err = 6%nat /\
    (forall k, (k < 6)%nat -> 0 <= cov k k -> nth k err 0 * nth k err 0 = cov k k).
Proof.
  intros fuel freq I dI po ff r L1 L2 F g h Us H Few.
  specialize (H (fun _ => PErr)).
  destruct (fit_order_selection _ freq I dI po ff r L1 L2 F H) as (mp & Hmp & Pa & Ch & _ & St & Cv & Rf & Ff & P1 & P2).
  fold g in Hmp, Rf, P2.
  assert (0 <= polyOrd r)%Z as Ho by (destruct (Z_lt_le_dec po 0) as [N|N]; [destruct (P2 N); lia|rewrite (P1 N); lia]).
  set (d := Z.to_nat (Z.min (polyOrd r) 5)).
  destruct (code_inv fuel g (polyOrd r) ff mp Ho Us Hmp) as (out & Hout & Emp). fold d in Hout.
  assert (d <= 5)%nat as Hd by (unfold d; lia).
  assert (length (seq (5 - d) (S d)) <= length g)%nat as Len by (rewrite seq_length; unfold d; lia).
  assert (seq (5 - d) (S d) <> []) as Ne by discriminate.
  set (q := fit_question g (polyOrd r) ff) in *.
  destruct (fit_result fuel (errFn q) 6 (length g) _ _ out (errFn_reads q _) (free_nodup d) Ne Len Hout) as (R1 & R2 & R3 & R4).
  destruct (fit_reported fuel (errFn q) 6 (length g) _ _ out (errFn_reads q _) (free_nodup d) Ne Len Hout) as (S1 & _ & S3).
  destruct (fit_covariance fuel (errFn q) 6 (length g) _ _ out (errFn_reads q _) (free_nodup d) Ne Len Hout) as (cov & err & Hc & He & _ & Er & _).
  assert (forall f, model_at r f = eval ff (map (o_params out) (seq 0 6)) (fit_ref g) f) as Mo.
  { intros f. unfold model_at. rewrite Ff, Rf, Pa, Emp. reflexivity. }
  assert (misfit h (model_at r) = chi2 (length g) (errFn q) (o_params out)) as Mi.
  { unfold q. rewrite chi2_misfit. unfold misfit. f_equal. apply map_ext. intros t. now rewrite Mo. }
  assert (misfit h (fun _ => mean_I g) = chi2 (length g) (errFn q) (start_values q)) as Ms.
  { unfold q. rewrite chi2_misfit. unfold misfit. f_equal. apply map_ext. intros t. now rewrite eval_start. }
  rewrite Mi, Ms, Ch, Pa, St, Cv, Emp. cbn [mp_fnorm mp_params mp_status mp_covar].
  split; [auto|]. split; [auto|]. split; [|split; [|split; [|split]]].
  - intros E. symmetry. apply S3. lia.
  - intros k Hk Hp. rewrite (nth_indep _ 0 (o_params out 0%nat)) by (rewrite map_length, seq_length; lia).
    rewrite map_nth, seq_nth by lia. rewrite R2.
    + unfold start_values. destruct (Nat.eqb_spec (0 + k) 5); [lia|auto].
    + rewrite in_seq. unfold d. lia.
  - now rewrite map_length, seq_length.
  - rewrite Z.abs_eq; lia.
  - exists cov, (map err (seq 0 6)). split; [auto|]. split; [|split].
    + rewrite (fit_errors _ freq I dI po ff r L1 L2 F H mp Hmp), Emp. cbn [mp_perror]. now rewrite He.
    + now rewrite map_length, seq_length.
    + intros k Hk Hck. rewrite (nth_indep _ 0 (err 0%nat)) by (rewrite map_length, seq_length; lia).
      rewrite map_nth, seq_nth by lia. auto.
Qed.

(** ---------- it ends *)

Lemma in_nth_error : forall (h : list (R * R * R)) i, (i < length h)%nat -> In (nth i h (0, 0, 0)) h.
Proof. intros. now apply nth_In. Qed.

Lemma misfit_const : forall h c, (forall t, In t h -> snd t <> 0) ->
  misfit h (fun _ => c) = c ^ 2 * weight_sum h - 2 * c * rsum (map (fun t => snd (fst t) / snd t ^ 2) h)
                          + rsum (map (fun t => snd (fst t) ^ 2 / snd t ^ 2) h).
Proof.
  intros h c. unfold misfit, weight_sum. induction h as [|t h IH]; intros Us.
  - cbn [map]. rewrite !rsum_nil. ring.
  - cbn [map]. rewrite !rsum_cons, IH by (intros u Hu; apply Us; now right). field. apply Us. now left.
Qed.

Lemma eval_zero : forall ff (p : nat -> R) ref f, (forall k, (k < 6)%nat -> p k = 0) -> eval ff (map p (seq 0 6)) ref f = 0.
Proof.
  intros ff p ref f H. unfold eval, lin_model, log_model. cbn [seq map nth]. rewrite !H by lia.
  destruct ff; rewrite ?rsum_cons, ?rsum_nil; cbn [nth]; ring.
Qed.

Lemma code_ends : forall g o ff, (0 <= o)%Z -> g <> [] -> (forall t, In t (with_errors g) -> snd t <> 0) ->
  mean_I g <> 0 -> mean_I g ^ 2 * weight_sum (with_errors g) <= 2 * mean_I g * rsum (map (fun t => snd (fst t) / snd t ^ 2) (with_errors g)) ->
  exists N mp, forall fuel rest, (N <= fuel)%nat -> mpfit_code fuel rest (fit_question g o ff) = POk mp.
Proof.
  intros g o ff Ho Ng Us Mn Ws. set (q := fit_question g o ff). set (d := Z.to_nat (Z.min o 5)).
  destruct (free_question g o ff Ho) as [Fq Hd]. fold d in Fq, Hd. fold q in Fq.
  destruct (fit_ends (errFn q) 6 (length g) (seq (5 - d) (S d)) (start_values q) (errFn_reads q _) (free_nodup d)) as (N & res & Hres).
  - intros p Hp Hf. unfold q. rewrite !chi2_misfit.
    assert (misfit (with_errors g) (eval ff (map (start_values (fit_question g o ff)) (seq 0 6)) (fit_ref g)) = misfit (with_errors g) (fun _ => mean_I g)) as ->.
    { unfold misfit. f_equal. apply map_ext. intros t. now rewrite eval_start. }
    assert (misfit (with_errors g) (eval ff (map p (seq 0 6)) (fit_ref g)) = misfit (with_errors g) (fun _ => 0)) as ->.
    { unfold misfit. f_equal. apply map_ext. intros t. rewrite eval_zero; auto. intros k Hk.
      destruct (in_dec Nat.eq_dec k (seq (5 - d) (S d))) as [Ik|Ik]; [auto|]. rewrite Hf by auto.
      unfold start_values. destruct (Nat.eqb_spec k 5) as [->|]; auto. exfalso. apply Ik. apply in_seq. lia. }
    rewrite !misfit_const by auto. lra.
  - exists 5%nat. split; [apply in_seq; lia|]. unfold start_values. cbn. exact Mn.
  - destruct res as [out|].
    + exists N. eexists. intros fuel rest Hf. unfold mpfit_code. fold q.
      unfold q. rewrite question_usable by auto. rewrite question_len. fold q. rewrite Fq, Hres by auto. reflexivity.
    + exfalso. specialize (Hres N (le_n N)). unfold mpfit in Hres. cbn [seq] in Hres.
      destruct (Nat.ltb _ _) in Hres; [discriminate|]. cbv zeta in Hres.
      destruct (outer _ _ _ _ _ _ _ _) as [[[? ?] ?]|] in Hres; discriminate.
Qed.

(** a finite number of fits *)
Lemma many_end : forall (P : nat -> nat -> Prop) n, (forall o, (o < n)%nat -> exists N, forall k, (N <= k)%nat -> P o k) ->
  exists N, forall o k, (o < n)%nat -> (N <= k)%nat -> P o k.
Proof.
  intros P n. induction n as [|n IH]; intros H.
  - exists 0%nat. intros. lia.
  - destruct IH as (N & HN); [intros o Ho; apply H; lia|]. destruct (H n) as (M & HM); [lia|].
    exists (max N M). intros o k Ho Hk. destruct (Nat.eq_dec o n) as [->|]; [apply HM; lia|apply HN; lia].
Qed.

Lemma order_loop_ext : forall fit fit' rem cur mp a, (forall o, (cur <= o < cur + Z.of_nat rem)%Z -> fit o = fit' o) ->
  order_loop fit rem cur mp a = order_loop fit' rem cur mp a.
Proof.
  intros fit fit' rem. induction rem as [|rem IH]; intros cur mp a H; [reflexivity|].
  cbn [order_loop]. rewrite H by lia. destruct (fit' cur) as [nm|]; [|reflexivity]. cbn [pybind].
  destruct (Rlt_dec _ _); [|reflexivity]. apply IH. intros o Ho. apply H. lia.
Qed.

Lemma fit_ext : forall fit fit' freq I dI po ff, length I = length freq -> length dI = length freq -> ff <> OtherFun ->
  (forall o, (0 <= o <= Z.max po (- po))%Z -> fit (fit_question (finite_chans freq I dI) o ff) = fit' (fit_question (finite_chans freq I dI) o ff)) ->
  fit_StokesI_model fit freq I dI po ff = fit_StokesI_model fit' freq I dI po ff.
Proof.
  intros fit fit' freq I dI po ff HI HD E H.
  unfold fit_StokesI_model. rewrite good_chans_spec by auto.
  remember (finite_chans freq I dI) as g eqn:G. destruct g as [|g0 gt]; [reflexivity|].
  set (g := g0 :: gt) in *. rewrite rmean_inv. cbv zeta.
  destruct (Z.ltb_spec po 0) as [Hn|Hn].
  - rewrite !fit_asks by (auto; lia). rewrite H by lia. destruct (fit' _) as [mp|]; [|reflexivity]. cbn [pybind].
    rewrite (order_loop_ext _ (fun o => fit_spec_poly5 fit' (map (fun f => f / fit_ref g) (map (fun t => fst (fst t)) g))
         (map (fun t => snd (fst t)) g) (map (fun t => snd t) g) o ff)); [reflexivity|].
    intros o Ho. rewrite !fit_asks by (auto; lia). apply H. lia.
  - rewrite !fit_asks by auto. rewrite H by lia. reflexivity.
Qed.

Theorem stokes_fit_ends : forall freq I dI po ff,
  length I = length freq -> length dI = length freq -> ff <> OtherFun ->
  let g := finite_chans freq I dI in let h := with_errors g in
  g <> [] -> (forall t, In t h -> snd t <> 0) ->
  mean_I g <> 0 -> 1 / 2 <= weighted_mean h / mean_I g ->
  exists N r, forall fuel rest, (N <= fuel)%nat -> fit_StokesI_model (mpfit_code fuel rest) freq I dI po ff = POk r.
Proof.
  intros freq I dI po ff L1 L2 F g h Ng Us Mn Half.
  assert (0 < weight_sum h) as Wp.
  { unfold weight_sum. assert (h <> []) as Nh by (intros E; apply Ng; apply length_zero_iff_nil; rewrite <- with_errors_len; fold h; now rewrite E).
    clearbody h. clear - Nh Us. destruct h as [|t h]; [congruence|]. clear Nh. revert t Us. induction h as [|t' h IH]; intros t Us.
    - cbn [map]. rewrite rsum_cons, rsum_nil. assert (0 < snd t ^ 2) by (apply sq_pos, Us; now left).
      assert (0 < 1 / snd t ^ 2) by (apply Rdiv_lt_0_compat; lra). lra.
    - cbn [map]. rewrite rsum_cons. assert (0 < snd t ^ 2) by (apply sq_pos, Us; now left).
      assert (0 < 1 / snd t ^ 2) by (apply Rdiv_lt_0_compat; lra).
      specialize (IH t' (fun u Hu => Us u (or_intror Hu))). cbn [map] in IH. lra. }
  assert (mean_I g ^ 2 * weight_sum h <= 2 * mean_I g * rsum (map (fun t => snd (fst t) / snd t ^ 2) h)) as Ws.
  { unfold weighted_mean in Half. set (W := weight_sum h) in *. set (s := rsum _) in *.
    assert (0 < mean_I g ^ 2) as M2 by (now apply sq_pos).
    assert (0 < mean_I g ^ 2 * W) as MW by (apply Rmult_lt_0_compat; auto).
    apply Rmult_le_compat_r with (r := 2 * (mean_I g ^ 2 * W)) in Half; [|lra].
    replace (s / W / mean_I g * (2 * (mean_I g ^ 2 * W))) with (2 * mean_I g * s) in Half by (field; lra). lra. }
  assert (forall o, (0 <= o)%Z -> exists N mp, forall fuel rest, (N <= fuel)%nat -> mpfit_code fuel rest (fit_question g o ff) = POk mp) as Each
    by (intros o Ho; now apply code_ends).
  set (n := S (Z.to_nat (Z.max po (- po)))).
  destruct (many_end (fun o k => exists mp, forall fuel rest, (k <= fuel)%nat -> mpfit_code fuel rest (fit_question g (Z.of_nat o) ff) = POk mp) n) as (N & HN).
  { intros o Ho. destruct (Each (Z.of_nat o)) as (N & mp & HN); [lia|]. exists N. intros k Hk. exists mp. intros. apply HN. lia. }
  set (rest0 := fun _ : mpin => POk (mk_mp [] 0 0 None None)).
  assert (forall o, (0 <= o <= Z.max po (- po))%Z -> exists mp, forall fuel rest, (N <= fuel)%nat -> mpfit_code fuel rest (fit_question g o ff) = POk mp) as All.
  { intros o Ho. destruct (HN (Z.to_nat o) N) as (mp & Hmp); [unfold n; lia|lia|]. exists mp. rewrite Z2Nat.id in Hmp by lia. auto. }
  (* a fitter that always answers *)
  set (tot := fun q => match mpfit_code N rest0 q with POk mp => POk mp | PErr => rest0 q end).
  destruct (fit_total tot freq I dI po ff L1 L2 F) as (r & Hr).
  { intros q. unfold tot. destruct (mpfit_code N rest0 q) as [mp|]; [now exists mp|]. eexists. reflexivity. }
  { exact Ng. }
  exists N, r. intros fuel rest Hf. rewrite <- Hr. apply fit_ext; auto.
  intros o Ho. fold g. destruct (All o Ho) as (mp & Hmp). rewrite Hmp by auto. unfold tot. rewrite Hmp by auto. reflexivity.
Qed.

(** a fit of given order *)
Lemma fit_order : forall mpfit freq I dI po ff mp, length I = length freq -> length dI = length freq -> ff <> OtherFun ->
  finite_chans freq I dI <> [] -> (0 <= po)%Z -> mpfit (fit_question (finite_chans freq I dI) po ff) = POk mp ->
  fit_StokesI_model mpfit freq I dI po ff =
  let df := (Z.of_nat (length freq) - po - 1)%Z in
  POk (mk_fit (mp_params mp) (Z.abs (mp_status mp)) (mp_fnorm mp)
         (if (df =? 0)%Z then None else Some (mp_fnorm mp / IZR df)) (2 * (IZR po + 1) + mp_fnorm mp) po
         (fit_ref (finite_chans freq I dI)) df (mp_covar mp)
         (match mp_perror mp with Some e => map Some e | None => map (fun _ => Some 0) (mp_params mp) end) ff).
Proof.
  intros mpfit freq I dI po ff mp L1 L2 F Ng Ho E.
  unfold fit_StokesI_model. rewrite good_chans_spec by auto. remember (finite_chans freq I dI) as g eqn:G.
  destruct g as [|g0 gt]; [congruence|]. set (g := g0 :: gt) in *. rewrite rmean_inv.
  destruct (Z.ltb_spec po 0) as [N|_]; [lia|]. rewrite fit_asks by auto. rewrite E. reflexivity.
Qed.

(** ---------- fewer channels than coefficients *)

Theorem stokes_fit_few : forall fuel rest freq I dI po ff,
  length I = length freq -> length dI = length freq -> ff <> OtherFun ->
  let g := finite_chans freq I dI in
  g <> [] -> (forall t, In t (with_errors g) -> snd t <> 0) -> (0 <= po)%Z ->
  (Z.of_nat (length g) <= Z.min po 5)%Z ->
  exists r, fit_StokesI_model (mpfit_code fuel rest) freq I dI po ff = POk r /\
    params r = [0; 0; 0; 0; 0; mean_I g] /\ chiSq r = -1 /\ fitStatus r = 0%Z /\ pcov r = None /\
    forall new, renormalize_StokesI_model r new = PErr.
Proof.
  intros fuel rest freq I dI po ff L1 L2 F g Ng Us Ho Few.
  set (q := fit_question g po ff). set (d := Z.to_nat (Z.min po 5)).
  destruct (free_question g po ff Ho) as [Fq Hd]. fold d in Fq, Hd. fold q in Fq.
  assert (mpfit_code fuel rest q = POk (mk_mp (map (start_values q) (seq 0 6)) 0 (-1) None None)) as E.
  { unfold mpfit_code. unfold q at 1. rewrite question_usable by auto. unfold q at 2. rewrite question_len, Fq.
    unfold mpfit. rewrite seq_length. destruct (Nat.ltb_spec (length g) (S d)) as [_|N]; [|unfold d in N; lia].
    cbn [seq]. reflexivity. }
  eexists. split; [apply (fit_order _ freq I dI po ff _ L1 L2 F Ng Ho E)|]. cbn [params chiSq fitStatus pcov mp_params mp_fnorm mp_status mp_covar Z.abs].
  split; [reflexivity|]. split; [reflexivity|]. split; [reflexivity|]. split; [reflexivity|].
  intros new. unfold renormalize_StokesI_model. cbn [params seq map pcov]. destruct (fit_function _); reflexivity.
Qed.

(** ---------- fits that are linear in the free coefficients *)

Definition acoef (g : list (R * R * R)) : mat := fun i k => design (with_errors g) (fit_ref g) 5 i k.

Lemma lin_linear : forall g o d, linear_in 6 (length g) (seq (5 - d) (S d)) (start_values (fit_question g o Linear))
  (errFn (fit_question g o Linear)) (acoef g) (fun i => let t := nth i (with_errors g) (0, 0, 0) in - snd (fst t) / snd t).
Proof.
  intros g o d. split; [apply errFn_reads|]. intros p _ i Hi. rewrite errFn_eval by auto. cbv zeta.
  unfold eval, lin_model, acoef, design, total. cbn [seq map nth Nat.sub]. rewrite !rsum_cons, !rsum_nil.
  set (t := nth i (with_errors g) (0, 0, 0)). unfold Rdiv. ring.
Qed.

Lemma const_linear : forall g o ff, linear_in 6 (length g) (seq 5 1) (start_values (fit_question g o ff))
  (errFn (fit_question g o ff)) (acoef g) (fun i => let t := nth i (with_errors g) (0, 0, 0) in - snd (fst t) / snd t).
Proof.
  intros g o ff. split; [apply errFn_reads|]. intros p Hp i Hi. rewrite errFn_eval by auto. cbv zeta.
  assert (forall k, (k < 5)%nat -> p k = 0) as Z.
  { intros k Hk. rewrite Hp by (rewrite in_seq; lia). unfold start_values. destruct (Nat.eqb_spec k 5); [lia|auto]. }
  unfold acoef, design, total. cbn [seq map nth Nat.sub]. rewrite !rsum_cons, !rsum_nil. rewrite !Z by lia.
  set (t := nth i (with_errors g) (0, 0, 0)).
  assert (eval ff [0; 0; 0; 0; 0; p 5%nat] (fit_ref g) (fst (fst t)) = p 5%nat) as ->.
  { unfold eval, lin_model, log_model. cbn [seq map]. rewrite !rsum_cons, !rsum_nil. cbn [nth Nat.sub].
    destruct ff; [ring| |ring]. replace (0 * _ + _) with 0 by ring. rewrite Rpower_O by lra. ring. }
  unfold Rdiv. ring.
Qed.

Lemma gram_const : forall g, (forall t, In t (with_errors g) -> snd t <> 0) ->
  gram (length g) (fun i j => acoef g i (nth j (seq 5 1) 0%nat)) 0 0 = weight_sum (with_errors g).
Proof.
  intros g Us. unfold gram, dot, column, weight_sum. rewrite <- (total_list (with_errors g) (0, 0, 0)).
  rewrite with_errors_len. apply total_ext. intros i Hi. cbn [seq nth]. unfold acoef, design. cbn [Nat.sub pow].
  field. apply Us, nth_In. now rewrite with_errors_len.
Qed.

Lemma weight_pos : forall h, h <> [] -> (forall t, In t h -> snd t <> 0) -> 0 < weight_sum h.
Proof.
  intros h Nh Us. unfold weight_sum. destruct h as [|t h]; [congruence|]. clear Nh. revert t Us. induction h as [|t' h IH]; intros t Us.
  - cbn [map]. rewrite rsum_cons, rsum_nil. assert (0 < snd t ^ 2) by (apply sq_pos, Us; now left).
    assert (0 < 1 / snd t ^ 2) by (apply Rdiv_lt_0_compat; lra). lra.
  - cbn [map]. rewrite rsum_cons. assert (0 < snd t ^ 2) by (apply sq_pos, Us; now left).
    assert (0 < 1 / snd t ^ 2) by (apply Rdiv_lt_0_compat; lra).
    specialize (IH t' (fun u Hu => Us u (or_intror Hu))). cbn [map] in IH. lra.
Qed.

Lemma with_errors_nil : forall g, g <> [] -> with_errors g <> [].
Proof. intros g N E. apply N, length_zero_iff_nil. rewrite <- with_errors_len. now rewrite E. Qed.

(** the gradient of a constant model *)
Lemma const_gradient : forall g o ff (p : nat -> R), (forall t, In t (with_errors g) -> snd t <> 0) -> g <> [] ->
  (forall k, (k < 5)%nat -> p k = 0) ->
  dot (length g) (column (fun i j => acoef g i (nth j (seq 5 1) 0%nat)) 0) (errFn (fit_question g o ff) p) =
  weight_sum (with_errors g) * (p 5%nat - weighted_mean (with_errors g)).
Proof.
  intros g o ff p Us Ng Hp.
  pose proof (weight_pos _ (with_errors_nil g Ng) Us) as Wp.
  unfold weighted_mean. set (W := weight_sum (with_errors g)) in *.
  replace (W * (p 5%nat - rsum (map (fun t => snd (fst t) / snd t ^ 2) (with_errors g)) / W))
    with (p 5%nat * W + -1 * rsum (map (fun t => snd (fst t) / snd t ^ 2) (with_errors g))) by (field; lra).
  unfold W, weight_sum. rewrite <- !(total_list (with_errors g) (0, 0, 0)). rewrite with_errors_len.
  unfold dot. rewrite !total_ssum, <- !ssum_scal, <- ssum_plus. apply ssum_ext. intros i Hi.
  rewrite errFn_eval by lia. cbv zeta.
  assert (map p (seq 0 6) = [0; 0; 0; 0; 0; p 5%nat]) as -> by (cbn [seq map]; now rewrite !Hp by lia).
  unfold column. cbn [seq nth]. unfold acoef, design. cbn [Nat.sub pow].
  set (t := nth i (with_errors g) (0, 0, 0)).
  assert (eval ff [0; 0; 0; 0; 0; p 5%nat] (fit_ref g) (fst (fst t)) = p 5%nat) as ->.
  { unfold eval, lin_model, log_model. cbn [seq map]. rewrite !rsum_cons, !rsum_nil. cbn [nth Nat.sub].
    destruct ff; [ring| |ring]. replace (0 * _ + _) with 0 by ring. rewrite Rpower_O by lra. ring. }
  field. apply Us, nth_In. rewrite with_errors_len. lia.
Qed.

Lemma one_independent : forall t m B, 0 <= t < 1 -> 0 < gram m B 0 0 -> independent t m 1 B.
Proof.
  intros t m B Ht Hg z k l Hk Hl Hz. assert (k = 0%nat) by lia. assert (l = 0%nat) by lia. subst.
  assert (sqlen m (times 1 B z) = gram m B 0 0) as ->.
  { unfold sqlen, gram, dot, column. apply total_ext. intros i Hi. unfold times, total. cbn [seq map]. rewrite !rsum_cons, !rsum_nil, Hz. ring. }
  assert (t ^ 2 < 1) by nra. nra.
Qed.

Theorem stokes_constant : forall fuel rest freq I dI ff,
  length I = length freq -> length dI = length freq -> ff <> OtherFun ->
  let g := finite_chans freq I dI in let h := with_errors g in
  g <> [] -> (forall t, In t h -> snd t <> 0) ->
  mean_I g <> 0 -> Rabs (weighted_mean h - mean_I g) <= 110 * Rabs (mean_I g) ->
  exists r c cov err, fit_StokesI_model (mpfit_code (S (S fuel)) rest) freq I dI 0 ff = POk r /\
    params r = [0; 0; 0; 0; 0; c] /\
    chiSq r = misfit h (fun _ => c) /\
    Rabs (c - weighted_mean h) <= / 10 ^ 10 * err * sqrt (chiSq r) /\
    pcov r = Some cov /\ cov 5%nat 5%nat = 1 / weight_sum h /\
    nth 5 (perror r) None = Some err /\ err = 1 / sqrt (weight_sum h) /\ (1 <= fitStatus r <= 8)%Z.
Proof.
  intros fuel rest freq I dI ff L1 L2 F g h Ng Us Mn Near.
  set (q := fit_question g 0 ff). set (s := seq 5 1).
  set (B := fun i j => acoef g i (nth j s 0%nat) : R). set (m := length g).
  assert (NoDup s) as Nd by apply seq_NoDup.
  assert (forall k, In k s -> (k < 6)%nat) as Rg by (intros k Hk; apply in_seq in Hk; lia).
  assert (s <> []) as Ns by discriminate.
  assert (length s <= m)%nat as Ls by (unfold m, s; rewrite seq_length; destruct g; [congruence|cbn; lia]).
  pose proof (weight_pos h (with_errors_nil g Ng) Us) as Wp. set (W := weight_sum h) in *.
  assert (gram m B 0 0 = W) as Gr by (apply gram_const; auto).
  pose proof (const_linear g 0 ff) as Lin. fold q in Lin. fold s in Lin. fold m in Lin.
  assert (machep < 1) as M1.
  { unfold machep. rewrite <- Rinv_1. apply Rinv_lt_contravar; [rewrite Rmult_1_l; apply pow_lt; lra|]. apply Rlt_pow_R1; [lra|lia]. }
  pose proof machep_pos as Mp.
  assert (independent machep m 1 B) as Ind by (apply one_independent; [lra|rewrite Gr; auto]).
  assert (forall p, least_squares m (length s) B (errFn q (start_values q)) p ->
          within_reach m (length s) B (fun j => start_values q (nth j s 0%nat)) p) as Re.
  { intros p Lp. change (length s) with 1%nat in *.
    assert (dot m (column B 0) (fun i => errFn q (start_values q) i + times 1 B p i) = 0) as G0.
    { apply (least_gradient m 1 B); [|lia]. intros z. eapply Rle_trans; [apply (Lp (fun k => p k + z k))|]. right. apply sqlen_ext. intros i Hi.
      rewrite times_plus. ring. }
    rewrite dot_plus_r in G0. unfold q, m, B, s in G0. rewrite const_gradient in G0; auto.
    2:{ intros k Hk. unfold start_values. destruct (Nat.eqb_spec k 5); [lia|auto]. }
    rewrite dot_times in G0. unfold total in G0. cbn [map] in G0. change (seq 0 1) with [0%nat] in G0. cbn [map] in G0. rewrite rsum_cons, rsum_nil in G0.
    fold s in G0. fold B in G0. fold m in G0. fold (gram m B 0 0) in G0. rewrite Gr in G0. fold h in G0. fold W in G0.
    assert (start_values (fit_question g 0 ff) 5%nat = mean_I g) as Sv by reflexivity. rewrite Sv in G0.
    assert (p 0%nat = weighted_mean h - mean_I g) as Ep by nra.
    assert (forall x, scaled_length m 1 B x = sqrt W * Rabs (x 0%nat)) as Sc.
    { intros x. unfold scaled_length, sqlen, dot, total. change (seq 0 1) with [0%nat]. cbn [map]. rewrite rsum_cons, rsum_nil, Gr, Rplus_0_r.
      replace (sqrt W * x 0%nat * (sqrt W * x 0%nat)) with (Rsqr (sqrt W * x 0%nat)) by reflexivity.
      rewrite sqrt_Rsqr_abs, Rabs_mult, (Rabs_pos_eq (sqrt W)) by apply sqrt_pos. reflexivity. }
    assert (0 < sqrt W) as Sw by (now apply sqrt_lt_R0).
    unfold within_reach. rewrite !Sc, Ep. unfold s. cbn [seq nth]. unfold q. rewrite Sv. cbv zeta.
    assert (0 < Rabs (mean_I g)) by (now apply Rabs_pos_lt).
    destruct (Req_EM_T _ 0) as [Z|_]; [exfalso; nra|]. nra. }
  destruct (linear_gradient 6 m (errFn q) (acoef g) _ s (start_values q) Lin Nd Rg Ns Ls fuel Ind Re)
    as (out & Hout & Fx & St & Fn & Gd & _ & cov & err & Hc & He & _ & Er & Cv).
  change (length s) with 1%nat in *. fold B in Gd, Cv.
  assert (independent (/ 10 ^ 14) m 1 B) as I14.
  { apply one_independent; [|rewrite Gr; auto]. split; [left; apply Rinv_0_lt_compat, pow_lt; lra|].
    rewrite <- Rinv_1. apply Rinv_lt_contravar; [rewrite Rmult_1_l; apply pow_lt; lra|]. apply Rlt_pow_R1; [lra|lia]. }
  specialize (Cv I14 0%nat 0%nat ltac:(lia) ltac:(lia)). unfold total in Cv. change (seq 0 1) with [0%nat] in Cv. cbn [map nth Nat.eqb] in Cv.
  rewrite rsum_cons, rsum_nil, Gr in Cv. change (nth 0 s 0%nat) with 5%nat in Cv.
  assert (cov 5%nat 5%nat = 1 / W) as C5.
  { apply Rmult_eq_reg_l with W; [|lra]. replace (W * (1 / W)) with 1 by (field; lra). lra. }
  assert (0 < sqrt W) as Sw by (now apply sqrt_lt_R0). assert (sqrt W * sqrt W = W) as Sq by (apply sqrt_sqrt; lra).
  assert (err 5%nat = 1 / sqrt W) as E5.
  { assert (0 <= cov 5%nat 5%nat) as C0 by (rewrite C5; left; apply Rdiv_lt_0_compat; lra).
    destruct (Er 5%nat C0) as [E2 E0]. rewrite C5 in E2.
    assert (0 < 1 / sqrt W) as Dp by (apply Rdiv_lt_0_compat; lra).
    apply Rsqr_inj; [auto|lra|]. unfold Rsqr. rewrite E2. replace (1 / sqrt W * (1 / sqrt W)) with (1 / (sqrt W * sqrt W)) by (field; lra). now rewrite Sq. }
  set (c := o_params out 5%nat).
  assert (forall k, (k < 5)%nat -> o_params out k = 0) as Zk.
  { intros k Hk. rewrite Fx by (unfold s; rewrite in_seq; lia). unfold start_values. destruct (Nat.eqb_spec k 5); [lia|auto]. }
  assert (map (o_params out) (seq 0 6) = [0; 0; 0; 0; 0; c]) as Pm by (cbn [seq map]; rewrite !Zk by lia; reflexivity).
  assert (chi2 m (errFn q) (o_params out) = misfit h (fun _ => c)) as Ch.
  { unfold m, q. rewrite chi2_misfit, Pm. unfold misfit. f_equal. apply map_ext. intros t.
    assert (eval ff [0; 0; 0; 0; 0; c] (fit_ref g) (fst (fst t)) = c) as ->; auto.
    unfold eval, lin_model, log_model. cbn [seq map]. rewrite !rsum_cons, !rsum_nil. cbn [nth Nat.sub].
    destruct ff; [ring| |ring]. replace (0 * _ + _) with 0 by ring. rewrite Rpower_O by lra. ring. }
  specialize (Gd 0%nat ltac:(lia)). rewrite Gr in Gd. unfold m, B, s, q in Gd. rewrite const_gradient in Gd; auto.
  fold m in Gd. fold q in Gd. fold h in Gd. fold W in Gd. fold c in Gd. rewrite Ch in Gd.
  assert (mpfit_code (S (S fuel)) rest q = POk (mk_mp [0; 0; 0; 0; 0; c] (o_status out) (misfit h (fun _ => c)) (Some cov) (Some (map err (seq 0 6))))) as E.
  { unfold mpfit_code. unfold q at 1. rewrite question_usable by auto. unfold q at 2. rewrite question_len.
    destruct (free_question g 0 ff ltac:(lia)) as [Fq _]. change (seq (5 - Z.to_nat (Z.min 0 5)) (S (Z.to_nat (Z.min 0 5)))) with s in Fq. fold q in Fq. rewrite Fq. fold m.
    rewrite Hout, Pm, Fn, Ch, Hc, He. reflexivity. }
  eexists. exists c, cov, (err 5%nat). split; [apply (fit_order _ freq I dI 0 ff _ L1 L2 F Ng (Z.le_refl 0) E)|].
  cbn [params chiSq fitStatus pcov perror mp_params mp_fnorm mp_status mp_covar mp_perror].
  split; [reflexivity|]. split; [reflexivity|]. split; [|split; [reflexivity|split; [exact C5|split; [reflexivity|split; [exact E5|]]]]].
  - rewrite E5. rewrite Rabs_mult, (Rabs_pos_eq W) in Gd by lra.
    apply Rmult_le_reg_l with W; [auto|]. eapply Rle_trans; [exact Gd|]. right.
    set (x := sqrt (misfit _ _)). rewrite <- Sq at 2. field. lra.
  - rewrite Z.abs_eq; lia.
Qed.

(** ---------- spectra that are polynomials *)

Lemma within_reach_ext : forall m n J J' a a' b b', (forall i j, (i < m)%nat -> (j < n)%nat -> J i j = J' i j) ->
  (forall j, (j < n)%nat -> a j = a' j) -> (forall j, (j < n)%nat -> b j = b' j) ->
  within_reach m n J a b -> within_reach m n J' a' b'.
Proof.
  intros m n J J' a a' b b' HJ Ha Hb H.
  assert (forall x x', (forall j, (j < n)%nat -> x j = x' j) -> scaled_length m n J x = scaled_length m n J' x') as E.
  { intros x x' Hx. unfold scaled_length. f_equal. unfold sqlen, dot. apply total_ext. intros j Hj.
    rewrite Hx by auto. rewrite (gram_ext m J J' j j) by auto. reflexivity. }
  unfold within_reach in *. cbv zeta in *. now rewrite <- (E b b' Hb), <- (E a a' Ha).
Qed.

Lemma acoef_design : forall g d i j, (d <= 5)%nat -> (j < S d)%nat ->
  acoef g i (nth j (seq (5 - d) (S d)) 0%nat) = design (with_errors g) (fit_ref g) d i j.
Proof.
  intros g d i j Hd Hj. rewrite seq_nth by auto. unfold acoef, design. do 2 f_equal. lia.
Qed.

(** the coefficients in the order of the parameters *)
Definition six (c : nat -> R) (d k : nat) : R := if Nat.ltb k (5 - d) then 0 else c (5 - k)%nat.

Lemma six_eval : forall c d ref f, (d <= 5)%nat -> lin_model (map (six c d) (seq 0 6)) ref f = polynomial c d (f / ref).
Proof.
  intros c d ref f Hd. unfold lin_model, polynomial, total.
  do 6 (destruct d as [|d]; [unfold six; cbn [seq map nth Nat.sub Nat.ltb Nat.leb]; rewrite !rsum_cons, !rsum_nil; cbn [pow]; ring|]). lia.
Qed.

Theorem stokes_polynomial : forall fuel rest freq I dI d c tol,
  length I = length freq -> length dI = length freq -> (forall f, In f freq -> 0 < f) -> (d <= 5)%nat ->
  let g := finite_chans freq I dI in let h := with_errors g in let ref := fit_ref g in
  (forall t, In t h -> snd t <> 0) -> (d < length g)%nat ->
  (forall f i e, In (f, i, e) g -> i = polynomial c d (f / ref)) ->
  let J := design h ref d in
  independent tol (length g) (S d) J -> INR (S d) / 10 ^ 10 < tol ->
  within_reach (length g) (S d) J (last_only d (mean_I g)) (fun j => c (d - j)%nat - last_only d (mean_I g) j) ->
  exists r cov, fit_StokesI_model (mpfit_code (S (S fuel)) rest) freq I dI (Z.of_nat d) Linear = POk r /\
    (forall f, model_at r f = polynomial c d (f / ref)) /\
    (forall k, (k <= d)%nat -> nth (5 - k) (params r) 0 = c k) /\
    chiSq r = 0 /\ (1 <= fitStatus r <= 8)%Z /\ ref_freq r = ref /\ good_fit r /\
    pcov r = Some cov /\ inverse_of (S d) (gram (length g) J) (fun a b => cov (5 - d + a)%nat (5 - d + b)%nat).
Proof.
  intros fuel rest freq I dI d c tol L1 L2 Fp Hd g h ref Us Len Poly J Ind Tol Re.
  set (q := fit_question g (Z.of_nat d) Linear). set (s := seq (5 - d) (S d)).
  set (B := fun i j => acoef g i (nth j s 0%nat) : R). set (m := length g) in *.
  assert (g <> []) as Ng by (intros E; unfold m in Len; rewrite E in Len; cbn in Len; lia).
  assert (NoDup s) as Nd by apply seq_NoDup.
  assert (forall k, In k s -> (k < 6)%nat) as Rg by (intros k Hk; apply in_seq in Hk; lia).
  assert (s <> []) as Ns by discriminate.
  assert (length s = S d) as Ls by apply seq_length.
  assert (forall i j, (i < m)%nat -> (j < S d)%nat -> J i j = B i j) as JB.
  { intros i j Hi Hj. unfold B, s. now rewrite acoef_design. }
  pose proof (lin_linear g (Z.of_nat d) d) as Lin. fold q in Lin. fold s in Lin. fold m in Lin.
  assert (independent tol m (length s) B) as IB by (rewrite Ls; eapply independent_ext; [exact JB|exact Ind]).
  assert (0 < tol) as Tp.
  { apply Rle_lt_trans with (2 := Tol). apply Rmult_le_pos; [apply pos_INR|]. left. apply Rinv_0_lt_compat, pow_lt. lra. }
  set (pstar := fun k => if Nat.ltb k 6 then six c d k else start_values q k).
  assert (forall k, ~ In k s -> pstar k = start_values q k) as Off.
  { intros k Hk. unfold pstar. destruct (Nat.ltb_spec k 6) as [K|K]; auto. unfold six.
    destruct (Nat.ltb_spec k (5 - d)) as [K2|K2].
    - unfold start_values. destruct (Nat.eqb_spec k 5); [lia|auto].
    - exfalso. apply Hk. apply in_seq. lia. }
  assert (map pstar (seq 0 6) = map (six c d) (seq 0 6)) as P6.
  { apply map6_ext. intros k Hk. unfold pstar. destruct (Nat.ltb_spec k 6); [auto|lia]. }
  assert (forall i, (i < m)%nat -> errFn q pstar i = 0) as Zero.
  { intros i Hi. unfold q. rewrite errFn_eval by auto. cbv zeta. rewrite P6. unfold eval. rewrite six_eval by auto.
    rewrite with_errors_fst. assert (In (nth i g (0, 0, 0)) g) as Ig by (now apply nth_In).
    destruct (nth i g (0, 0, 0)) as [[f v] e]. cbn [fst snd]. rewrite (Poly f v e Ig). unfold ref. unfold Rdiv. ring. }
  assert (forall j, (j < S d)%nat -> nth j s 0%nat = (5 - d + j)%nat) as Ns' by (intros j Hj; unfold s; now rewrite seq_nth).
  assert (forall p, least_squares m (length s) B (errFn q (start_values q)) p ->
          within_reach m (length s) B (fun j => start_values q (nth j s 0%nat)) p) as Rea.
  { apply (exact_reachable 6 m (errFn q) (acoef g) _ s (start_values q) Lin Nd Rg ltac:(rewrite Ls; lia) tol pstar Tp IB Off Zero).
    rewrite Ls. eapply within_reach_ext; [exact JB| | |exact Re].
    - intros j Hj. rewrite Ns' by auto. unfold last_only, start_values. destruct (Nat.eqb_spec j d), (Nat.eqb_spec (5 - d + j) 5); try lia; reflexivity.
    - intros j Hj. rewrite Ns' by auto. f_equal.
      + unfold pstar, six. destruct (Nat.ltb_spec (5 - d + j) 6), (Nat.ltb_spec (5 - d + j) (5 - d)); try lia. f_equal. lia.
      + f_equal. unfold last_only, start_values. destruct (Nat.eqb_spec j d), (Nat.eqb_spec (5 - d + j) 5); try lia; reflexivity. }
  destruct (exact_fit 6 m (errFn q) (acoef g) _ s (start_values q) Lin Nd Rg Ns ltac:(rewrite Ls; lia) fuel tol pstar Rea IB ltac:(rewrite Ls; exact Tol) Off Zero)
    as (out & Hout & St & Fn & Pr & cov & err & Hc & He & _ & _ & Inv).
  assert (map (o_params out) (seq 0 6) = map (six c d) (seq 0 6)) as Pm.
  { rewrite <- P6. apply map6_ext. intros k _. apply Pr. }
  assert (mpfit_code (S (S fuel)) rest q = POk (mk_mp (map (six c d) (seq 0 6)) (o_status out) 0 (Some cov) (Some (map err (seq 0 6))))) as E.
  { unfold mpfit_code. unfold q at 1. rewrite question_usable by auto. unfold q at 2. rewrite question_len.
    destruct (free_question g (Z.of_nat d) Linear ltac:(lia)) as [Fq _].
    replace (Z.to_nat (Z.min (Z.of_nat d) 5)) with d in Fq by lia. fold s in Fq. fold q in Fq. rewrite Fq. fold m.
    rewrite Hout, Pm, Fn, Hc, He. reflexivity. }
  eexists. exists cov. split; [apply (fit_order _ freq I dI (Z.of_nat d) Linear _ L1 L2 ltac:(discriminate) Ng (Nat2Z.is_nonneg d) E)|].
  cbn [params chiSq fitStatus pcov perror ref_freq fit_function mp_params mp_fnorm mp_status mp_covar mp_perror].
  split; [|split; [|split; [reflexivity|split; [rewrite Z.abs_eq; lia|split; [reflexivity|split; [|split; [reflexivity|]]]]]]].
  - intros f. unfold model_at. cbn [fit_function params ref_freq]. now apply six_eval.
  - intros k Hk. rewrite (nth_indep _ 0 (six c d 0%nat)) by (rewrite map_length, seq_length; lia). rewrite map_nth, seq_nth by lia.
    unfold six. destruct (Nat.ltb_spec (0 + (5 - k)) (5 - d)); [lia|]. f_equal. lia.
  - split; [reflexivity|]. split; [now exists cov|]. split; [discriminate|]. apply Run1D_Proofs.fit_ref_pos; auto. now apply Run1D_Proofs.finite_chans_pos.
  - intros a b Ha Hb. rewrite Ls in Inv. rewrite <- (Inv a b Ha Hb). apply total_ext. intros k Hk. rewrite !Ns' by auto. f_equal.
    apply gram_ext; intros i Hi; now apply JB.
Qed.

(** any fit of order d that gives a known model: the fractional spectra *)
Lemma frac_of_fit : forall mpfit freq I Q U dI dQ dU po ff r M, length I = length freq -> length dI = length freq ->
  length Q = length freq -> length U = length freq -> freq <> [] ->
  fit_StokesI_model mpfit freq I dI po ff = POk r -> length (params r) = 6%nat -> fit_function r <> OtherFun ->
  finite_chans freq I dI <> [] -> (forall f, model_at r f = M f) ->
  exists q u dq du fr, create_frac_spectra mpfit freq I Q U dI dQ dU po ff None = Some (map M freq, q, u, dq, du, fr) /\
    length q = length freq /\ length u = length freq /\ params fr = params r /\ ref_freq fr = ref_freq r /\
    forall j, (j < length freq)%nat -> fraction (nth j Q None) (M (nth j freq 0)) (nth j q None) /\
                                        fraction (nth j U None) (M (nth j freq 0)) (nth j u None).
Proof.
  intros mpfit freq I Q U dI dQ dU po ff r M L1 L2 LQ LU Nf Hr P6 Fo Ng HM.
  unfold create_frac_spectra.
  assert (all_nan_fit freq I dI po ff = false) as ->.
  { unfold all_nan_fit. rewrite good_chans_spec by auto. destruct (finite_chans freq I dI); [congruence|]. destruct ff; reflexivity. }
  rewrite andb_false_r. rewrite Hr. cbn [pybind]. rewrite calc_spec by auto. cbn [pybind].
  rewrite (map_ext _ _ HM).
  destruct (map M freq) as [|m0 mt] eqn:Em; [destruct freq; [congruence|discriminate]|]. rewrite <- Em. cbv zeta.
  do 5 eexists. split; [reflexivity|].
  assert (length (map M freq) = length freq) as Lm by apply map_length.
  split; [rewrite frac_len by congruence; auto|]. split; [rewrite frac_len by congruence; auto|].
  split; [|split].
  - destruct (existsb _ (combine _ _)); destruct (existsb _ _); reflexivity.
  - destruct (existsb _ (combine _ _)); destruct (existsb _ _); reflexivity.
  - intros j Hj. assert (nth j (map M freq) 0 = M (nth j freq 0)) as <-.
    { rewrite (nth_indep (map M freq) 0 (M 0)) by (rewrite Lm; auto). now rewrite map_nth. }
    split; apply frac_nth; try congruence; now rewrite Lm.
Qed.

Theorem stokes_polynomial_fractions : forall fuel rest freq I Q U dI dQ dU d c tol,
  length I = length freq -> length dI = length freq -> length Q = length freq -> length U = length freq ->
  (forall f, In f freq -> 0 < f) -> (d <= 5)%nat ->
  let g := finite_chans freq I dI in let h := with_errors g in let ref := fit_ref g in
  (forall t, In t h -> snd t <> 0) -> (d < length g)%nat ->
  (forall f i e, In (f, i, e) g -> i = polynomial c d (f / ref)) ->
  let J := design h ref d in
  independent tol (length g) (S d) J -> INR (S d) / 10 ^ 10 < tol ->
  within_reach (length g) (S d) J (last_only d (mean_I g)) (fun j => c (d - j)%nat - last_only d (mean_I g) j) ->
  exists IMod q u dq du fr,
    create_frac_spectra (mpfit_code (S (S fuel)) rest) freq I Q U dI dQ dU (Z.of_nat d) Linear None = Some (IMod, q, u, dq, du, fr) /\
    IMod = map (fun f => polynomial c d (f / ref)) freq /\
    forall j v, (j < length freq)%nat -> nth j I None = Some v -> nth j dI None <> None -> v <> 0 ->
      nth j q None = option_map (fun x => x / v) (nth j Q None) /\ nth j u None = option_map (fun x => x / v) (nth j U None).
Proof.
  intros fuel rest freq I Q U dI dQ dU d c tol L1 L2 LQ LU Fp Hd g h ref Us Len Poly J Ind Tol Re.
  destruct (stokes_polynomial fuel rest freq I dI d c tol L1 L2 Fp Hd Us Len Poly Ind Tol Re) as (r & cov & Hr & Mo & _ & _ & _ & _ & Gf & _).
  destruct Gf as (P6 & _ & Fo & _).
  assert (g <> []) as Ng by (intros E; rewrite E in Len; cbn in Len; lia).
  assert (freq <> []) as Nf by (intros E; apply Ng; unfold g; rewrite E; reflexivity).
  destruct (frac_of_fit _ freq I Q U dI dQ dU (Z.of_nat d) Linear r _ L1 L2 LQ LU Nf Hr P6 Fo Ng Mo)
    as (q & u & dq & du & fr & E & _ & _ & _ & _ & Fr).
  exists (map (fun f => polynomial c d (f / ref)) freq), q, u, dq, du, fr. split; [exact E|]. split; [reflexivity|].
  intros j v Hj Hv He Nz. destruct (nth j dI None) as [e|] eqn:Ee; [|congruence].
  assert (In (nth j freq 0, v, e) g) as Ig.
  { unfold g, finite_chans. apply in_flat_map. exists j. split; [apply in_seq; lia|]. rewrite Hv, Ee. now left. }
  destruct (Fr j Hj) as [FQ FU].
  change (fraction (nth j Q None) (polynomial c d (nth j freq 0 / ref)) (nth j q None)) in FQ.
  change (fraction (nth j U None) (polynomial c d (nth j freq 0 / ref)) (nth j u None)) in FU.
  rewrite <- (Poly _ _ _ Ig) in FQ, FU.
  assert (forall x f, fraction x v f -> f = option_map (fun y => y / v) x) as K.
  { intros x f H. unfold fraction in H. destruct f as [w|].
    - destruct H as (X & -> & _ & ->). reflexivity.
    - destruct H as [->|]; [reflexivity|contradiction]. }
  split; now apply K.
Qed.
