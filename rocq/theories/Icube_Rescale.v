(** Proofs about rescale_I_model_3D: new reference frequency, same spectra (C43). *)
From Coq Require Import Reals List Arith ZArith Bool Ascii String Lia Lra.
Set Warnings "-ambiguous-paths".
From Coquelicot Require Import Coquelicot.
From Verif Require Import CBase PyRes PyStr PyStr_Proofs PyList NdArray NdIndex Interp_Model Synth_Model Setup_Model Measure_Model Median_Proofs
  StokesI_Model StokesI_Spec StokesI_Proofs StokesI_Fit Cube_Model Cube_Spec Cube_Proofs Icube_Model Icube_Spec Icube_Proofs Icube_Fit.
Import ListNotations.
Local Open Scope nat_scope.

(** ** The function named in HISTORY *)
Lemma split_word : forall (w : str) c t, forallb (fun a => negb (is_blank a)) w = true -> is_blank c = true -> split_blank (w ++ c :: t) = w :: split_blank t.
Proof.
  induction w as [|a w IH]; intros c t H B; cbn [app split_blank].
  - now rewrite B.
  - cbn in H. apply andb_true_iff in H. destruct H as [Ha H]. destruct (is_blank a); [discriminate|]. now rewrite (IH c t H B).
Qed.
Lemma split_last : forall (w : str), forallb (fun a => negb (is_blank a)) w = true -> split_blank w = [w].
Proof. induction w as [|a w IH]; intros H; cbn; [reflexivity|]. cbn in H. apply andb_true_iff in H. destruct H as [Ha H]. destruct (is_blank a); [discriminate|]. now rewrite IH. Qed.

Lemma digits_of : forall n, forallb is_digit (str_of_nat n) = true.
Proof. intros n. unfold str_of_nat. destruct (dec_fuel (S n) n) as (k & _ & -> & _); [lia|]. apply fixed_digits. Qed.

Lemma digits_not_blank : forall w, forallb is_digit w = true -> forallb (fun a => negb (is_blank a)) w = true.
Proof.
  intros w H. rewrite forallb_forall in *. intros a I. specialize (H a I). unfold is_digit in H. apply andb_true_iff in H. destruct H as [H1 H2]. apply Nat.leb_le in H1. apply Nat.leb_le in H2.
  unfold is_blank. cbv zeta. destruct (Nat.eqb_spec (nat_of_ascii a) 32); [lia|]. destruct (Nat.leb_spec (nat_of_ascii a) 13); [lia|]. destruct (Nat.leb_spec (nat_of_ascii a) 31); [lia|]. rewrite !andb_false_r. reflexivity.
Qed.

Lemma no_letter : forall (pat x : str) c, In c pat -> ~ In c x -> contains pat x = false.
Proof.
  intros pat x c I N. destruct (contains pat x) eqn:E; [|reflexivity]. apply contains_spec in E. destruct E as (a & b & ->). exfalso. apply N. apply in_or_app. right. apply in_or_app. now left.
Qed.

Lemma digit_not_p : forall w, forallb is_digit w = true -> ~ In "p"%char w.
Proof. intros w H I. rewrite forallb_forall in H. specialize (H _ I). discriminate. Qed.

Lemma pick_word : forall a (w : str) b, contains (s "polynomial") w = false ->
  filter (contains (s "polynomial")) (filter (fun w : str => match w with [] => false | _ => true end) (a ++ w :: b)) =
  filter (contains (s "polynomial")) (filter (fun w : str => match w with [] => false | _ => true end) a) ++ filter (contains (s "polynomial")) (filter (fun w : str => match w with [] => false | _ => true end) b).
Proof. intros a w b H. rewrite filter_app, filter_app. f_equal. cbn [filter]. destruct w as [|c t]; [reflexivity|]. cbn [filter]. now rewrite H. Qed.

Lemma line_function : forall name ff l, known_name name ff -> function_line name l ->
  contains (s "Fit model is") l = true /\
  (match filter (contains (s "polynomial")) (words l) with [] => PErr | w :: _ => POk (nth 0 (split "-"%char w) []) end) = POk name.
Proof.
  intros name ff l Hn (N & DN & [-> | ->]).
  - assert (BN : forallb (fun a => negb (is_blank a)) (N ++ s "-order") = true) by (rewrite forallb_app, digits_not_blank by exact DN; reflexivity).
    assert (NP : contains (s "polynomial") (N ++ s "-order") = false).
    { apply (no_letter _ _ "p"%char); [now left|]. intros I. apply in_app_or in I. destruct I as [I|I]; [revert I; apply digit_not_p, DN|]. cbn in I. repeat (destruct I as [I|I]; [discriminate|]). exact I. }
    destruct Hn as [[-> _]|[-> _]]; (split; [reflexivity|]); unfold words.
    + replace (s "Fit model is " ++ N ++ s "-order " ++ s "linear" ++ s "-polynomial") with
        (s "Fit" ++ " "%char :: s "model" ++ " "%char :: s "is" ++ " "%char :: (N ++ s "-order") ++ " "%char :: s "linear-polynomial") by (cbn; now rewrite <- app_assoc).
      do 3 (rewrite split_word by reflexivity). rewrite (split_word (N ++ s "-order") " "%char _ BN eq_refl). rewrite (split_last (s "linear-polynomial")) by reflexivity.
      match goal with |- match ?e with [] => _ | _ => _ end = _ => assert (EX : e = [s "linear-polynomial"]) by exact (pick_word [s "Fit"; s "model"; s "is"] (N ++ s "-order") [s "linear-polynomial"] NP); rewrite EX end. reflexivity.
    + replace (s "Fit model is " ++ N ++ s "-order " ++ s "log" ++ s "-polynomial") with
        (s "Fit" ++ " "%char :: s "model" ++ " "%char :: s "is" ++ " "%char :: (N ++ s "-order") ++ " "%char :: s "log-polynomial") by (cbn; now rewrite <- app_assoc).
      do 3 (rewrite split_word by reflexivity). rewrite (split_word (N ++ s "-order") " "%char _ BN eq_refl). rewrite (split_last (s "log-polynomial")) by reflexivity.
      match goal with |- match ?e with [] => _ | _ => _ end = _ => assert (EX : e = [s "log-polynomial"]) by exact (pick_word [s "Fit"; s "model"; s "is"] (N ++ s "-order") [s "log-polynomial"] NP); rewrite EX end. reflexivity.
  - assert (BN : forallb (fun a => negb (is_blank a)) N = true) by (apply digits_not_blank, DN).
    destruct Hn as [[-> _]|[-> _]]; (split; [reflexivity|]); unfold words.
    + change (s "Fit model is dynamic order " ++ s "linear" ++ s "-polynomial, max order " ++ N) with
        (s "Fit" ++ " "%char :: s "model" ++ " "%char :: s "is" ++ " "%char :: s "dynamic" ++ " "%char :: s "order" ++ " "%char :: s "linear-polynomial," ++ " "%char :: s "max" ++ " "%char :: s "order" ++ " "%char :: N).
      do 8 (rewrite split_word by reflexivity). rewrite (split_last N BN). reflexivity.
    + change (s "Fit model is dynamic order " ++ s "log" ++ s "-polynomial, max order " ++ N) with
        (s "Fit" ++ " "%char :: s "model" ++ " "%char :: s "is" ++ " "%char :: s "dynamic" ++ " "%char :: s "order" ++ " "%char :: s "log-polynomial," ++ " "%char :: s "max" ++ " "%char :: s "order" ++ " "%char :: N).
      do 8 (rewrite split_word by reflexivity). rewrite (split_last N BN). reflexivity.
Qed.

Theorem history_names_function : forall w name ff, known_name name ff -> fitted_with w name -> history_function (w_history w) = POk name.
Proof.
  intros w name ff Hn (h & l & t & -> & FL & NT). destruct (line_function name ff l Hn FL) as (C & W). unfold history_function. rewrite filter_app. cbn [filter]. rewrite C.
  rewrite (filter_none _ t).
  - rewrite rev_app_distr. cbn [rev app]. exact W.
  - intros l' I. destruct (contains (s "Fit model is") l') eqn:E; [|reflexivity]. exfalso. apply contains_spec in E. exact (NT l' I E).
Qed.

(** ** One pixel *)
Lemma renorm_total : forall ff p old new cov, List.length p = 6 -> ff <> OtherFun ->
  exists r, renormalize_StokesI_model (mk_fit p 0 0 None 0 5 old 0 (Some cov) [] ff) new = POk r /\ List.length (params r) = 6 /\ List.length (perror r) = 6.
Proof.
  intros ff p old new cov L E. destruct (len6 p L) as (a & b & c & d & e & g & ->). unfold renormalize_StokesI_model. cbn [params fit_function pcov].
  destruct ff; [| |congruence]; eexists; (split; [reflexivity|split; reflexivity]).
Qed.

Lemma known_all : forall ff p i, i < 6 -> List.length p = 6 -> known_p ff (fun i => nth i (map Some p) None) true i = true.
Proof.
  intros ff p i Hi L. destruct (len6 p L) as (a & b & c & d & e & g & ->). do 6 (destruct i as [|i]; [destruct ff; reflexivity|]). lia.
Qed.

Lemma pixel_rescaled : forall ff cov p old new, ff <> OtherFun -> List.length p = 6 -> (0 < old)%R -> (0 < new)%R ->
  exists p' e, rescale_I_pixel ff cov (map Some p) (Some old) (Some new) = POk (map Some p', e) /\ List.length p' = 6 /\
    (forall f, (0 < f)%R -> I_spectrum ff p' new f = I_spectrum ff p old f).
Proof.
  intros ff cov p old new E L Ho Hn. unfold rescale_I_pixel. cbv zeta. cbn [finite is_none negb andb val].
  assert (EV : map val (map Some p) = p) by (rewrite map_map; cbn; apply map_id). rewrite EV.
  set (fr := mk_fit p 0 0 None 0 5 old 0 (Some (fun i j => val (cov i j))) [] ff).
  assert (G : good_fit fr) by (unfold good_fit, fr; cbn; split; [auto|split; [eauto|split; auto]]).
  destruct (renorm_ok fr new G) as (r & Er & Lr & Ef & Ernew & _). rewrite Er. cbn [pybind].
  assert (EP : map (fun i => if known_p ff (fun i => nth i (map Some p) None) true i then Some (nth i (params r) 0%R) else None) (seq 0 6) = map Some (params r)).
  { apply nth_ext with (d := None) (d' := None); [rewrite !map_length, seq_length; auto|]. intros i Hi. rewrite map_length, seq_length in Hi. rewrite nth_map_seq by exact Hi. rewrite Nat.add_0_l.
    rewrite known_all by auto. rewrite (nth_map_in Some _ _ None 0%R) by lia. reflexivity. }
  eexists _, _. split; [rewrite <- EP; reflexivity|]. split; [exact Lr|].
  intros f Hf. pose proof (renorm_model fr new r f G Hn Hf Er) as M. unfold model_at in M. rewrite Ef, Ernew in M. unfold fr in M. cbn [fit_function params ref_freq] in M. unfold I_spectrum. destruct ff; exact M.
Qed.

Lemma pixel_total : forall ff cov coeff old new, ff <> OtherFun -> List.length coeff = 6 ->
  exists p e, rescale_I_pixel ff cov coeff old new = POk (p, e) /\ List.length p = 6 /\ List.length e = 6.
Proof.
  intros ff cov coeff old new E L. unfold rescale_I_pixel. cbv zeta.
  destruct (renorm_total ff (map val coeff) (val old) (val new) (fun i j => val (cov i j)) ltac:(rewrite map_length; auto) E) as (r & -> & _ & _). cbn [pybind].
  eexists _, _. split; [reflexivity|]. split; reflexivity.
Qed.

(** ** The slices of the reshaped arrays *)
Lemma nth_slice : forall {A} (l : list A) m k i d, i < m -> nth i (firstn m (skipn k l)) d = nth (k + i) l d.
Proof.
  intros A l m k i d H. revert l. induction k as [|k IH]; intros l; cbn [skipn].
  - revert l i H. induction m as [|m IHm]; intros l i H; [lia|]. destruct l as [|a l]; [reflexivity|]. destruct i as [|i]; [reflexivity|]. cbn. apply IHm. lia.
  - destruct l as [|a l]; [rewrite firstn_nil; destruct i; reflexivity|]. apply IH.
Qed.

Lemma slice_length : forall {A} (l : list A) m k, k + m <= List.length l -> List.length (firstn m (skipn k l)) = m.
Proof. intros. rewrite firstn_length, skipn_length. lia. Qed.

Lemma prod_bound : forall ny nx y x, y < ny -> x < nx -> y * nx + x < ny * nx.
Proof. intros. nia. Qed.

Lemma coeff_row : forall (a : nd (option R)) ny nx y x, shape a = [6; ny; nx] -> wf_nd a -> y < ny -> x < nx ->
  firstn 6 (skipn (6 * (y * nx + x)) (flat (moveaxis None a 0 2))) = map (fun m => at_nd None a [m; y; x]) (seq 0 6).
Proof.
  intros a ny nx y x S W Hy Hx. pose proof (prod_bound _ _ _ _ Hy Hx) as PB.
  assert (SM : shape (moveaxis None a 0 2) = [ny; nx; 6]) by (unfold moveaxis; cbn [shape tab_nd]; rewrite S; reflexivity).
  assert (WM : List.length (flat (moveaxis None a 0 2)) = ny * nx * 6) by (assert (W' : wf_nd (moveaxis None a 0 2)) by apply wf_tab_nd; unfold wf_nd in W'; rewrite SM in W'; cbn [prodn fold_right] in W'; rewrite W'; cbn; lia).
  apply nth_ext with (d := None) (d' := None).
  - rewrite slice_length by nia. now rewrite map_length, seq_length.
  - intros m Hm. rewrite slice_length in Hm by nia. rewrite nth_slice by exact Hm. rewrite nth_map_seq by exact Hm. rewrite Nat.add_0_l.
    rewrite <- (moveaxis_at None a 0 2 [m; y; x]); [|rewrite S; cbn; lia|rewrite S; cbn; lia|rewrite S; repeat (constructor; auto)].
    cbn [nth delete_at insert_at]. unfold at_nd. rewrite SM. f_equal. simpl. ring.
Qed.

Lemma cov_row : forall (c : nd (option R)) ny nx y x a b, y < ny -> x < nx -> a < 6 -> b < 6 ->
  nth (6 * a + b) (firstn 36 (skipn (36 * (y * nx + x)) (flat (tab_nd [ny; nx; 6; 6] (fun i => at_nd None c [nth 2 i 0; nth 3 i 0; nth 0 i 0; nth 1 i 0]))))) None = at_nd None c [a; b; y; x].
Proof.
  intros c ny nx y x a b Hy Hx Ha Hb. rewrite nth_slice by lia.
  pose proof (at_tab_nd None [ny; nx; 6; 6] (fun i => at_nd None c [nth 2 i 0; nth 3 i 0; nth 0 i 0; nth 1 i 0]) [y; x; a; b] ltac:(repeat (constructor; auto))) as T. cbn [nth] in T. rewrite <- T.
  unfold at_nd at 2. cbn [shape]. change (shape (tab_nd [ny; nx; 6; 6] _)) with [ny; nx; 6; 6]. f_equal. simpl. ring.
Qed.

(** ** All pixels *)
Lemma combine_seq_in : forall {B} (l : list B) k i b, In (i, b) (combine (seq k (List.length l)) l) -> k <= i /\ nth_error l (i - k) = Some b.
Proof.
  induction l as [|a l IH]; intros k i b H; [destruct H|]. cbn in H. destruct H as [[= <- <-]|H].
  - split; [lia|]. now rewrite Nat.sub_diag.
  - apply IH in H. destruct H as [H1 H2]. split; [lia|]. replace (i - k) with (S (i - S k)) by lia. exact H2.
Qed.
Lemma in_combine_seq : forall {B} (l : list B) k i b, nth_error l i = Some b -> In (k + i, b) (combine (seq k (List.length l)) l).
Proof.
  induction l as [|a l IH]; intros k i b H; [destruct i; discriminate|]. destruct i as [|i]; cbn in H |- *.
  - injection H as ->. left. now rewrite Nat.add_0_r.
  - right. replace (k + S i) with (S k + i) by lia. apply IH. exact H.
Qed.
Lemma forall2_nth_error : forall {A B} (P : A -> B -> Prop) l r, Forall2 P l r -> forall i a, nth_error l i = Some a -> exists b, nth_error r i = Some b /\ P a b.
Proof. intros A B P l r F. induction F; intros [|i] u Hu; try discriminate; cbn in *; [injection Hu as <-; eauto|auto]. Qed.

Lemma rescale_pixels : forall cov ref coeffs new ff ny nx, ff <> OtherFun -> shape ref = [ny; nx] -> wf_nd ref -> shape coeffs = [6; ny; nx] -> wf_nd coeffs ->
  exists ce, rescale_I_model_3D cov ref coeffs new ff = POk ce /\ shape (fst ce) = [6; ny; nx] /\ shape (snd ce) = [6; ny; nx] /\ wf_nd (fst ce) /\ wf_nd (snd ce) /\
    forall y x, y < ny -> x < nx -> exists c p e, (forall a b, a < 6 -> b < 6 -> c a b = at_nd None cov [a; b; y; x]) /\
      rescale_I_pixel ff c (map (fun m => at_nd None coeffs [m; y; x]) (seq 0 6)) (at_nd None ref [y; x]) new = POk (p, e) /\
      forall m, m < 6 -> at_nd None (fst ce) [m; y; x] = nth m p None /\ at_nd None (snd ce) [m; y; x] = nth m e None.
Proof.
  intros cov ref coeffs new ff ny nx Hf Sr Wr Sc Wc. unfold rescale_I_model_3D. rewrite Sr. cbv zeta.
  set (moved := tab_nd [ny; nx; 6; 6] _). set (movedc := moveaxis None coeffs 0 2).
  set (G := fun i => rescale_I_pixel ff (fun a b => nth (6 * a + b) (firstn 36 (skipn (36 * i) (flat moved))) None) (firstn 6 (skipn (6 * i) (flat movedc))) (nth i (flat ref) None) new).
  assert (DM : forall i, i < ny * nx -> i / nx < ny /\ i mod nx < nx /\ i = i / nx * nx + i mod nx).
  { intros i Hi. destruct nx as [|n']; [lia|]. split; [apply Nat.div_lt_upper_bound; lia|]. split; [apply Nat.mod_upper_bound; lia|]. rewrite (Nat.div_mod i (S n')) at 1 by lia. lia. }
  destruct (pyall_total G (seq 0 (ny * nx))) as (rs & EP).
  { intros i Ii. apply in_seq in Ii. destruct (DM i ltac:(lia)) as (D1 & D2 & D3). unfold G. rewrite D3. unfold movedc. rewrite (coeff_row coeffs ny nx _ _ Sc Wc D1 D2).
    edestruct (pixel_total ff) as (p & e & E & _); [exact Hf| |exists (p, e); exact E]. now rewrite map_length, seq_length. }
  rewrite EP. cbn [pybind]. apply pyall_inv in EP. assert (L : List.length rs = ny * nx) by (rewrite <- (Forall2_length _ _ _ EP), seq_length; reflexivity).
  set (z := tab_nd (shape coeffs) (fun _ => Some 0%R)). set (l := combine (seq 0 (List.length rs)) rs).
  set (F := fun ce ir => _).
  exists (fold_left F l (z, z)). split; [reflexivity|].
  rewrite (fold_proj fst F (fun a e => set_pix None a (fst e / nx) (fst e mod nx) (fun idx _ => nth (nth 0 idx 0) (fst (snd e)) None))) by (intros [u v] [i [p e]]; reflexivity).
  rewrite (fold_proj snd F (fun a e => set_pix None a (fst e / nx) (fst e mod nx) (fun idx _ => nth (nth 0 idx 0) (snd (snd e)) None))) by (intros [u v] [i [p e]]; reflexivity).
  cbn [fst snd]. assert (Sz : shape z = [6; ny; nx]) by exact Sc.
  split; [rewrite (writes_shape None (fun e : nat * (list (option R) * list (option R)) => fst e / nx) (fun e => fst e mod nx)); exact Sz|].
  split; [rewrite (writes_shape None (fun e : nat * (list (option R) * list (option R)) => fst e / nx) (fun e => fst e mod nx)); exact Sz|].
  split; [apply (writes_wf None (fun e : nat * (list (option R) * list (option R)) => fst e / nx) (fun e => fst e mod nx)); apply wf_tab_nd|].
  split; [apply (writes_wf None (fun e : nat * (list (option R) * list (option R)) => fst e / nx) (fun e => fst e mod nx)); apply wf_tab_nd|].
  intros y x Hy Hx. pose proof (prod_bound _ _ _ _ Hy Hx) as PB. set (i := y * nx + x) in *.
  assert (Di : i / nx = y) by (unfold i; rewrite Nat.div_add_l by lia; rewrite Nat.div_small by lia; lia).
  assert (Mi : i mod nx = x) by (unfold i; rewrite Nat.add_comm, Nat.mod_add by lia; apply Nat.mod_small; lia).
  destruct (forall2_nth_error _ _ _ EP i i) as ([p e] & En & Eg); [rewrite nth_error_nth' with (d := 0) by (rewrite seq_length; lia); rewrite seq_nth by lia; reflexivity|].
  exists (fun a b => nth (6 * a + b) (firstn 36 (skipn (36 * i) (flat moved))) None), p, e. split; [|split].
  - intros a b Ha Hb. unfold moved, i. apply cov_row; auto.
  - unfold G in Eg. unfold movedc, i in Eg. rewrite (coeff_row coeffs ny nx y x Sc Wc Hy Hx) in Eg. rewrite <- Eg. unfold i. f_equal. unfold at_nd. rewrite Sr. f_equal. simpl. ring.
  - intros m Hm. assert (I : In (i, (p, e)) l) by (unfold l; exact (in_combine_seq rs 0 i (p, e) En)).
    assert (ND : NoDup (map (fun e : nat * (list (option R) * list (option R)) => [fst e / nx; fst e mod nx]) l)).
    { unfold l. rewrite L. assert (EM : map (fun e : nat * (list (option R) * list (option R)) => [fst e / nx; fst e mod nx]) (combine (seq 0 (ny * nx)) rs) = map (fun i => [i / nx; i mod nx]) (seq 0 (ny * nx))).
      { clear - L. rewrite <- L. generalize 0 at 1 2. clear. induction rs as [|r rs IH]; intros k; [reflexivity|]. cbn. now rewrite IH. }
      rewrite EM. apply NoDup_nth with (d := []). intros u v Hu Hv. rewrite map_length, seq_length in Hu, Hv. rewrite !nth_map_seq by auto. rewrite !Nat.add_0_l. intros [= E1 E2].
      destruct (DM u Hu) as (_ & _ & D1). destruct (DM v Hv) as (_ & _ & D2). rewrite D1, D2, E1, E2. reflexivity. }
    assert (V : valid [6; ny; nx] ([m] ++ [i / nx; i mod nx])) by (rewrite Di, Mi; repeat (constructor; auto)).
    split.
    + pose proof (writes_at None (fun e : nat * (list (option R) * list (option R)) => fst e / nx) (fun e => fst e mod nx) (fun e idx _ => nth (nth 0 idx 0) (fst (snd e)) None) l z [m] (i, (p, e))) as Wa.
      cbn [fst snd nth] in Wa. rewrite Sz in Wa. specialize (Wa V ND I). rewrite Di, Mi in Wa. exact Wa.
    + pose proof (writes_at None (fun e : nat * (list (option R) * list (option R)) => fst e / nx) (fun e => fst e mod nx) (fun e idx _ => nth (nth 0 idx 0) (snd (snd e)) None) l z [m] (i, (p, e))) as Wa.
      cbn [fst snd nth] in Wa. rewrite Sz in Wa. specialize (Wa V ND I). rewrite Di, Mi in Wa. exact Wa.
Qed.
