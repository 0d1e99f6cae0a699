(** Proofs about do_fitIcube: what its files hold, pixel by pixel. *)
From Coq Require Import Reals List Arith ZArith Bool Ascii String Lia Lra.
Set Warnings "-ambiguous-paths".
From Coquelicot Require Import Coquelicot.
From Verif Require Import CBase PyRes PyStr PyList NdArray NdIndex Interp_Model Synth_Model Setup_Model Measure_Model Median_Proofs
  StokesI_Model StokesI_Spec StokesI_Proofs StokesI_Fit Cube_Model Cube_Spec Cube_Proofs Icube_Model Icube_Spec.
Import ListNotations.
Local Open Scope nat_scope.

(** ** Lists *)
Lemma nth_map_in : forall {A B} (f : A -> B) l i d (e : A), i < List.length l -> nth i (map f l) d = f (nth i l e).
Proof. induction l; intros [|i] d e H; simpl in *; try lia; auto. apply IHl. lia. Qed.

(** rows that are images of one list *)
Lemma rot90_map : forall {A B} (d : B) (e : A) (rs : list (A -> B)) l, rs <> [] ->
  rot90 d (map (fun r => map r l) rs) = map (fun x => map (fun r => r x) rs) (rev l).
Proof.
  intros A B d e rs l H. unfold rot90. destruct rs as [|r0 rs]; [congruence|]. cbn [map nth]. rewrite map_length.
  set (Rs := r0 :: rs). change (map r0 l :: map (fun r => map r l) rs) with (map (fun r => map r l) Rs).
  apply nth_ext with (d := []) (d' := []).
  - now rewrite !map_length, rev_length, seq_length.
  - intros i Hi. rewrite map_length, seq_length in Hi. rewrite nth_map_seq by auto. rewrite Nat.add_0_l.
    rewrite (nth_map_in _ (rev l) _ [] e) by (rewrite rev_length; auto). rewrite rev_nth by auto. rewrite map_map.
    assert (G : forall r, nth (List.length l - 1 - i) (map r l) d = r (nth (List.length l - S i) l e)).
    { intros r. rewrite (nth_map_in r l _ d e) by lia. f_equal. f_equal. lia. }
    refine (map_ext _ _ _ Rs). exact G.
Qed.

Lemma pyall_inv : forall {A B} (f : A -> pyres B) l r, pyall (map f l) = POk r -> Forall2 (fun x a => f x = POk a) l r.
Proof.
  induction l as [|x l IH]; cbn; intros r H; [injection H as <-; constructor|].
  destruct (f x) as [a|] eqn:E; [|discriminate]. cbn in H. destruct (pyall (map f l)) as [r'|]; [|discriminate]. injection H as <-. constructor; auto.
Qed.

Lemma pyall_total : forall {A B} (f : A -> pyres B) l, (forall x, In x l -> exists a, f x = POk a) -> exists r, pyall (map f l) = POk r.
Proof.
  induction l as [|x l IH]; cbn; intros H; [eexists; reflexivity|]. destruct (H x (or_introl eq_refl)) as (a & ->).
  destruct IH as (r & ->); [intros; apply H; now right|]. eexists; reflexivity.
Qed.

Lemma pyall_err : forall {A B} (f : A -> pyres B) l x, In x l -> f x = PErr -> pyall (map f l) = PErr.
Proof.
  induction l as [|y l IH]; cbn; intros x [].
  - subst. intros ->. reflexivity.
  - intros E. destruct (f y); [|reflexivity]. cbn. rewrite (IH _ H E). reflexivity.
Qed.

(** the results by number are the results side by side *)
Lemma fold_by_number : forall {M C B} (f : M -> C -> B -> M) (cs : list C) (rs : list B) m0 k pre, List.length pre = k -> List.length rs = List.length cs ->
  fold_left (fun m ic => match nth_error (pre ++ rs) (fst ic) with Some r => f m (snd ic) r | None => m end) (combine (seq k (List.length cs)) cs) m0 =
  fold_left (fun m cr => f m (fst cr) (snd cr)) (combine cs rs) m0.
Proof.
  intros M C B f. induction cs as [|c cs IH]; intros rs m0 k pre Hk L; [reflexivity|]. destruct rs as [|r rs]; [discriminate|]. cbn [List.length seq combine fold_left fst snd].
  rewrite nth_error_app2 by lia. rewrite Hk, Nat.sub_diag. cbn [nth_error].
  replace (pre ++ r :: rs) with ((pre ++ [r]) ++ rs) by (rewrite <- app_assoc; reflexivity). apply IH; [rewrite app_length; cbn; lia|cbn in L; lia].
Qed.

(** ** Pixels *)
Lemma set_pix_shape : forall {A} (d : A) a x y v, shape (set_pix d a x y v) = shape a.
Proof. reflexivity. Qed.

Lemma set_pix_wf : forall {A} (d : A) a x y v, wf_nd (set_pix d a x y v).
Proof. intros. apply wf_tab_nd. Qed.

Lemma set_pix_at : forall {A} (d : A) a x y v pre i j, valid (shape a) (pre ++ [i; j]) ->
  at_nd d (set_pix d a x y v) (pre ++ [i; j]) = if list_eq_dec Nat.eq_dec [i; j] [x; y] then v pre (at_nd d a (pre ++ [i; j])) else at_nd d a (pre ++ [i; j]).
Proof.
  intros A d a x y v pre i j V. unfold set_pix. rewrite at_tab_nd by exact V. cbv zeta. rewrite app_length. cbn [List.length].
  replace (List.length pre + 2 - 2) with (List.length pre) by lia.
  rewrite app_nth2 by lia. rewrite Nat.sub_diag. rewrite (app_nth2 pre [i; j]) by lia. replace (S (List.length pre) - List.length pre) with 1 by lia. cbn [nth].
  rewrite firstn_app, Nat.sub_diag, firstn_all, app_nil_r.
  destruct (Nat.eqb_spec i x), (Nat.eqb_spec j y); cbn [andb]; destruct (list_eq_dec Nat.eq_dec [i; j] [x; y]) as [E|E]; try reflexivity; exfalso; try (injection E; lia); apply E; congruence.
Qed.

(** writing distinct pixels one after the other *)
Section Writes.
  Context {A E : Type} (d : A) (kx ky : E -> nat) (g : E -> list nat -> A -> A).
  Let step (a : nd A) (e : E) := set_pix d a (kx e) (ky e) (g e).
  Lemma writes_shape : forall l a, shape (fold_left step l a) = shape a.
  Proof. induction l; intros; [reflexivity|]. cbn. rewrite IHl. reflexivity. Qed.
  Lemma writes_wf : forall l a, wf_nd a -> wf_nd (fold_left step l a).
  Proof. induction l; intros b W; [exact W|]. cbn. apply IHl. apply set_pix_wf. Qed.
  Lemma writes_other : forall l a pre i j, valid (shape a) (pre ++ [i; j]) -> (forall e, In e l -> [kx e; ky e] <> [i; j]) ->
    at_nd d (fold_left step l a) (pre ++ [i; j]) = at_nd d a (pre ++ [i; j]).
  Proof.
    induction l as [|e l IH]; intros a pre i j V H; [reflexivity|]. cbn. rewrite IH; [|exact V|intros; apply H; now right].
    unfold step. rewrite set_pix_at by exact V. destruct (list_eq_dec _ _ _) as [Eq|]; [|reflexivity]. exfalso. apply (H e (or_introl eq_refl)). now rewrite Eq.
  Qed.
  Lemma writes_at : forall l a pre e, valid (shape a) (pre ++ [kx e; ky e]) -> NoDup (map (fun e => [kx e; ky e]) l) -> In e l ->
    at_nd d (fold_left step l a) (pre ++ [kx e; ky e]) = g e pre (at_nd d a (pre ++ [kx e; ky e])).
  Proof.
    induction l as [|e0 l IH]; intros a pre e V ND I; [destruct I|]. cbn [map] in ND. inversion ND as [|? ? N ND']; subst. cbn [fold_left]. destruct I as [<-|I].
    - rewrite writes_other; [|exact V|]. 
      + unfold step. rewrite set_pix_at by exact V. destruct (list_eq_dec _ _ _); [reflexivity|congruence].
      + intros e' I' Eq. apply N. rewrite <- Eq. apply in_map_iff. exists e'. split; auto.
    - rewrite IH by auto. f_equal. unfold step. rewrite set_pix_at by exact V. destruct (list_eq_dec _ _ _) as [Eq|]; [|reflexivity].
      exfalso. apply N. rewrite <- Eq. apply (in_map (fun e => [kx e; ky e])). exact I.
  Qed.
End Writes.

Lemma fold_proj : forall {M E B} (p : M -> B) (f : M -> E -> M) (f' : B -> E -> B), (forall m e, p (f m e) = f' (p m) e) ->
  forall l m, p (fold_left f l m) = fold_left f' l (p m).
Proof. intros M E B p f f' H. induction l; intros m; [reflexivity|]. cbn. rewrite IHl, H. reflexivity. Qed.

Lemma valid2 : forall a b idx, valid [a; b] idx -> exists i j, idx = [i; j] /\ i < a /\ j < b.
Proof. intros a b idx V. inversion V as [|i ? r ? Hi V1]; subst. inversion V1 as [|j ? r' ? Hj V2]; subst. inversion V2; subst. eauto. Qed.

Lemma indices_nodup : forall sh, NoDup (indices sh).
Proof.
  intros sh. apply NoDup_nth with (d := []). intros i j Hi Hj E. rewrite length_indices in Hi, Hj.
  destruct (unravel_valid sh i Hi) as [Vi Ri]. destruct (unravel_valid sh j Hj) as [Vj Rj].
  rewrite <- Ri in E. rewrite <- Rj in E. rewrite !nth_indices in E by auto. rewrite <- Ri, <- Rj. congruence.
Qed.

Lemma where_pos_spec : forall ny nx g y x, In [y; x] (where_pos (tab_nd [ny; nx] g)) <-> y < ny /\ x < nx /\ 0 < g [y; x].
Proof.
  intros. unfold where_pos. cbn [shape tab_nd]. rewrite filter_In, in_indices. split.
  - intros [V H]. destruct (valid2 _ _ _ V) as (i & j & [= -> ->] & Hi & Hj). split; [auto|]. split; [auto|].
    apply Nat.ltb_lt in H. change (mk_nd [ny; nx] (map g (indices [ny; nx]))) with (tab_nd [ny; nx] g) in H. rewrite at_tab_nd in H by exact V. exact H.
  - intros (Hy & Hx & H). assert (V : valid [ny; nx] [y; x]) by (repeat (constructor; auto)). split; [exact V|].
    apply Nat.ltb_lt. change (mk_nd [ny; nx] (map g (indices [ny; nx]))) with (tab_nd [ny; nx] g). rewrite at_tab_nd by exact V. exact H.
Qed.

Lemma where_pos_form : forall ny nx g xy, In xy (where_pos (tab_nd [ny; nx] g)) -> xy = [nth 0 xy 0; nth 1 xy 0].
Proof. intros ny nx g xy I. unfold where_pos in I. apply filter_In in I. destruct I as [I _]. apply in_indices in I. destruct (valid2 _ _ _ I) as (i & j & -> & _). reflexivity. Qed.

Lemma where_pos_nodup : forall m, NoDup (where_pos m).
Proof. intros. apply NoDup_filter, indices_nodup. Qed.

(** ** What make_model_I writes *)
Section Make.
  Variables (mpfit : mpin -> pyres mpres) (cube : nd (option R)) (n ny nx : nat) (bunit : bool) (history : list str) (ctype : list (option str))
    (freq : list R) (ord : Z) (thr : R) (name : str) (am : bool).
  Hypothesis Hs : shape cube = [n; ny; nx].
  Hypothesis Hw : wf_nd cube.
  Hypothesis Hn1 : n <> 1.
  Hypothesis Hy1 : ny <> 1.
  Hypothesis Hx1 : nx <> 1.
  Hypothesis Hn0 : 0 < n.
  Hypothesis Lf : List.length freq = n.

  Let rms := map (fun j => snd (plane_noise thr (chan_plane cube j))) (seq 0 n).
  Let cnt := fun xy => fold_left (fun c p => if is_source thr p (nth (ravel [ny; nx] xy) p None) then S c else c) (map (chan_plane cube) (seq 0 n)) 0.
  Let msk := fun xy => if am then cnt xy else 1.
  Let spec := fun xy : list nat => map (fun j => at_nd None cube (j :: xy)) (seq 0 n).
  Let fitpix := fit_spectra_I mpfit freq rms ord (fun_of name).
  Let wh := where_pos (tab_nd [ny; nx] msk).

  Lemma squeeze_id : squeeze cube = cube.
  Proof.
    unfold squeeze. rewrite Hs. cbn. destruct (Nat.eqb_spec n 1); [contradiction|]. destruct (Nat.eqb_spec ny 1); [contradiction|]. destruct (Nat.eqb_spec nx 1); [contradiction|].
    cbn. rewrite <- Hs. destruct cube; reflexivity.
  Qed.

  Definition initial (lead : list nat) : nd (option R) :=
    tab_nd (lead ++ [ny; nx]) (fun idx => at_nd None (tab_nd [ny; nx] (fun xy => if 0 <? msk xy then Some 1%R else None)) (skipn (List.length lead) idx)).

  Lemma make_shape : make_model_I mpfit cube nx ny bunit history ctype freq ord thr name am =
    pybind (pyall (map fitpix (map spec (rev wh)))) (fun results =>
    if negb bunit then PErr else if (5 <? Z.abs ord)%Z then PErr else
    let l := combine (rev wh) results in
    let cs := fold_left (fun a e => set_pix None a (nth 0 (fst e) 0) (nth 1 (fst e) 0)
                 (fun idx old => if 5 - nth 0 idx 0 <? Nat.min 6 (Nat.min (List.length (pf_coeffs (snd e))) (List.length (pf_err (snd e)))) then nth (5 - nth 0 idx 0) (pf_coeffs (snd e)) None else old)) l (initial [6]) in
    let es := fold_left (fun a e => set_pix None a (nth 0 (fst e) 0) (nth 1 (fst e) 0)
                 (fun idx old => if 5 - nth 0 idx 0 <? Nat.min 6 (Nat.min (List.length (pf_coeffs (snd e))) (List.length (pf_err (snd e)))) then nth (5 - nth 0 idx 0) (pf_err (snd e)) None else old)) l (initial [6]) in
    let Is := fold_left (fun a e => set_pix None a (nth 0 (fst e) 0) (nth 1 (fst e) 0) (fun idx _ => nth (nth 0 idx 0) (pf_I (snd e)) None)) l (tab_nd [n; ny; nx] (fun _ => None)) in
    POk (mk_fit_files (tab_nd [ny; nx] (fun xy => if 0 <? msk xy then Some 1%R else None))
      (map (fun i => (map_plane None cs i, map_plane None es i)) (seq 0 (Z.to_nat (Z.abs ord) + 1)))
      (fold_left (fun a e => set_pix None a (nth 0 (fst e) 0) (nth 1 (fst e) 0) (fun _ _ => pf_ref (snd e))) l (initial []))
      (fold_left (fun a e => set_pix None a (nth 0 (fst e) 0) (nth 1 (fst e) 0) (fun idx _ => option_map (fun c => c (nth 0 idx 0) (nth 1 idx 0)) (pf_cov (snd e)))) l (initial [6; 6]))
      (mk_image [nx; ny; n] (firstn 3 ctype) Is) rms (history ++ history_lines ord name))).
  Proof.
    unfold make_model_I, cube_noise. rewrite Hs, Lf, !Nat.eqb_refl. cbn [andb negb pybind]. fold cnt. cbv zeta.
    rewrite map_map. fold rms. rewrite squeeze_id, Hs, !Nat.eqb_refl. cbn [andb negb].
    assert (Em : (if am then tab_nd [ny; nx] cnt else tab_nd [ny; nx] (fun _ => 1)) = tab_nd [ny; nx] msk) by (unfold msk; destruct am; reflexivity).
    rewrite Em. fold wh.
    assert (Ek : tab_nd [ny; nx] (fun xy => if 0 <? at_nd 0 (tab_nd [ny; nx] msk) xy then Some 1%R else None) = tab_nd [ny; nx] (fun xy => if 0 <? msk xy then Some 1%R else None)).
    { unfold tab_nd at 1 3. f_equal. apply map_ext_in. intros xy I. apply in_indices in I. rewrite at_tab_nd by exact I. reflexivity. }
    rewrite Ek.
    assert (Ed : rot90 None (map (fun j => map (fun xy => at_nd None cube (j :: xy)) wh) (seq 0 n)) = map spec (rev wh)).
    { replace (map (fun j => map (fun xy => at_nd None cube (j :: xy)) wh) (seq 0 n)) with (map (fun r => map r wh) (map (fun j xy => at_nd None cube (j :: xy)) (seq 0 n))) by (rewrite map_map; reflexivity).
      rewrite (rot90_map None []) by (clear - Hn0; destruct n; [lia|discriminate]). apply map_ext. intros xy. rewrite map_map. reflexivity. }
    rewrite Ed.
    assert (Ec : rot90 0 [map (fun xy => nth 0 xy 0) wh; map (fun xy => nth 1 xy 0) wh] = rev wh).
    { change (rot90 0 (map (fun r => map r wh) [fun u : list nat => nth 0 u 0; fun u => nth 1 u 0]) = rev wh).
      rewrite (rot90_map 0 []) by discriminate. rewrite <- (map_id (rev wh)) at 2. apply map_ext_in. intros e I. apply in_rev in I. symmetry. apply (where_pos_form _ _ _ _ I). }
    rewrite Ec. fold fitpix. destruct (pyall (map fitpix (map spec (rev wh)))) as [rs|] eqn:EP; [|reflexivity]. cbn [pybind].
    destruct bunit; [|reflexivity]. destruct (5 <? Z.abs ord)%Z; [reflexivity|]. cbn [negb].
    pose proof (Forall2_length _ _ _ (pyall_inv _ _ _ EP)) as L. rewrite map_length in L.
    set (m0 := mk_maps _ _ _ _ _).
    pose proof (fold_by_number (fun m (c : list nat) r => put_pixel m (nth 0 c 0) (nth 1 c 0) r) (rev wh) rs m0 0 [] eq_refl (eq_sym L)) as FB. cbn [app] in FB. rewrite FB. clear FB.
    set (F := fun m cr => _).
    rewrite (fold_proj m_coeffs F (fun a e => set_pix None a (nth 0 (fst e) 0) (nth 1 (fst e) 0)
                 (fun idx old => if 5 - nth 0 idx 0 <? Nat.min 6 (Nat.min (List.length (pf_coeffs (snd e))) (List.length (pf_err (snd e)))) then nth (5 - nth 0 idx 0) (pf_coeffs (snd e)) None else old))) by reflexivity.
    rewrite (fold_proj m_err F (fun a e => set_pix None a (nth 0 (fst e) 0) (nth 1 (fst e) 0)
                 (fun idx old => if 5 - nth 0 idx 0 <? Nat.min 6 (Nat.min (List.length (pf_coeffs (snd e))) (List.length (pf_err (snd e)))) then nth (5 - nth 0 idx 0) (pf_err (snd e)) None else old))) by reflexivity.
    rewrite (fold_proj m_ref F (fun a e => set_pix None a (nth 0 (fst e) 0) (nth 1 (fst e) 0) (fun _ _ => pf_ref (snd e)))) by reflexivity.
    rewrite (fold_proj m_cov F (fun a e => set_pix None a (nth 0 (fst e) 0) (nth 1 (fst e) 0) (fun idx _ => option_map (fun c => c (nth 0 idx 0) (nth 1 idx 0)) (pf_cov (snd e))))) by reflexivity.
    rewrite (fold_proj m_I F (fun a e => set_pix None a (nth 0 (fst e) 0) (nth 1 (fst e) 0) (fun idx _ => nth (nth 0 idx 0) (pf_I (snd e)) None))) by reflexivity.
    unfold m0. cbn [m_coeffs m_err m_ref m_cov m_I].
    assert (S3 : forall l (a : nd (option R)), shape (fold_left (fun (a : nd (option R)) (e : list nat * pix_fit) => set_pix None a (nth 0 (fst e) 0) (nth 1 (fst e) 0) (fun idx _ => nth (nth 0 idx 0) (pf_I (snd e)) None)) l a) = shape a).
    { induction l; intros; [reflexivity|]. cbn [fold_left]. rewrite IHl. reflexivity. }
    rewrite S3. reflexivity.
  Qed.

  (** ** The files, pixel by pixel *)
  Variable ff : fit_fun.
  Hypothesis Hff : known_name name ff.
  Hypothesis H6 : six mpfit.

  Lemma fun_of_known : fun_of name = ff.
  Proof. destruct Hff as [[-> ->]|[-> ->]]; reflexivity. Qed.

  Lemma ff_known : ff <> OtherFun.
  Proof. destruct Hff as [[_ ->]|[_ ->]]; discriminate. Qed.

  Lemma spec_len : forall xy, List.length (spec xy) = n.
  Proof. intros. unfold spec. now rewrite map_length, seq_length. Qed.
  Lemma rms_len : List.length rms = n.
  Proof. unfold rms. now rewrite map_length, seq_length. Qed.

  Lemma fit_perror_len : forall I po fr, fit_StokesI_model mpfit freq I rms po ff = POk fr -> List.length (params fr) = 6 -> List.length (perror fr) = 6.
  Proof.
    intros I po fr H Lp. unfold fit_StokesI_model in H. destruct (good_chans freq I rms) as [|g0 gt]; [discriminate|].
    set (fit := fun o => fit_spec_poly5 mpfit _ _ _ o ff) in H.
    assert (LF : forall o r, fit o = POk r -> forall e, mp_perror r = Some e -> List.length e = 6).
    { intros o r. unfold fit, fit_spec_poly5. destruct ff; try (intros Q; exact (proj2 (H6 _ r Q))). discriminate. }
    assert (LL : forall rem cur mp a x, (forall e, mp_perror mp = Some e -> List.length e = 6) -> order_loop fit rem cur mp a = POk x -> forall e, mp_perror (fst (fst x)) = Some e -> List.length e = 6).
    { induction rem; intros cur mp a x Lm; cbn [order_loop]; [intros [= <-]; auto|].
      destruct (fit cur) eqn:E; [|discriminate]. cbn [pybind]. destruct Rlt_dec; [apply IHrem; eauto|intros [= <-]; auto]. }
    destruct (po <? 0)%Z.
    - change (fit_spec_poly5 mpfit _ _ _ 0 ff) with (fit 0%Z) in H.
      destruct (fit 0%Z) as [mp|] eqn:E0; [|discriminate]. cbn [pybind] in H.
      destruct (order_loop fit _ _ _ _) as [[[m1 a1] c1]|] eqn:EL; [|discriminate]. cbn [pybind] in H.
      pose proof (LL _ _ _ _ _ (LF _ _ E0) EL) as L1. injection H as <-. cbn in *. destruct (mp_perror m1); rewrite map_length; auto.
    - change (fit_spec_poly5 mpfit _ _ _ po ff) with (fit po) in H.
      destruct (fit po) as [mp|] eqn:E0; [|discriminate]. cbn [pybind] in H. pose proof (LF _ _ E0) as L1. injection H as <-. cbn in *. destruct (mp_perror mp); rewrite map_length; auto.
  Qed.

  Lemma not_fittable : forall xy, ~ fittable (spec xy) rms -> good_chans freq (spec xy) rms = [].
  Proof.
    intros xy N. apply good_chans_none; [rewrite spec_len; auto|rewrite rms_len; auto|]. intros j Hj.
    destruct (nth j (spec xy) None) as [v|] eqn:E1; [|auto]. destruct (nth j rms None) as [e|] eqn:E2; [|auto]. exfalso. apply N. exists j, v, e. auto.
  Qed.

  Lemma fittable_chans : forall xy, fittable (spec xy) rms -> good_chans freq (spec xy) rms <> [].
  Proof.
    intros xy (j & v & e & E1 & E2) G. pose proof (proj1 (good_chans_none freq (spec xy) rms ltac:(rewrite spec_len; auto) ltac:(rewrite rms_len; auto)) G) as N.
    destruct (Nat.lt_ge_cases j (List.length freq)) as [Hj|Hj]; [destruct (N j Hj); congruence|]. rewrite nth_overflow in E1 by (rewrite spec_len; lia). discriminate.
  Qed.

  Lemma fitpix_fittable : forall xy r, fittable (spec xy) rms -> fitpix (spec xy) = POk r ->
    exists fr, fit_StokesI_model mpfit freq (spec xy) rms ord ff = POk fr /\ List.length (params fr) = 6 /\ List.length (perror fr) = 6 /\
      r = mk_pix_fit (map (fun f => Some (model_at fr f)) freq) (map Some (params fr)) (perror fr) (pcov fr) (Some (ref_freq fr)).
  Proof.
    intros xy r F E. unfold fitpix, fit_spectra_I in E. rewrite fun_of_known in E. assert (G := fittable_chans xy F).
    assert (A : all_nan_fit freq (spec xy) rms ord ff = false) by (unfold all_nan_fit; destruct (good_chans _ _ _); [congruence|reflexivity]).
    rewrite A in E. destruct (fit_StokesI_model mpfit freq (spec xy) rms ord ff) as [fr|] eqn:EF; [|discriminate]. cbn [pybind] in E.
    assert (L6 : List.length (params fr) = 6) by (refine (fit_params_len mpfit _ _ _ _ _ _ _ EF); intros q r0 Q; exact (proj1 (H6 q r0 Q))).
    exists fr. split; [reflexivity|]. split; [exact L6|]. split; [eapply fit_perror_len; eauto|].
    rewrite calc_spec in E; [|exact L6|rewrite (fit_fun_kept _ _ _ _ _ _ _ EF); apply ff_known]. cbn [pybind] in E. rewrite map_map in E. injection E as <-. reflexivity.
  Qed.

  Lemma fitpix_unfittable : forall xy r, ~ fittable (spec xy) rms -> fitpix (spec xy) = POk r ->
    Z.of_nat n <> (Z.max ord 0 + 1)%Z /\ r = mk_pix_fit (map (fun _ => None) freq) [Some 0%R; Some 0%R; Some 0%R; Some 0%R; Some 0%R; None] (repeat (Some 0%R) 6) None None.
  Proof.
    intros xy r F E. unfold fitpix, fit_spectra_I in E. rewrite fun_of_known in E. assert (G := not_fittable xy F).
    unfold all_nan_fit, fit_StokesI_model in E. rewrite G in E. cbn [pybind] in E. pose proof ff_known. rewrite Lf in E.
    assert (E' : (if negb (Z.of_nat n - Z.max ord 0 - 1 =? 0)%Z then POk (mk_pix_fit (map (fun _ => None) freq) [Some 0%R; Some 0%R; Some 0%R; Some 0%R; Some 0%R; None] (repeat (Some 0%R) 6) None None) else PErr) = POk r)
      by (destruct ff; [exact E|exact E|congruence]).
    destruct (Z.eqb_spec (Z.of_nat n - Z.max ord 0 - 1) 0); [discriminate|]. injection E' as <-. split; [lia|reflexivity].
  Qed.

  Lemma initial_at : forall lead pre y x, valid (lead ++ [ny; nx]) (pre ++ [y; x]) -> List.length pre = List.length lead -> y < ny -> x < nx ->
    at_nd None (initial lead) (pre ++ [y; x]) = if 0 <? msk [y; x] then Some 1%R else None.
  Proof.
    intros lead pre y x V L Hy Hx. unfold initial. rewrite at_tab_nd by exact V. rewrite <- L, skipn_app, skipn_all, Nat.sub_diag. cbn [app skipn].
    rewrite at_tab_nd by (repeat (constructor; auto)). reflexivity.
  Qed.

  Lemma nodup_keys : forall rs : list pix_fit, List.length rs = List.length (rev wh) -> NoDup (map (fun e : list nat * pix_fit => [nth 0 (fst e) 0; nth 1 (fst e) 0]) (combine (rev wh) rs)).
  Proof.
    intros rs L. replace (map _ (combine (rev wh) rs)) with (rev wh).
    - apply NoDup_rev. apply where_pos_nodup.
    - assert (G : forall (l : list (list nat)) (r : list pix_fit), List.length r = List.length l -> (forall xy, In xy l -> xy = [nth 0 xy 0; nth 1 xy 0]) ->
        l = map (fun e : list nat * pix_fit => [nth 0 (fst e) 0; nth 1 (fst e) 0]) (combine l r)).
      { induction l as [|xy l IH]; intros [|r0 r] Lr F; try discriminate; [reflexivity|]. cbn [combine map fst]. rewrite <- IH; [|cbn in Lr; lia|intros; apply F; now right]. f_equal. apply F. now left. }
      apply G; [exact L|]. intros xy I. apply in_rev in I. apply (where_pos_form _ _ _ _ I).
  Qed.

  Lemma forall2_combine_in : forall {A B} (P : A -> B -> Prop) l r x, Forall2 P l r -> In x l -> exists b, In (x, b) (combine l r) /\ P x b.
  Proof.
    intros A B P l r x F. induction F as [|a b l r p F IH]; intros I; [destruct I|]. destruct I as [->|I].
    - exists b. split; [now left|exact p].
    - destruct (IH I) as (b' & I' & p'). exists b'. split; [now right|exact p'].
  Qed.

  Lemma wh_in : forall y x, In [y; x] (rev wh) <-> y < ny /\ x < nx /\ 0 < msk [y; x].
  Proof. intros. rewrite <- in_rev. apply where_pos_spec. Qed.

  Lemma out_of_wh : forall rs y x, ~ 0 < msk [y; x] -> forall e : list nat * pix_fit, In e (combine (rev wh) rs) -> [nth 0 (fst e) 0; nth 1 (fst e) 0] <> [y; x].
  Proof.
    intros rs y x N [xy r] I E. apply in_combine_l in I. cbn [fst] in E. assert (F := I). apply in_rev in F. apply where_pos_form in F. rewrite F, E in I.
    apply wh_in in I. tauto.
  Qed.

  Lemma v2 : forall y x, y < ny -> x < nx -> valid [ny; nx] [y; x].
  Proof. intros. repeat (constructor; auto). Qed.

  Lemma coeff_plane_at : forall (a : nd (option R)) i y x, shape a = [6; ny; nx] -> y < ny -> x < nx -> at_nd None (map_plane None a i) [y; x] = at_nd None a [i; y; x].
  Proof. intros a i y x S Hy Hx. unfold map_plane. rewrite S. cbn [tl]. rewrite at_tab_nd by (apply v2; auto). reflexivity. Qed.

  Definition in_mask (y x : nat) : Prop := 0 < msk [y; x].

  Lemma make_pixels : forall w, make_model_I mpfit cube nx ny bunit history ctype freq ord thr name am = POk w ->
    bunit = true /\ (Z.abs ord <= 5)%Z /\ w_noise w = rms /\ List.length (w_coeff w) = Z.to_nat (Z.abs ord) + 1 /\ w_history w = history ++ history_lines ord name /\
    i_naxis (w_model w) = [nx; ny; n] /\ i_ctype (w_model w) = firstn 3 ctype /\ shape (i_data (w_model w)) = [n; ny; nx] /\ wf_nd (i_data (w_model w)) /\
    maps_of_size w ny nx /\ shape (w_mask w) = [ny; nx] /\ wf_nd (w_mask w) /\
    forall y x, y < ny -> x < nx ->
      at_nd None (w_mask w) [y; x] = (if 0 <? msk [y; x] then Some 1%R else None) /\
      (in_mask y x -> fittable (spec [y; x]) rms -> exists fr, fit_StokesI_model mpfit freq (spec [y; x]) rms ord ff = POk fr /\ pixel_says w freq y x fr) /\
      (in_mask y x -> ~ fittable (spec [y; x]) rms -> pixel_unfitted w n y x /\ Z.of_nat n <> (Z.max ord 0 + 1)%Z) /\
      (~ in_mask y x -> pixel_blank w n y x).
  Proof.
    intros w H. rewrite make_shape in H. destruct (pyall (map fitpix (map spec (rev wh)))) as [rs|] eqn:EP; [|discriminate]. cbn [pybind] in H.
    destruct bunit; [|discriminate]. destruct (Z.ltb_spec 5 (Z.abs ord)) as [|Ho]; [discriminate|]. cbn [negb] in H. cbv zeta in H. rewrite map_map in EP. apply pyall_inv in EP.
    assert (L : List.length rs = List.length (rev wh)) by (symmetry; eapply Forall2_length; exact EP).
    set (l := combine (rev wh) rs) in *.
    set (cs := fold_left _ l (initial [6])) in H at 1. set (es := fold_left _ l (initial [6])) in H at 1.
    set (rf := fold_left _ l (initial [])) in H. set (cv := fold_left _ l (initial [6; 6])) in H. set (Is := fold_left _ l (tab_nd [n; ny; nx] (fun _ => None))) in H.
    assert (Scs : shape cs = [6; ny; nx]) by (unfold cs; rewrite (writes_shape None (fun e : list nat * pix_fit => nth 0 (fst e) 0) (fun e => nth 1 (fst e) 0)); reflexivity).
    assert (Ses : shape es = [6; ny; nx]) by (unfold es; rewrite (writes_shape None (fun e : list nat * pix_fit => nth 0 (fst e) 0) (fun e => nth 1 (fst e) 0)); reflexivity).
    assert (Srf : shape rf = [ny; nx]) by (unfold rf; rewrite (writes_shape None (fun e : list nat * pix_fit => nth 0 (fst e) 0) (fun e => nth 1 (fst e) 0)); reflexivity).
    assert (Scv : shape cv = [6; 6; ny; nx]) by (unfold cv; rewrite (writes_shape None (fun e : list nat * pix_fit => nth 0 (fst e) 0) (fun e => nth 1 (fst e) 0)); reflexivity).
    assert (SIs : shape Is = [n; ny; nx]) by (unfold Is; rewrite (writes_shape None (fun e : list nat * pix_fit => nth 0 (fst e) 0) (fun e => nth 1 (fst e) 0)); reflexivity).
    assert (Wrf : wf_nd rf) by (unfold rf; apply (writes_wf None (fun e : list nat * pix_fit => nth 0 (fst e) 0) (fun e => nth 1 (fst e) 0)); apply wf_tab_nd).
    assert (Wcv : wf_nd cv) by (unfold cv; apply (writes_wf None (fun e : list nat * pix_fit => nth 0 (fst e) 0) (fun e => nth 1 (fst e) 0)); apply wf_tab_nd).
    assert (WIs : wf_nd Is) by (unfold Is; apply (writes_wf None (fun e : list nat * pix_fit => nth 0 (fst e) 0) (fun e => nth 1 (fst e) 0)); apply wf_tab_nd).
    injection H as <-. cbn [w_noise w_coeff w_history w_model w_mask i_naxis i_ctype i_data].
    split; [reflexivity|]. split; [exact Ho|]. split; [reflexivity|]. split; [now rewrite map_length, seq_length|]. split; [reflexivity|]. split; [reflexivity|]. split; [reflexivity|].
    split; [exact SIs|]. split; [exact WIs|]. split.
    { unfold maps_of_size. cbn [w_ref w_cov w_coeff]. split; [exact Srf|]. split; [exact Wrf|]. split; [exact Scv|]. split; [exact Wcv|]. rewrite map_length, seq_length. split; [lia|].
      intros p I. apply in_map_iff in I. destruct I as (i & <- & _). cbn [fst]. unfold map_plane. rewrite Scs. split; [reflexivity|apply wf_tab_nd]. }
    split; [reflexivity|]. split; [apply wf_tab_nd|].
    intros y x Hy Hx. pose proof (v2 y x Hy Hx) as V. split; [now rewrite at_tab_nd by exact V|].
    unfold pixel_says, pixel_unfitted, pixel_blank, ref_at, model_sample, coeff_at, err_at, cov_at. cbn [w_ref w_model w_coeff w_cov i_data].
    rewrite map_length, seq_length.
    assert (VI : forall j, j < n -> valid [n; ny; nx] ([j] ++ [y; x])) by (intros; repeat (constructor; auto)).
    assert (VC : forall i, i < 6 -> valid [6; ny; nx] ([i] ++ [y; x])) by (intros; repeat (constructor; auto)).
    assert (VV : forall a b, a < 6 -> b < 6 -> valid [6; 6; ny; nx] ([a; b] ++ [y; x])) by (intros; repeat (constructor; auto)).
    assert (PL : forall i, i < Z.to_nat (Z.abs ord) + 1 -> nth i (map (fun i => (map_plane None cs i, map_plane None es i)) (seq 0 (Z.to_nat (Z.abs ord) + 1))) (mk_nd [] [], mk_nd [] []) = (map_plane None cs i, map_plane None es i)).
    { intros i Hi. rewrite nth_map_seq by exact Hi. rewrite Nat.add_0_l. reflexivity. }
    assert (IN : forall r, In ([y; x], r) l ->
       at_nd None rf [y; x] = pf_ref r /\ (forall j, j < n -> at_nd None Is [j; y; x] = nth j (pf_I r) None) /\
       (List.length (pf_coeffs r) = 6 -> List.length (pf_err r) = 6 -> forall i, i < 6 -> at_nd None cs [i; y; x] = nth (5 - i) (pf_coeffs r) None /\ at_nd None es [i; y; x] = nth (5 - i) (pf_err r) None) /\
       (forall a b, a < 6 -> b < 6 -> at_nd None cv [a; b; y; x] = option_map (fun c => c a b) (pf_cov r))).
    { intros r I. pose proof (nodup_keys rs L) as ND. fold l in ND. split; [|split; [|split]].
      - unfold rf. pose proof (writes_at None (fun e : list nat * pix_fit => nth 0 (fst e) 0) (fun e => nth 1 (fst e) 0) (fun e _ _ => pf_ref (snd e)) l (initial []) [] ([y; x], r)) as Wa. cbn [fst snd nth app] in Wa. apply Wa; auto.
      - intros j Hj. unfold Is. pose proof (writes_at None (fun e : list nat * pix_fit => nth 0 (fst e) 0) (fun e => nth 1 (fst e) 0) (fun e idx _ => nth (nth 0 idx 0) (pf_I (snd e)) None) l (tab_nd [n; ny; nx] (fun _ => None)) [j] ([y; x], r)) as Wa. cbn [fst snd nth app] in Wa. apply Wa; auto. apply (VI j Hj).
      - intros L1 L2 i Hi. split; [unfold cs|unfold es].
        + pose proof (writes_at None (fun e : list nat * pix_fit => nth 0 (fst e) 0) (fun e => nth 1 (fst e) 0) (fun e idx old => if 5 - nth 0 idx 0 <? Nat.min 6 (Nat.min (List.length (pf_coeffs (snd e))) (List.length (pf_err (snd e)))) then nth (5 - nth 0 idx 0) (pf_coeffs (snd e)) None else old) l (initial [6]) [i] ([y; x], r)) as Wa.
          cbn [fst snd nth app] in Wa. rewrite Wa; [|apply (VC i Hi)|auto|auto]. rewrite L1, L2. destruct (Nat.ltb_spec (5 - i) (Nat.min 6 (Nat.min 6 6))); [reflexivity|lia].
        + pose proof (writes_at None (fun e : list nat * pix_fit => nth 0 (fst e) 0) (fun e => nth 1 (fst e) 0) (fun e idx old => if 5 - nth 0 idx 0 <? Nat.min 6 (Nat.min (List.length (pf_coeffs (snd e))) (List.length (pf_err (snd e)))) then nth (5 - nth 0 idx 0) (pf_err (snd e)) None else old) l (initial [6]) [i] ([y; x], r)) as Wa.
          cbn [fst snd nth app] in Wa. rewrite Wa; [|apply (VC i Hi)|auto|auto]. rewrite L1, L2. destruct (Nat.ltb_spec (5 - i) (Nat.min 6 (Nat.min 6 6))); [reflexivity|lia].
      - intros a b Ha Hb. unfold cv. pose proof (writes_at None (fun e : list nat * pix_fit => nth 0 (fst e) 0) (fun e => nth 1 (fst e) 0) (fun e idx _ => option_map (fun c => c (nth 0 idx 0) (nth 1 idx 0)) (pf_cov (snd e))) l (initial [6; 6]) [a; b] ([y; x], r)) as Wa. cbn [fst snd nth app] in Wa. apply Wa; auto. apply (VV a b Ha Hb). }
    assert (IM : in_mask y x -> exists r, In ([y; x], r) l /\ fitpix (spec [y; x]) = POk r).
    { intros M. apply (forall2_combine_in _ _ _ [y; x] EP). apply wh_in. auto. }
    split; [|split].
    - intros M F. destruct (IM M) as (r & I & Er). destruct (fitpix_fittable _ _ F Er) as (fr & EF & L1 & L2 & ->). exists fr. split; [exact EF|].
      destruct (IN _ I) as (Q1 & Q2 & Q3 & Q4). cbn [pf_ref pf_I pf_coeffs pf_err pf_cov] in *. rewrite map_length in Q3. split; [exact Q1|]. split; [|split].
      + intros j Hj. rewrite Q2 by lia. rewrite (nth_map_in _ freq j None 0%R) by exact Hj. reflexivity.
      + intros i Hi. rewrite PL by exact Hi. cbn [fst snd]. rewrite !coeff_plane_at by auto. destruct (Q3 L1 L2 i) as [-> ->]; [lia|]. split; [|reflexivity].
        rewrite (nth_map_in Some (params fr) _ None 0%R) by lia. reflexivity.
      + exact Q4.
    - intros M F. destruct (IM M) as (r & I & Er). destruct (fitpix_unfittable _ _ F Er) as (Hd & ->). split; [|exact Hd].
      destruct (IN _ I) as (Q1 & Q2 & Q3 & Q4). cbn [pf_ref pf_I pf_coeffs pf_err pf_cov] in *. split; [exact Q1|]. split; [|split].
      + intros j Hj. rewrite Q2 by lia. rewrite (nth_map_in _ freq j None 0%R) by lia. reflexivity.
      + intros i Hi. rewrite PL by exact Hi. cbn [fst snd]. rewrite !coeff_plane_at by auto. destruct (Q3 eq_refl eq_refl i) as [-> ->]; [lia|].
        assert (Hi6 : i < 6) by lia. clear - Hi6. do 6 (destruct i as [|i]; [split; reflexivity|]). lia.
      + exact Q4.
    - intros M. pose proof (out_of_wh rs y x M) as OW. fold l in OW.
      assert (B : (0 <? msk [y; x]) = false) by (apply Nat.ltb_ge; unfold in_mask in M; lia).
      split; [|split; [|split]].
      + unfold rf. pose proof (writes_other None (fun e : list nat * pix_fit => nth 0 (fst e) 0) (fun e => nth 1 (fst e) 0) (fun e _ _ => pf_ref (snd e)) l (initial []) [] y x V OW) as Wo. cbn [app] in Wo. rewrite Wo. etransitivity; [exact (initial_at [] [] y x V eq_refl Hy Hx)|]. rewrite B. reflexivity.
      + intros j Hj. unfold Is. pose proof (writes_other None (fun e : list nat * pix_fit => nth 0 (fst e) 0) (fun e => nth 1 (fst e) 0) (fun e idx _ => nth (nth 0 idx 0) (pf_I (snd e)) None) l (tab_nd [n; ny; nx] (fun _ => None)) [j] y x (VI j Hj) OW) as Wo. cbn [app] in Wo. rewrite Wo. apply (at_tab_nd None [n; ny; nx] (fun _ => None)). apply (VI j Hj).
      + intros i Hi. rewrite PL by exact Hi. cbn [fst snd]. rewrite !coeff_plane_at by auto. assert (Hi6 : i < 6) by lia. split; [unfold cs|unfold es].
        * pose proof (writes_other None (fun e : list nat * pix_fit => nth 0 (fst e) 0) (fun e => nth 1 (fst e) 0) (fun e idx old => if 5 - nth 0 idx 0 <? Nat.min 6 (Nat.min (List.length (pf_coeffs (snd e))) (List.length (pf_err (snd e)))) then nth (5 - nth 0 idx 0) (pf_coeffs (snd e)) None else old) l (initial [6]) [i] y x (VC i Hi6) OW) as Wo. cbn [app] in Wo. rewrite Wo.
          etransitivity; [exact (initial_at [6] [i] y x (VC i Hi6) eq_refl Hy Hx)|]. rewrite B. reflexivity.
        * pose proof (writes_other None (fun e : list nat * pix_fit => nth 0 (fst e) 0) (fun e => nth 1 (fst e) 0) (fun e idx old => if 5 - nth 0 idx 0 <? Nat.min 6 (Nat.min (List.length (pf_coeffs (snd e))) (List.length (pf_err (snd e)))) then nth (5 - nth 0 idx 0) (pf_err (snd e)) None else old) l (initial [6]) [i] y x (VC i Hi6) OW) as Wo. cbn [app] in Wo. rewrite Wo.
          etransitivity; [exact (initial_at [6] [i] y x (VC i Hi6) eq_refl Hy Hx)|]. rewrite B. reflexivity.
      + intros a b Ha Hb. unfold cv. pose proof (writes_other None (fun e : list nat * pix_fit => nth 0 (fst e) 0) (fun e => nth 1 (fst e) 0) (fun e idx _ => option_map (fun c => c (nth 0 idx 0) (nth 1 idx 0)) (pf_cov (snd e))) l (initial [6; 6]) [a; b] y x (VV a b Ha Hb) OW) as Wo. cbn [app] in Wo. rewrite Wo.
        etransitivity; [exact (initial_at [6; 6] [a; b] y x (VV a b Ha Hb) eq_refl Hy Hx)|]. rewrite B. reflexivity.
  Qed.

  Lemma make_total : bunit = true -> (Z.abs ord <= 5)%Z -> (forall q, exists r, mpfit q = POk r) ->
    (Z.of_nat n <> (Z.max ord 0 + 1)%Z \/ forall y x, y < ny -> x < nx -> in_mask y x -> fittable (spec [y; x]) rms) ->
    exists w, make_model_I mpfit cube nx ny bunit history ctype freq ord thr name am = POk w.
  Proof.
    intros Hb Ho T HN. rewrite make_shape. rewrite map_map. destruct (pyall_total (fun xy => fitpix (spec xy)) (rev wh)) as (rs & ->).
    - intros xy I. assert (F := I). apply in_rev in F. apply where_pos_form in F. rewrite F in I |- *. apply wh_in in I. destruct I as (Hy & Hx & M).
      set (y := nth 0 xy 0) in *. set (x := nth 1 xy 0) in *. unfold fitpix, fit_spectra_I. rewrite fun_of_known.
      destruct (all_nan_fit freq (spec [y; x]) rms ord ff) eqn:EA; [eexists; reflexivity|].
      assert (GC : good_chans freq (spec [y; x]) rms <> []).
      { destruct HN as [HN|HN]; [|apply fittable_chans; apply HN; auto]. intros G. unfold all_nan_fit in EA. rewrite G in EA. pose proof ff_known. rewrite Lf in EA.
        assert (EA' : negb (Z.of_nat n - Z.max ord 0 - 1 =? 0)%Z = false) by (destruct ff; [exact EA|exact EA|congruence]).
        destruct (Z.eqb_spec (Z.of_nat n - Z.max ord 0 - 1) 0); [lia|discriminate]. }
      destruct (fit_total mpfit freq (spec [y; x]) rms ord ff) as (fr & EF); [rewrite spec_len; auto|rewrite rms_len; auto|apply ff_known|exact T|rewrite <- good_chans_spec; [exact GC|rewrite spec_len; auto|rewrite rms_len; auto]|].
      rewrite EF. cbn [pybind].
      rewrite calc_spec; [|refine (fit_params_len mpfit _ _ _ _ _ _ _ EF); intros q r0 Q; exact (proj1 (H6 q r0 Q))|rewrite (fit_fun_kept _ _ _ _ _ _ _ EF); apply ff_known]. eexists; reflexivity.
    - cbn [pybind]. rewrite Hb. cbn [negb]. destruct (Z.ltb_spec 5 (Z.abs ord)); [lia|]. eexists; reflexivity.
  Qed.

  (** one spectrum that cannot be fitted stops everything *)
  Lemma make_err : forall y x, y < ny -> x < nx -> in_mask y x -> fitpix (spec [y; x]) = PErr ->
    make_model_I mpfit cube nx ny bunit history ctype freq ord thr name am = PErr.
  Proof.
    intros y x Hy Hx M E. rewrite make_shape. rewrite map_map. rewrite (pyall_err _ _ [y; x]); [reflexivity| |exact E]. apply wh_in. auto.
  Qed.
End Make.
