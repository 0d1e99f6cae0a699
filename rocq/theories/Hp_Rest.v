(** Numbers in text, the progress bar, records, headers and wavelengths. *)
From Coq Require Import Reals List Arith ZArith Bool Ascii String Lra Lia Permutation.
Set Warnings "-ambiguous-paths".
From Verif Require Import CBase PyRes PyStr PyStr_Proofs PyList PyList_Proofs Cat_Model Cat_Spec Cat_Text Pixfit_Model Pixfit_Proofs Hd_Proofs Hp_Model Hp_Spec Hp_Config.
Import ListNotations.
Local Notation length := List.length.
Local Open Scope list_scope.
Local Open Scope R_scope.

Theorem xfloat_reads : forall {D} b n c (d : D), num_ok n -> pad b -> pad c -> xfloat (Some (b ++ show n ++ c)) d = inl (Some (num_value n)).
Proof.
  intros D b n c d O B K. unfold xfloat. rewrite (float_read b n c O B K). destruct (b ++ show n ++ c) eqn:E; [|reflexivity].
  apply app_eq_nil in E. destruct E as [_ E]. apply app_eq_nil in E. destruct E as [E _]. destruct (show_solid n O). congruence.
Qed.
(** text that starts with a letter of no number, or is blank *)
Theorem xfloat_default : forall {D} (d : D) x, (x = None \/ exists b t, pad b /\ x = Some (b ++ t) /\
    (t = [] \/ exists c u, t = c :: u /\ ~ white c /\ ~ a_digit c /\ ~ In c ["."; "+"; "-"; "i"; "n"; "I"; "N"]%char)) -> xfloat x d = inr d.
Proof.
  intros D d x [->|(b & t & B & -> & H)]; [reflexivity|]. unfold xfloat. assert (E : py_float (b ++ t) = PErr).
  { unfold py_float. destruct H as [->|(c & u & -> & W & Dc & N)].
    - rewrite app_nil_r. replace (strip b) with (@nil ascii); [reflexivity|]. unfold strip. rewrite <- (app_nil_r b), lstrip_pad by assumption. reflexivity.
    - assert (S : exists v, strip (b ++ c :: u) = c :: v).
      { unfold strip. rewrite lstrip_pad by assumption. cbn [lstrip]. rewrite (not_white c W). cbn [rev].
        assert (X : forall y, exists y', lstrip (y ++ [c]) = y' ++ [c]).
        { induction y as [|a y [y' IH]]; [exists []; cbn; now rewrite (not_white c W)|]. cbn. destruct (is_space a); [eauto|exists (a :: y); reflexivity]. }
        destruct (X (rev u)) as [y' ->]. rewrite rev_app_distr. cbn. eauto. }
      destruct S as [v ->]. assert (G : sign_of (c :: v) = (1%Z, c :: v)).
      { cbn. rewrite !ch_eqb_neq; [reflexivity| |]; intros ->; apply N; cbn; tauto. }
      rewrite G. assert (L : forall w, w = s "inf" \/ w = s "infinity" \/ w = s "nan" -> str_eqb (map lower (c :: v)) w = false).
      { intros w Hw. apply str_eqb_neq. intros E. assert (Lc : lower c = "i"%char \/ lower c = "n"%char) by (destruct Hw as [->|[->| ->]]; cbn in E; injection E; auto).
        apply N. clear - Lc. destruct c as [[] [] [] [] [] [] [] []]; destruct Lc as [Lc|Lc]; vm_compute in Lc; try discriminate Lc; cbn; tauto. }
      rewrite !L by tauto. cbn [orb]. assert (U : unsigned (c :: v) = None); [|now rewrite U]. unfold unsigned. cbn [digs].
      assert (Id : is_digit c = false) by (destruct (is_digit c) eqn:E; auto; exfalso; apply Dc; clear - E;
        unfold is_digit in E; apply andb_true_iff in E; destruct E as [A B]; apply Nat.leb_le in A, B; exists (nat_of_ascii c - 48)%nat; split; [lia|];
        unfold digit; replace (48 + (nat_of_ascii c - 48))%nat with (nat_of_ascii c) by lia; symmetry; apply ascii_nat_embedding).
      rewrite Id. rewrite andb_false_r. cbn [andb]. rewrite ch_eqb_neq by (intros ->; apply N; cbn; tauto). reflexivity. }
  rewrite E. destruct (b ++ t); reflexivity.
Qed.

(* ---------------------------------------------------------------- progress *)

Theorem progress_bar : forall (w : nat) p, 0 <= p <= 100 -> exists m, fst (progress (INR w) p) = repeat "="%char m ++ repeat " "%char (w - m) /\ (m <= w)%nat /\
  INR m <= INR w * p / 100 < INR m + 1 /\ (snd (progress (INR w) p) = true <-> p = 100).
Proof.
  intros w p H. unfold progress. set (q := INR w * (p / 100)). assert (W : 0 <= INR w) by apply pos_INR.
  assert (Q : 0 <= q <= INR w) by (unfold q; nra). pose proof (Rfloor_spec q) as F.
  assert (K : exists m : nat, Rfloor q = Z.of_nat m).
  { exists (Z.to_nat (Rfloor q)). rewrite Z2Nat.id; [reflexivity|]. assert (X : (-1 < Rfloor q)%Z) by (apply lt_IZR; lra). lia. }
  destruct K as [m K]. exists m. rewrite K in *. rewrite <- INR_IZR_INZ in *. assert (M : (m <= w)%nat) by (apply INR_le; lra).
  assert (E : Rfloor (INR w - INR m) = Z.of_nat (w - m)).
  { rewrite <- minus_INR by assumption. apply Rfloor_unique. rewrite <- INR_IZR_INZ. lra. }
  cbn [fst snd]. rewrite E, !Nat2Z.id. split; [reflexivity|]. split; [assumption|]. replace (INR w * p / 100) with q by (unfold q; field). split; [lra|].
  destruct (Rle_dec 100 p); split; intros; try reflexivity; try lra; discriminate.
Qed.

(* ----------------------------------------------------------------- records *)

Lemma pyall_ok : forall {A B} (f : A -> pyres B) l r, Forall2 (fun a b => f a = POk b) l r -> pyall (map f l) = POk r.
Proof. intros A B f l r F. induction F as [|a b l r E F IH]; [reflexivity|]. cbn. now rewrite E, IH. Qed.
Lemma pyall_err : forall {A} (l : list (pyres A)), In PErr l -> pyall l = PErr.
Proof. induction l as [|a l IH]; intros I; [destruct I|]. cbn. destruct I as [->|I]; [reflexivity|]. rewrite IH by assumption. destruct a; reflexivity. Qed.

Definition entry_type (e : str * str * option (list nat)) : pyres (cell -> pyres pyval) := match snd e with None => pyify (snd (fst e)) | Some _ => PErr end.
Lemma cell_ok : forall e c, fits e c -> exists f v, entry_type e = POk f /\ f c = POk v /\ became c v.
Proof.
  intros [[n ty] sh] c (E1 & o & k & rest & E2 & H). cbn [fst snd] in *. subst. unfold entry_type. cbn [fst snd pyify].
  destruct c as [z|x|b|t|n']; cbn [In] in H.
  - exists to_int, (PyInt z). destruct H as [->| ->]; repeat split.
  - subst. exists to_float, (PyFloat x). repeat split.
  - subst. exists to_str, (PyStr (str_bytes b)). repeat split.
  - subst. eexists. exists (PySame (CText t)). repeat split.
  - rewrite !ch_eqb_neq by (intros ->; tauto). eexists. exists (PySame (CElse n')). repeat split.
Qed.
Theorem records_convert : forall d a, (d = [] \/ a <> []) -> Forall (fun r => Forall2 fits d r) a ->
  exists l, irecarray_to_py d a = POk l /\ Forall2 (fun r v => Forall2 became r v) a l.
Proof.
  intros d a N F.
  assert (T : exists fs, pyall (map entry_type d) = POk fs /\ forall r, Forall2 fits d r -> exists v, pyall (map (fun cv => fst cv (snd cv)) (combine fs r)) = POk v /\ Forall2 became r v).
  { assert (D : forall d r0, Forall2 fits d r0 -> exists fs, pyall (map entry_type d) = POk fs /\
        forall r, Forall2 fits d r -> exists v, pyall (map (fun cv => fst cv (snd cv)) (combine fs r)) = POk v /\ Forall2 became r v).
    { clear. intros d r0 F. induction F as [|e c d r0 H F (fs & E & IH)].
      - exists []. split; [reflexivity|]. intros r R. inversion R; subst. exists []. split; [reflexivity|constructor].
      - destruct (cell_ok e c H) as (f & v0 & Ef & _). exists (f :: fs). split; [cbn; now rewrite Ef, E|].
        intros r R. inversion R as [|? c' ? r' H' R']; subst. destruct (IH r' R') as (v & Ev & Bv). destruct (cell_ok e c' H') as (f' & v' & Ef' & Ev' & Bv').
        rewrite Ef in Ef'. injection Ef' as <-. exists (v' :: v). split; [cbn; rewrite Ev', Ev; reflexivity|now constructor]. }
    destruct N as [->|N]; [apply (D [] []); constructor|]. destruct a as [|r a]; [congruence|]. inversion F; subst. eapply D; eassumption. }
  destruct T as (fs & E & T). unfold irecarray_to_py. fold entry_type. change (fun e : str * str * option (list nat) => match snd e with Some _ => PErr | None => pyify (snd (fst e)) end) with entry_type.
  rewrite E. cbn [pybind]. clear N E. induction F as [|r a H F (l & IH & B)]; [exists []; split; [reflexivity|constructor]|].
  destruct (T r H) as (v & Ev & Bv). exists (v :: l). split; [cbn [map pyall]; rewrite Ev, IH; reflexivity|now constructor].
Qed.
(** a field that is itself an array *)
Theorem records_array : forall d a e, In e d -> snd e <> None -> irecarray_to_py d a = PErr.
Proof.
  intros d a e I H. unfold irecarray_to_py. rewrite pyall_err; [reflexivity|]. apply in_map_iff. exists e. split; [|assumption]. destruct (snd e); [reflexivity|congruence].
Qed.
(** text kept as bytes comes back with quotes and a b *)
Theorem records_bytes_refuted : ~ (forall n ty b, irecarray_to_py [(n, ty, None)] [[CBytes b]] = POk [[PyStr b]] \/ ~ fits (n, ty, None) (CBytes b)).
Proof.
  intros H. destruct (H (s "name") (s "|S3") (s "abc")) as [E|N].
  - vm_compute in E. discriminate E.
  - apply N. split; [reflexivity|]. exists "|"%char, "S"%char, (s "3"). split; reflexivity.
Qed.

(* -------------------------------------------------------------- field views *)

Lemma ins_off_perm : forall x l, Permutation (ins_off x l) (x :: l).
Proof. induction l as [|y l IH]; [reflexivity|]. cbn. destruct (_ <=? _)%nat; [reflexivity|]. rewrite IH. apply perm_swap. Qed.
Lemma off_perm : forall l, Permutation (fold_right ins_off [] l) l.
Proof. induction l as [|x l IH]; [reflexivity|]. cbn. rewrite ins_off_perm. now constructor. Qed.
Lemma ins_off_sorted : forall x l, by_offset l -> by_offset (ins_off x l).
Proof.
  intros x l. induction l as [|y l IH]; intros S; [intros u v a b E; destruct u as [|? [|? ?]]; discriminate|]. cbn. destruct (snd (snd x) <=? snd (snd y))%nat eqn:E.
  - apply Nat.leb_le in E. intros u v a b H. destruct u as [|c u]; [injection H as -> <- _; exact E|]. injection H as -> H. apply (S u v a b H).
  - apply Nat.leb_gt in E. assert (S' : by_offset l) by (intros u v a b ->; apply (S (y :: u) v a b eq_refl)).
    specialize (IH S'). intros u v a b H. destruct u as [|c u]; injection H as -> H; [|now apply (IH u v a b)].
    destruct l as [|z l]; cbn in H; [injection H as <- _; lia|]. destruct (_ <=? _)%nat; injection H as <- _; [lia|]. apply (S [] l a z eq_refl).
Qed.
Lemma off_sorted : forall l, by_offset (fold_right ins_off [] l).
Proof. induction l as [|x l IH]; [intros u v a b E; destruct u; discriminate|]. now apply ins_off_sorted. Qed.

Lemma field_in : forall dt n v, NoDup (map fst dt) -> In (n, v) dt -> field dt n = POk v.
Proof.
  induction dt as [|[k w] dt IH]; intros n v N I; [destruct I|]. inversion N as [|? ? N1 N2]; subst. cbn. destruct I as [E|I].
  - injection E as -> ->. now rewrite str_eqb_refl.
  - rewrite str_eqb_neq; [auto|]. intros ->. apply N1. apply (in_map fst) in I. exact I.
Qed.
Lemma field_missing : forall dt n, ~ In n (map fst dt) -> field dt n = PErr.
Proof. induction dt as [|[k w] dt IH]; intros n N; [reflexivity|]. cbn in *. rewrite str_eqb_neq by (intros ->; tauto). apply IH. tauto. Qed.
Lemma dset_fresh : forall {V} (d : list (str * V)) k v, ~ In k (map fst d) -> dset d k v = d ++ [(k, v)].
Proof. induction d as [|[k' v'] d IH]; intros k v N; [reflexivity|]. cbn in *. rewrite str_eqb_neq by (intros ->; tauto). rewrite IH by tauto. reflexivity. Qed.
Lemma dict_of : forall {V} (l d : list (str * V)), NoDup (map fst (d ++ l)) -> fold_left (fun d kv => dset d (fst kv) (snd kv)) l d = d ++ l.
Proof.
  induction l as [|[k v] l IH]; intros d N; [now rewrite app_nil_r|]. cbn [fold_left fst snd]. rewrite dset_fresh.
  - rewrite IH by (rewrite <- app_assoc; exact N). now rewrite <- app_assoc.
  - rewrite map_app in N. cbn in N. apply NoDup_remove_2 in N. rewrite in_app_iff in N. tauto.
Qed.
(** the fields asked for, each with its type and offset; all of them if none is *)
Theorem view_fields : forall dt l, NoDup (map fst dt) -> NoDup (map fst l) -> (forall f, In f l -> In f dt) -> l <> [] ->
  exists v, fields_view dt (map fst l) = POk v /\ Permutation v l /\ by_offset v.
Proof.
  intros dt l Nd Nl H N. unfold fields_view. replace (match map fst l with [] => map fst dt | _ => map fst l end) with (map fst l) by (destruct l; [congruence|reflexivity]).
  assert (E : pyall (map (fun n => pybind (field dt n) (fun v => POk (n, v))) (map fst l)) = POk l).
  { rewrite map_map. apply pyall_ok. assert (X : forall m, (forall f, In f m -> In f dt) -> Forall2 (fun a b => pybind (field dt (fst a)) (fun v => POk (fst a, v)) = POk b) m m).
    { induction m as [|[n v] m IH]; intros Hm; constructor; [|apply IH; intros; apply Hm; now right]. cbn. rewrite (field_in dt n v Nd); [reflexivity|]. apply Hm. now left. }
    now apply X. }
  rewrite E. cbn [pybind]. rewrite (dict_of l []) by exact Nl. cbn [app]. eexists. split; [reflexivity|]. split; [apply off_perm|apply off_sorted].
Qed.
Theorem view_all : forall dt, NoDup (map fst dt) -> exists v, fields_view dt [] = POk v /\ Permutation v dt /\ by_offset v.
Proof.
  intros dt Nd. destruct dt as [|f dt]; [exists []; split; [reflexivity|split; [reflexivity|intros u v a b E; destruct u; discriminate]]|].
  destruct (view_fields (f :: dt) (f :: dt) Nd Nd (fun f H => H) ltac:(discriminate)) as (v & E & H). exists v. split; [|exact H]. rewrite <- E. reflexivity.
Qed.
Theorem view_missing : forall dt names n, In n names -> ~ In n (map fst dt) -> fields_view dt names = PErr.
Proof.
  intros dt names n I N. unfold fields_view. destruct names as [|m names]; [destruct I|]. rewrite pyall_err; [reflexivity|]. apply in_map_iff. exists n. rewrite field_missing by assumption. auto.
Qed.
(** not in the order asked for *)
Theorem view_order_refuted : ~ (forall dt l, NoDup (map fst dt) -> NoDup (map fst l) -> (forall f, In f l -> In f dt) -> l <> [] -> fields_view dt (map fst l) = POk l).
Proof.
  intros H. specialize (H [(s "a", (s "<i4", 0%nat)); (s "b", (s "<f8", 4%nat))] [(s "b", (s "<f8", 4%nat)); (s "a", (s "<i4", 0%nat))]).
  assert (X : POk [(s "a", (s "<i4", 0%nat)); (s "b", (s "<f8", 4%nat))] = POk [(s "b", (s "<f8", 4%nat)); (s "a", (s "<i4", 0%nat))]); [|discriminate X].
  rewrite <- H; [reflexivity| | |cbn; tauto|discriminate]; repeat constructor; cbn; intuition discriminate.
Qed.

(* ------------------------------------------------------------------ headers *)

Theorem delete_keeps : forall {V} (h : list (str * V)) n, exists f, delete_axis h n = filter f h /\
  forall kv, f kv = true <-> ~ In (fst kv) (map (fun w => s w ++ str_of_nat n) ["NAXIS"; "CRVAL"; "CRPIX"; "CDELT"; "CUNIT"; "CTYPE"]%string).
Proof.
  intros V h n. unfold delete_axis.
  assert (G : forall ws (h : list (str * V)), exists f, fold_left (fun h w => filter (fun kv => negb (str_eqb (fst kv) (w ++ str_of_nat n))) h) ws h = filter f h /\
    forall kv, f kv = true <-> ~ In (fst kv) (map (fun w => w ++ str_of_nat n) ws)).
  { clear. induction ws as [|w ws IH]; intros h; [exists (fun _ => true); split; [cbn; symmetry; apply filter_all; auto|cbn; tauto]|].
    cbn [fold_left]. destruct (IH (filter (fun kv => negb (str_eqb (fst kv) (w ++ str_of_nat n))) h)) as (f & -> & F).
    exists (fun kv => negb (str_eqb (fst kv) (w ++ str_of_nat n)) && f kv). split.
    - induction h as [|a h IHh]; [reflexivity|]. cbn [filter]. destruct (negb (str_eqb (fst a) (w ++ str_of_nat n))); cbn [filter andb]; rewrite IHh; reflexivity.
    - intros kv. rewrite andb_true_iff, F, negb_true_iff. cbn [map In]. destruct (str_eqb (fst kv) (w ++ str_of_nat n)) eqn:E.
      + apply str_eqb_eq in E. intuition congruence.
      + split; [|tauto]. intros [_ H] [X|X]; [rewrite X, str_eqb_refl in E; discriminate|auto]. }
  exact (G axis_words h).
Qed.
(** the words of other axes stay *)
Theorem delete_others : forall {V} (h : list (str * V)) n m w v, n <> m -> In w ["NAXIS"; "CRVAL"; "CRPIX"; "CDELT"; "CUNIT"; "CTYPE"]%string ->
  In (s w ++ str_of_nat m, v) h -> In (s w ++ str_of_nat m, v) (delete_axis h n).
Proof.
  intros V h n m w v N W I. destruct (delete_keeps h n) as (f & -> & F). apply filter_In. split; [assumption|]. apply F. cbn [fst]. intros J. apply in_map_iff in J.
  destruct J as (u & E & U). assert (L : forall z, In z ["NAXIS"; "CRVAL"; "CRPIX"; "CDELT"; "CUNIT"; "CTYPE"]%string -> length (s z) = 5%nat).
  { intros z Z. cbn in Z. destruct Z as [<-|[<-|[<-|[<-|[<-|[<-|[]]]]]]]; reflexivity. }
  apply (f_equal (skipn 5)) in E. rewrite <- (L u U) in E at 1. rewrite <- (L w W) in E. rewrite !skipn_app, !skipn_all, !Nat.sub_diag in E. cbn [skipn app] in E.
  now apply str_of_nat_inj in E.
Qed.
(** but other words of the axis stay too, and the number of axes *)
Theorem delete_left_refuted : ~ (forall (h : list (str * Z)) n k v, In (k, v) (delete_axis h n) -> ~ exists w, k = w ++ str_of_nat n).
Proof.
  intros H. apply (H [(s "CROTA3", 0%Z)] 3%nat (s "CROTA3") 0%Z); [vm_compute; auto|]. exists (s "CROTA"). reflexivity.
Qed.

(* -------------------------------------------------------------- wavelengths *)

Theorem l2_back : forall f, 0 < f -> l2_to_freq ((299792458 / f) ^ 2) = Some f.
Proof.
  intros f F. unfold l2_to_freq. assert (P : 0 < (299792458 / f) ^ 2) by (apply pow_lt, Rdiv_lt_0_compat; lra).
  destruct (Rlt_dec 0 ((299792458 / f) ^ 2)) as [r|n]; [|contradiction]. f_equal. replace (299792458 ^ 2 / (299792458 / f) ^ 2) with (f ^ 2) by (field; lra).
  apply sqrt_pow2. lra.
Qed.
Theorem l2_forth : forall x, 0 < x -> exists f, l2_to_freq x = Some f /\ 0 < f /\ (299792458 / f) ^ 2 = x.
Proof.
  intros x X. unfold l2_to_freq. destruct (Rlt_dec 0 x) as [r|n]; [|contradiction]. assert (P : 0 < 299792458 ^ 2 / x) by (apply Rdiv_lt_0_compat; lra).
  exists (sqrt (299792458 ^ 2 / x)). split; [reflexivity|]. split; [now apply sqrt_lt_R0|]. unfold Rdiv at 1. rewrite Rpow_mult_distr, pow_inv, pow2_sqrt by lra. field. lra.
Qed.
Theorem l2_array : forall l, Forall (fun f => 0 < f) l -> l2_to_freq_array (map (fun f => (299792458 / f) ^ 2) l) = map Some l.
Proof. intros l F. unfold l2_to_freq_array. rewrite map_map. apply map_ext_in. intros f I. rewrite Forall_forall in F. now apply l2_back, F. Qed.
