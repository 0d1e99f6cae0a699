(** Peak maps from files, and the files they are saved to. *)
From Coq Require Import Reals List Arith ZArith Bool Ascii String Lra Lia.
Set Warnings "-ambiguous-paths".
From Coquelicot Require Import Coquelicot.
From Verif Require Import CBase PyRes PyStr PyStr_Proofs PyList PyList_Proofs NdArray NdIndex Synth_Model Setup_Model Setup_Spec Setup_Proofs Cube_Model Cube_Spec Cube_Proofs Cube_Laws
  Measure_Model Run1D_Spec Pixfit_Model Pixfit_Spec Pixfit_Proofs Pixfit_Laws.
Import ListNotations.
Local Open Scope R_scope.

Lemma filter_len_le : forall {A} (f : A -> bool) l, (List.length (filter f l) <= List.length l)%nat.
Proof. intros A f l. induction l as [|a l IH]; [auto|]. cbn. destruct (f a); cbn; lia. Qed.
Lemma filter_all : forall {A} (f : A -> bool) l, List.length (filter f l) = List.length l -> filter f l = l.
Proof.
  intros A f l. induction l as [|a l IH]; [reflexivity|]. cbn. destruct (f a); cbn; intros H.
  - f_equal. apply IH. lia.
  - pose proof (filter_len_le f l). lia.
Qed.

Lemma kept_stokes : forall naxis k n a b, (1 <= k <= List.length naxis)%nat -> n <> 1%nat ->
  long_axes naxis (rev (others k (List.length naxis))) = [a; b] ->
  let N := List.length (with_len naxis k n) in
  (if (4 <=? N)%nat then long_axes (with_len naxis k n) (k :: rev (others k N)) else k :: rev (others k N)) = [k; a; b].
Proof.
  intros naxis k n a b Hk Hn Hl N. unfold N. rewrite length_with_len. set (M := List.length naxis) in *.
  destruct (Nat.leb_spec 4 M).
  - unfold long_axes. cbn [filter]. rewrite len_with_len by (unfold M in *; lia). rewrite Nat.eqb_refl. destruct (Nat.eqb_spec n 1); [contradiction|]. cbn [negb]. f_equal.
    rewrite <- Hl. unfold long_axes. apply filter_ext_in. intros c Ic. apply in_rev, in_others in Ic. rewrite len_with_len by (unfold M in *; lia).
    destruct (Nat.eqb_spec c k); [lia|reflexivity].
  - f_equal. rewrite <- Hl. symmetry. apply filter_all. change (filter _ _) with (long_axes naxis (rev (others k M))). rewrite Hl.
    pose proof (filter_len_le (fun a => negb (len naxis a =? 1)%nat) (rev (others k M))) as H2. fold (long_axes naxis (rev (others k M))) in H2. rewrite Hl in H2.
    rewrite rev_length, length_others in * by exact Hk. cbn [List.length] in *. lia.
Qed.

Lemma at_chan_in : forall naxis k n p j, (1 <= k <= List.length naxis)%nat -> in_image naxis p -> (j < n)%nat -> in_image (with_len naxis k n) (at_chan p k j).
Proof.
  intros naxis k n p j Hk Hp Hj a Ha. rewrite length_with_len in Ha. rewrite len_with_len by lia. unfold at_chan. destruct (Nat.eqb_spec a k); [exact Hj|apply Hp, Ha].
Qed.
Lemma at_chan_here : forall naxis k p j, in_image naxis p -> (j < len naxis k)%nat -> in_image naxis (at_chan p k j).
Proof. intros naxis k p j Hp Hj a Ha. unfold at_chan. destruct (Nat.eqb_spec a k) as [->|]; [exact Hj|apply Hp, Ha]. Qed.

Lemma filter_perm2 : forall (naxis : list nat) (k a b : nat), (1 <= k <= List.length naxis)%nat -> long_axes naxis (rev (others k (List.length naxis))) = [a; b] ->
  ((1 <= a <= List.length naxis)%nat /\ a <> k) /\ ((1 <= b <= List.length naxis)%nat /\ b <> k).
Proof.
  intros naxis k a b Hk E. assert (G : forall c, In c [a; b] -> (1 <= c <= List.length naxis)%nat /\ c <> k).
  { intros c Ic. rewrite <- E in Ic. unfold long_axes in Ic. apply filter_In in Ic. destruct Ic as [Ic _]. apply in_rev, in_others in Ic. lia. }
  split; apply G; [now left|right; now left].
Qed.

(** C46: at every sky position of the files *)
Theorem peakfit_files_maps : forall f k a b fwhm freq lam0 Ps noise g variance crpix crval cdelt,
  wf_image f -> spectral_axis (s "FDEP") (i_ctype f) k -> (2 <= len (i_naxis f) k)%nat ->
  long_axes (i_naxis f) (rev (others k (List.length (i_naxis f)))) = [a; b] ->
  filter (fun n => negb (n =? 1)%nat) (shape fwhm) = [len (i_naxis f) a; len (i_naxis f) b] ->
  0 < cdelt -> freq <> [] -> (forall x, In x freq -> 0 < x) ->
  good_stokes_file freq lam0 (i_naxis f) k g -> good_noise (List.length freq) noise ->
  let n := len (i_naxis f) k in
  exists m, peakfit_files f (mk_axis (Z.of_nat n) crpix crval cdelt) fwhm freq lam0 (names Ps) noise g (Some variance) = POk m /\
    maps_of (names Ps) (len (i_naxis f) a) (len (i_naxis f) b) m /\
    forall p, in_image (i_naxis f) p -> exists i0, ref_in freq lam0 k g p i0 /\
      let fw := nth (p a * len (i_naxis f) b + p b) (flat fwhm) None in
      let dF := noise_of variance noise i0 in
      forall P map, In (s (product_name P), map) m ->
        match measure_FDF_parms (sky_spectrum f k p) (List.map (fun j => world crval crpix cdelt (S j)) (seq 0 n)) fw dF (List.map lsq freq) lam0 5 with
        | POk q => reports freq lam0 q fw i0 dF P (at_nd None map [p a; p b])
        | PErr => at_nd None map [p a; p b] = None
        end.
Proof.
  intros f k a b fwhm freq lam0 Ps noise g variance crpix crval cdelt Wf Hk Hn Hab Sw Hd Hf0 Hf GI GN n.
  assert (Hk' : (1 <= k <= List.length (i_naxis f))%nat) by (destruct Wf as (_ & _ & L); rewrite <- L; apply Hk).
  destruct (filter_perm2 (i_naxis f) k a b Hk' Hab) as [[Ra Na] [Rb Nb]].
  destruct (read_FDF_spec None f k Wf Hk) as (W & S & V). cbv zeta in W, S, V. unfold long_axes in S, V. cbn [filter] in S, V.
  destruct (Nat.eqb_spec (len (i_naxis f) k) 1); [lia|]. cbn [negb] in S, V. fold (long_axes (i_naxis f) (rev (others k (List.length (i_naxis f))))) in S, V. rewrite Hab in S, V. cbn [map] in S, V.
  unfold peakfit_files. cbv zeta. destruct (lin_axis_world n crpix crval cdelt Hd ltac:(unfold n; lia)) as (phi & Ep & Lp & Vp). rewrite Ep. cbn [pybind].
  assert (EP : phi = map (fun j => world crval crpix cdelt (Datatypes.S j)) (seq 0 n)).
  { apply (nth_ext _ _ 0 0); [now rewrite map_length, seq_length|]. intros j Hj. rewrite Lp in Hj. rewrite Vp, nth_map_seq by exact Hj. reflexivity. }
  assert (RI : exists I, (match g with None => POk None | Some f0 => pybind (readFitsCube None f0) (fun a => POk (Some a)) end) = POk I /\
      good_stokes freq lam0 I (len (i_naxis f) a) (len (i_naxis f) b) /\
      forall p v, in_image (i_naxis f) p -> ref_at freq lam0 I (p a) (p b) v -> ref_in freq lam0 k g p v).
  { destruct g as [g|]; [|exists None; split; [reflexivity|]; split; [exact I|]; intros p v _ H; exact H].
    destruct GI as (Wg & Kg & Ng & Lg & A & L0 & B). destruct (read_cube None g k Wg Kg) as [RC _]. cbv zeta in RC. rewrite Ng in RC.
    rewrite (kept_stokes (i_naxis f) k (List.length freq) a b Hk' Lg Hab) in RC. destruct (RC ltac:(cbn; lia)) as (cube & Ec & Wc & Sc & Vc).
    exists (Some cube). rewrite Ec. split; [reflexivity|]. cbn [map] in Sc. rewrite !len_with_len in Sc by lia. rewrite Nat.eqb_refl in Sc.
    destruct (Nat.eqb_spec a k); [contradiction|]. destruct (Nat.eqb_spec b k); [contradiction|]. split; [repeat split; auto; apply B|].
    intros p v Hp H. assert (CV : forall j, (j < List.length freq)%nat -> at_nd None cube [j; p a; p b] = vox None g (at_chan p k j)).
    { intros j Hj. rewrite <- Vc by (apply at_chan_in; auto). cbn [map]. unfold at_chan. rewrite Nat.eqb_refl. destruct (Nat.eqb_spec a k); [contradiction|]. destruct (Nat.eqb_spec b k); [contradiction|]. reflexivity. }
    destruct H as [(j & Hj & E & ->)|(j & Hj & E & ->)]; [left|right]; exists j; (split; [exact Hj|]); (split; [exact E|]).
    - now apply CV.
    - rewrite !CV by lia. reflexivity. }
  destruct RI as (Icube & EI & GI' & RI). rewrite EI. cbn [pybind]. rewrite S. cbn [List.length Nat.eqb].
  destruct (pixelwise_maps (read_FDF_cube None f) phi (squeeze fwhm) freq lam0 Ps noise Icube variance (len (i_naxis f) k) (len (i_naxis f) a) (len (i_naxis f) b) S Sw Hf0 Hf GI' GN) as (m & Em & Mm & Vm).
  exists m. split; [exact Em|]. split; [exact Mm|]. intros p Hp.
  assert (Pa : (p a < len (i_naxis f) a)%nat) by (apply Hp; lia). assert (Pb : (p b < len (i_naxis f) b)%nat) by (apply Hp; lia).
  destruct (Vm (p a) (p b) Pa Pb) as (i0 & R0 & VV). exists i0. split; [apply RI; auto|]. cbv zeta in VV |- *.
  assert (EF : at_nd None (squeeze fwhm) [p a; p b] = nth (p a * len (i_naxis f) b + p b) (flat fwhm) None).
  { unfold at_nd, squeeze. cbn [shape flat]. rewrite Sw. f_equal. cbn. lia. }
  assert (ES : pixel_spectrum (read_FDF_cube None f) (len (i_naxis f) k) (p a) (p b) = sky_spectrum f k p).
  { unfold pixel_spectrum, sky_spectrum. apply map_ext_in. intros j Ij. apply in_seq in Ij. rewrite <- V by (apply at_chan_here; [exact Hp|lia]). unfold at_chan. rewrite Nat.eqb_refl.
    destruct (Nat.eqb_spec a k); [contradiction|]. destruct (Nat.eqb_spec b k); [contradiction|]. reflexivity. }
  rewrite EF, ES, EP in VV. exact VV.
Qed.

(** The three lists of the tool are names of products; the full one of all. *)
Theorem product_lists : forall all_products peak_only ps, product_list all_products peak_only = POk ps ->
  (exists Ps, ps = names Ps /\ NoDup Ps) /\ (all_products = true -> forall P, In (s (product_name P)) ps).
Proof.
  intros all po ps H. unfold product_list in H. destruct po, all; try discriminate; injection H as <-; split; try discriminate.
  - exists [Pcormad; Pphi; Pdphi; Peff; Pdamp; Psnr; Pangle0; Pdangle0]. split; [reflexivity|]. repeat constructor; cbn; intuition discriminate.
  - exists [Pcormad; Pphi; Pdphi; Pamp; Peff; Pdamp; Psnr; Pindx; Pimag; Preal; Pangle; Pdangle; Pangle0; Pdangle0; PI0; Pnoise; Plam0; Pfreq0; Pfwhm; Pmin; Pmax; Pchans; Pwidth; Pfrac].
    split; [reflexivity|]. repeat constructor; cbn; intuition discriminate.
  - intros _ P. destruct P; cbn; tauto.
  - exists [Pcormad; Pphi; Pdphi; Peff; Pdamp; Psnr; Pimag; Preal; PI0; Plam0; Pangle0; Pdangle0]. split; [reflexivity|]. repeat constructor; cbn; intuition discriminate.
Qed.

(** ** Saving *)
Lemma unit_known : forall flux P, dget (unit_dict flux) (s (product_name P)) = POk (product_unit flux P).
Proof. intros flux P. destruct P; reflexivity. Qed.

Lemma pyall_map : forall {A B} (f : A -> pyres B) (g : A -> B) l, (forall a, In a l -> f a = POk (g a)) -> pyall (map f l) = POk (map g l).
Proof.
  intros A B f g l H. induction l as [|a l IH]; [reflexivity|]. cbn [map pyall]. rewrite (H a (or_introl eq_refl)). cbn [pybind]. rewrite IH by (intros; apply H; now right). reflexivity.
Qed.

Lemma drop_to_slash_spec : forall r x, (forall c, In c r -> c <> slash) -> drop_to_slash (r ++ slash :: x) = slash :: x.
Proof.
  induction r as [|c r IH]; intros x H; [cbn [app drop_to_slash]; rewrite ch_eqb_refl; reflexivity|]. cbn [app drop_to_slash]. rewrite ch_eqb_neq by (apply H; now left). apply IH. intros; apply H; now right.
Qed.
Lemma drop_to_slash_none : forall r, (forall c, In c r -> c <> slash) -> drop_to_slash r = [].
Proof. induction r as [|c r IH]; intros H; [reflexivity|]. cbn [drop_to_slash]. rewrite ch_eqb_neq by (apply H; now left). apply IH. intros; apply H; now right. Qed.

(** the directory of a path dir/name *)
Lemma dirname_spec : forall d c name, c <> slash -> (forall x, In x name -> x <> slash) -> dirname (d ++ [c] ++ [slash] ++ name) = (d ++ [c])%list.
Proof.
  intros d c name Hc H. unfold dirname. rewrite !rev_app_distr. cbn [rev app]. rewrite <- !app_assoc. cbn [app].
  rewrite drop_to_slash_spec by (intros x Ix; apply H; now apply in_rev). cbn [forallb]. rewrite ch_eqb_refl, (ch_eqb_neq c slash) by exact Hc. cbn [andb].
  cbn [drop_slashes]. rewrite ch_eqb_refl, (ch_eqb_neq c slash) by exact Hc. cbn [rev]. now rewrite rev_involutive.
Qed.
Lemma dirname_none : forall name, (forall x, In x name -> x <> slash) -> dirname name = [].
Proof. intros name H. unfold dirname. rewrite drop_to_slash_none by (intros x Ix; apply H; now apply in_rev). reflexivity. Qed.

(** C46: the files *)
Theorem save_maps_files : forall (dirs : list str) (m : maps) (d : str) c (name : str) bunit Ps,
  c <> slash -> (forall x, In x name -> x <> slash) -> (forall n a, In (n, a) m -> In n (names Ps)) ->
  let dir : str := (d ++ [c])%list in
  (In dir dirs \/ (forall x, In x dir -> x <> slash) \/
    (exists (up : str) c' (sub : str), dir = (up ++ [c'] ++ [slash] ++ sub)%list /\ c' <> slash /\ (forall x, In x sub -> x <> slash) /\ In (up ++ [c'])%list dirs)) ->
  exists dirs' files, save_maps dirs m (dir ++ [slash] ++ name) bunit = POk (dirs', files) /\ In dir dirs' /\
    map fst files = map (fun na => (dir ++ [slash] ++ name ++ fst na ++ s ".fits")%list) m /\
    forall P a, In (s (product_name P), a) m -> In ((dir ++ [slash] ++ name ++ s (product_name P) ++ s ".fits")%list, (product_unit (match bunit with Some u => u | None => [] end) P, a)) files.
Proof.
  intros dirs m d c name bunit Ps Hc Hn K dir Hdir. unfold save_maps. set (flux := match bunit with Some u => u | None => [] end).
  assert (ED : dirname (dir ++ [slash] ++ name) = dir) by (unfold dir; rewrite <- app_assoc; now apply dirname_spec). rewrite ED.
  assert (Ne : dir <> []) by (unfold dir; destruct d; discriminate).
  assert (EX : forall x, x <> [] -> exists_dir dirs x = true <-> In x dirs).
  { intros x Hx. unfold exists_dir. destruct x as [|y x]; [now destruct Hx|]. rewrite existsb_exists. split; [intros (z & Iz & E); apply str_eqb_eq in E; now subst|intros I; exists (y :: x); split; [exact I|apply str_eqb_refl]]. }
  assert (MK : exists dirs' : list str, (if exists_dir dirs dir then POk dirs else mkdir dirs dir) = POk dirs' /\ In dir dirs').
  { destruct (exists_dir dirs dir) eqn:E; [exists dirs; split; [reflexivity|now apply EX]|]. exists (dir :: dirs). split; [|now left].
    unfold mkdir. rewrite E. destruct Hdir as [I|[NS|(up & c' & sub & E2 & Hc' & Hs & I)]].
    - apply EX in I; auto. congruence.
    - rewrite (dirname_none dir NS). destruct dir; [now destruct Ne|reflexivity].
    - assert (dirname dir = (up ++ [c'])%list) as -> by (rewrite E2; now apply dirname_spec).
      assert (exists_dir dirs (up ++ [c']) = true) as Eu by (apply EX; [destruct up; discriminate|exact I]). destruct dir; [now destruct Ne|]. destruct (up ++ [c'])%list eqn:Z; [destruct up; discriminate|]. now rewrite Eu. }
  destruct MK as (dirs' & -> & Id). cbn [pybind].
  assert (UN : forall na, In na m -> exists P, fst na = s (product_name P)).
  { intros [q a] Ina. specialize (K q a Ina). unfold names in K. apply in_map_iff in K. destruct K as (P & <- & _). now exists P. }
  assert (PA : forall na, In na m -> exists u, dget (unit_dict flux) (fst na) = POk u).
  { intros na Ina. destruct (UN na Ina) as [P ->]. rewrite unit_known. eexists; reflexivity. }
  set (file := fun na : str * nd (option R) => ((dir ++ [slash] ++ name) ++ fst na ++ s ".fits", (match dget (unit_dict flux) (fst na) with POk u => u | PErr => [] end, snd na))%list).
  assert (EA : pyall (map (fun pa => pybind (dget (unit_dict flux) (fst pa)) (fun u => POk (((dir ++ [slash] ++ name) ++ fst pa ++ s ".fits")%list, (u, snd pa)))) m) = POk (map file m)).
  { apply pyall_map. intros na Ina. destruct (PA na Ina) as [u Eu]. unfold file. rewrite Eu. reflexivity. }
  rewrite EA. cbn [pybind]. exists dirs', (map file m). split; [reflexivity|]. split; [exact Id|]. split.
  - rewrite map_map. apply map_ext. intros na. unfold file. cbn [fst]. now rewrite <- !app_assoc.
  - intros P a I. apply in_map_iff. exists (s (product_name P), a). split; [|exact I]. unfold file. cbn [fst snd]. rewrite unit_known. now rewrite <- !app_assoc.
Qed.

(** finding: a prefix without a directory cannot be saved to *)
Theorem save_here_raises : forall dirs m prefix bunit, (forall x, In x prefix -> x <> slash) -> save_maps dirs m prefix bunit = PErr.
Proof. intros dirs m prefix bunit H. unfold save_maps. rewrite (dirname_none prefix H). reflexivity. Qed.
