(** Small helpers for text, lists, records and headers: claim C90. *)
From Coq Require Import Reals List Arith ZArith Lia Lra Bool Permutation.
Set Warnings "-ambiguous-paths".
From Coquelicot Require Import Coquelicot.
From Verif Require Import PyRes PyStr Cat_Model Cat_Spec Cat_Text Hp_Model Hp_Spec Hp_Config Hp_Text Hp_Sort Hp_Rest.
From Coq Require Import String Ascii Permutation ZArith.
Local Notation length := List.length.
Local Notation Forall := List.Forall.
Local Open Scope list_scope.
Import ListNotations.
Local Open Scope R_scope.

(** C90. Configuration files: each keyword has the words of the last line that sets it (one word by itself, several as a list; without splitting, the value with short gaps). Comments, lines without a value and blank lines say nothing. *)
Theorem C90_config : forall b text sets, config text sets ->
  exists d, config_read b text = POk d /\ NoDup (map fst d) /\
  forall k v, In (k, v) d <-> exists a, last_said sets k a /\ v = (if b then as_value (fst a) else One (snd a)).
Proof. exact @config_reads. Qed.
Print Assumptions C90_config.
Definition conf : str := (s "# setup" ++ ["010"%char] ++ s " beam = 10, 20  5 # arcsec" ++ ["010"%char] ++ ["010"%char] ++ s "name=x")%list.
Lemma plain_dec : forall w, forallb (fun c => negb (is_sep c) && negb (ch_eqb c "'"%char) && negb (ch_eqb c "#"%char))%bool w = true -> Forall plain w.
Proof.
  intros w H. apply List.Forall_forall. intros c I. rewrite forallb_forall in H. apply H in I. apply andb_prop in I. destruct I as [I I3]. apply andb_prop in I. destruct I as [I1 I2].
  apply negb_true_iff in I1, I2, I3. unfold is_sep in I1. apply orb_false_elim in I1. destruct I1 as [I1 I5]. apply orb_false_elim in I1. destruct I1 as [I1 I4].
  split; [intros W; apply white_iff in W; congruence|]. cbn. intros [<-|[<-|[<-|[<-|[]]]]]; discriminate.
Qed.
Example C90_config_nonvacuous : exists sets, config conf sets /\ last_said sets (s "beam") ([s "10"; s "20"; s "5"], s "10,20 5") /\ last_said sets (s "name") ([s "x"], s "x").
Proof.
  exists [(s "beam", ([s "10"; s "20"; s "5"], s "10,20 5")); (s "name", ([s "x"], s "x"))]. split; [|split].
  - exists [s "# setup"; s " beam = 10, 20  5 # arcsec"; []; s "name=x"], [None; Some (s "beam", ([s "10"; s "20"; s "5"], s "10,20 5")); None; Some (s "name", ([s "x"], s "x"))].
    split; [discriminate|]. split; [repeat constructor; cbn; intuition discriminate|]. split; [reflexivity|]. split; [|reflexivity].
    assert (Pd : forall n, pad (repeat " "%char n)) by (induction n; constructor; auto).
    constructor; [left; eexists; reflexivity|]. constructor; [|constructor; [right; left; intros []|constructor; [|constructor]]].
    + exists (s " "), (s " "), (s " "), (s " "), (s "10"), [(s ", ", s "20"); (s "  ", s "5")], (s "# arcsec").
      do 4 (split; [exact (Pd 1%nat)|]). split; [split; [split; [discriminate|apply plain_dec; reflexivity]|cbn; intuition discriminate]|]. split; [split; [discriminate|apply plain_dec; reflexivity]|]. split.
      * constructor; [split; [right; exists (s " "); split; [exact (Pd 1%nat)|reflexivity]|split; [discriminate|apply plain_dec; reflexivity]]|].
        constructor; [split; [left; split; [exact (Pd 2%nat)|discriminate]|split; [discriminate|apply plain_dec; reflexivity]]|constructor].
      * split; [right; eexists; reflexivity|]. repeat split.
    + exists [], [], [], [], (s "x"), [], [].
      do 4 (split; [exact (Pd 0%nat)|]). split; [split; [split; [discriminate|apply plain_dec; reflexivity]|cbn; intuition discriminate]|]. split; [split; [discriminate|apply plain_dec; reflexivity]|].
      split; [constructor|]. split; [left; reflexivity|]. repeat split.
  - exists [], [(s "name", ([s "x"], s "x"))]. split; [reflexivity|]. cbn. intuition discriminate.
  - exists [(s "beam", ([s "10"; s "20"; s "5"], s "10,20 5"))], []. split; [reflexivity|]. cbn. tauto.
Qed.


(** C90. A comment that does not start the line raises if the only equals sign of the line is in it. *)
Theorem C90_config_comment : forall b k x, ~ In "="%char k -> ~ In "#"%char k -> k <> [] -> In "="%char x -> last x "="%char <> "="%char ->
  ~ In "010"%char (k ++ x) -> config_read b (k ++ "#"%char :: x) = PErr.
Proof. exact @config_comment. Qed.
Print Assumptions C90_config_comment.
Example C90_config_comment_nonvacuous : config_read true (s "  # beam = 3") = PErr.
Proof. apply (C90_config_comment true (s "  ") (s " beam = 3")); cbn; intuition discriminate. Qed.


(** C90. Refuted: comments after blanks are ignored. *)
Theorem C90_config_comment_refuted : ~ (forall b k x text sets, config text sets -> pad k -> ~ In "010"%char x ->
  config_read b (k ++ "#"%char :: x ++ "010"%char :: text) = config_read b text).
Proof. exact @config_comment_refuted. Qed.
Print Assumptions C90_config_comment_refuted.


(** C90. Refuted: a quoted text is one value. *)
Theorem C90_config_quotes_refuted : ~ (forall k v, keyword k -> Forall (fun c => plain c \/ c = " "%char) v -> v <> [] ->
  exists x, config_read true (k ++ s "='" ++ v ++ s "'") = POk [(k, One x)]).
Proof. exact @config_quotes_refuted. Qed.
Print Assumptions C90_config_quotes_refuted.


(** C90. A blank before a comma makes an empty entry. *)
Theorem C90_config_blank_comma : config_read true (s "x = 1 , 2") = POk [(s "x", Many [s "1"; []; s "2"])].
Proof. exact @config_blank_comma. Qed.
Print Assumptions C90_config_blank_comma.


(** C90. Cleaned text has the words of the text, in order. *)
Theorem C90_cleanup_words : forall x, words_of (cleanup_str_input x) = words_of x.
Proof. exact @cleanup_words. Qed.
Print Assumptions C90_cleanup_words.


(** C90. It has single spaces and line ends and no other white space, and none at the edges. *)
Theorem C90_cleanup_tidy : forall x, tidy (cleanup_str_input x).
Proof. exact @cleanup_tidy. Qed.
Print Assumptions C90_cleanup_tidy.


(** C90. A text like that is kept. *)
Theorem C90_cleanup_keeps : forall x, tidy x -> cleanup_str_input x = x.
Proof. exact @cleanup_keeps. Qed.
Print Assumptions C90_cleanup_keeps.
Example C90_cleanup_keeps_nonvacuous : tidy (cleanup_str_input (s "  two   words ")) /\ cleanup_str_input (s "  two   words ") = s "two words".
Proof. split; [apply C90_cleanup_tidy|reflexivity]. Qed.


(** C90. Refuted: no line is left without a word. *)
Theorem C90_cleanup_blank_refuted : ~ (forall x, Forall (fun l => words_of l <> []) (split "010"%char (cleanup_str_input x))).
Proof. exact @cleanup_blank_refuted. Qed.
Print Assumptions C90_cleanup_blank_refuted.


(** C90. Sorting keeps the names. *)
Theorem C90_sort_perm : forall l, Permutation (sort_nicely l) l.
Proof. exact @sort_perm. Qed.
Print Assumptions C90_sort_perm.


(** C90. No name comes before a smaller one: text by code point, numbers by value. *)
Theorem C90_sort_order : forall l u a v b w, sort_nicely l = u ++ a :: v ++ b :: w -> ~ smaller b a.
Proof. exact @sort_order. Qed.
Print Assumptions C90_sort_order.
Example C90_sort_order_nonvacuous : sort_nicely [s "chan10.fits"; s "chan9.fits"; s "chan007.fits"] = ([] ++ s "chan007.fits" :: [s "chan9.fits"] ++ s "chan10.fits" :: [])%list.
Proof. reflexivity. Qed.


(** C90. Names of which none is smaller stay in order. *)
Theorem C90_sort_stable : forall l (e : str -> bool), (forall x y, e x = true -> e y = true -> ~ smaller x y) -> filter e (sort_nicely l) = filter e l.
Proof. exact @sort_stable. Qed.
Print Assumptions C90_sort_stable.
Example C90_sort_stable_nonvacuous : sort_nicely [s "a07"; s "b"; s "a7"] = [s "a07"; s "a7"; s "b"] /\ ~ smaller (s "a07") (s "a7") /\ ~ smaller (s "a7") (s "a07").
Proof. split; [reflexivity|]. split; intros H; apply smaller_iff in H; discriminate H. Qed.


(** C90. Names that differ in one number are in the order of that number. *)
Theorem C90_sort_numbered : forall p q d e, ends_digitless p -> starts_digitless q -> d <> [] -> e <> [] -> Forall (fun x => (x < 10)%nat) d -> Forall (fun x => (x < 10)%nat) e ->
  smaller (p ++ map digit d ++ q) (p ++ map digit e ++ q) <-> (wholeZ d < wholeZ e)%Z.
Proof. exact @numbered. Qed.
Print Assumptions C90_sort_numbered.
Example C90_sort_numbered_nonvacuous : smaller (s "chan9.fits") (s "chan10.fits").
Proof.
  apply (C90_sort_numbered (s "chan") (s ".fits") [9%nat] [1%nat; 0%nat]); [| |discriminate|discriminate|constructor; [lia|constructor]|constructor; [lia|constructor; [lia|constructor]]|reflexivity].
  - intros q c E D. apply digit_iff in D. change (s "chan") with (s "cha" ++ ["n"%char])%list in E. apply app_inj_tail in E. destruct E as [_ <-]. discriminate D.
  - intros c t E D. apply digit_iff in D. injection E as <- _. discriminate D.
Qed.


(** C90. Refuted: decimal numbers come in order. *)
Theorem C90_sort_decimals_refuted : ~ (forall a b x y u v w, py_float a = POk (Some x) -> py_float b = POk (Some y) ->
  sort_nicely [a; b] = u ++ a :: v ++ b :: w -> (x <= y)%R).
Proof. exact @sort_decimals_refuted. Qed.
Print Assumptions C90_sort_decimals_refuted.


(** C90. Reading a number that may be missing: a numeral gives its value. *)
Theorem C90_xfloat : forall {D} b n c (d : D), num_ok n -> pad b -> pad c -> xfloat (Some (b ++ show n ++ c)) d = inl (Some (num_value n)).
Proof. exact @xfloat_reads. Qed.
Print Assumptions C90_xfloat.


(** C90. Nothing, blanks, and text that starts like no number give the default. *)
Theorem C90_xfloat_default : forall {D} (d : D) x, (x = None \/ exists b t, pad b /\ x = Some (b ++ t) /\
    (t = [] \/ exists c u, t = c :: u /\ ~ white c /\ ~ a_digit c /\ ~ In c ["."; "+"; "-"; "i"; "n"; "I"; "N"]%char)) -> xfloat x d = inr d.
Proof. exact @xfloat_default. Qed.
Print Assumptions C90_xfloat_default.
Example C90_xfloat_default_nonvacuous : xfloat (Some (s " *")) 5%nat = inr 5%nat.
Proof.
  apply C90_xfloat_default. right. exists (s " "), (s "*"). split; [constructor; [auto|constructor]|]. split; [reflexivity|]. right. exists "*"%char, []. split; [reflexivity|].
  split; [intros W; apply white_iff in W; discriminate W|]. split; [intros D; apply digit_iff in D; discriminate D|]. cbn. intuition discriminate.
Qed.


(** C90. The progress bar has its width and shows the share; the line ends at 100. *)
Theorem C90_progress : forall (w : nat) p, 0 <= p <= 100 -> exists m, fst (progress (INR w) p) = repeat "="%char m ++ repeat " "%char (w - m) /\ (m <= w)%nat /\
  INR m <= INR w * p / 100 < INR m + 1 /\ (snd (progress (INR w) p) = true <-> p = 100).
Proof. exact @progress_bar. Qed.
Print Assumptions C90_progress.


(** C90. Records become Python numbers with the same values; bytes become the text they print as. *)
Theorem C90_records : forall d a, (d = [] \/ a <> []) -> Forall (fun r => Forall2 fits d r) a ->
  exists l, irecarray_to_py d a = POk l /\ Forall2 (fun r v => Forall2 became r v) a l.
Proof. exact @records_convert. Qed.
Print Assumptions C90_records.
Example C90_records_nonvacuous : Forall (fun r => Forall2 fits [(s "n", s "<i4", None); (s "x", s "<f8", None)] r) [[CInt 3; CFloat (Some 1)]; [CInt 4; CFloat None]].
Proof.
  assert (A : forall z, fits (s "n", s "<i4", None) (CInt z)) by (intros z; split; [reflexivity|exists "<"%char, "i"%char, (s "4"); split; [reflexivity|auto]]).
  assert (B : forall x, fits (s "x", s "<f8", None) (CFloat x)) by (intros z; split; [reflexivity|exists "<"%char, "f"%char, (s "8"); split; reflexivity]).
  constructor; [|constructor; [|constructor]]; constructor; auto.
Qed.


(** C90. Refuted: text kept as bytes becomes that text. *)
Theorem C90_records_bytes_refuted : ~ (forall n ty b, irecarray_to_py [(n, ty, None)] [[CBytes b]] = POk [[PyStr b]] \/ ~ fits (n, ty, None) (CBytes b)).
Proof. exact @records_bytes_refuted. Qed.
Print Assumptions C90_records_bytes_refuted.


(** C90. A field that is an array raises. *)
Theorem C90_records_array : forall d a e, In e d -> snd e <> None -> irecarray_to_py d a = PErr.
Proof. exact @records_array. Qed.
Print Assumptions C90_records_array.


(** C90. A view has the fields asked for, with their types and offsets, ordered by offset. *)
Theorem C90_view : forall dt l, NoDup (map fst dt) -> NoDup (map fst l) -> (forall f, In f l -> In f dt) -> l <> [] ->
  exists v, fields_view dt (map fst l) = POk v /\ Permutation v l /\ by_offset v.
Proof. exact @view_fields. Qed.
Print Assumptions C90_view.
Example C90_view_nonvacuous : fields_view [(s "a", (s "<i4", 0%nat)); (s "b", (s "<f8", 4%nat)); (s "c", (s "<i4", 12%nat))] [s "c"; s "a"] = POk [(s "a", (s "<i4", 0%nat)); (s "c", (s "<i4", 12%nat))].
Proof. reflexivity. Qed.


(** C90. All fields if no name is given. *)
Theorem C90_view_all : forall dt, NoDup (map fst dt) -> exists v, fields_view dt [] = POk v /\ Permutation v dt /\ by_offset v.
Proof. exact @view_all. Qed.
Print Assumptions C90_view_all.


(** C90. An unknown name raises. *)
Theorem C90_view_missing : forall dt names n, In n names -> ~ In n (map fst dt) -> fields_view dt names = PErr.
Proof. exact @view_missing. Qed.
Print Assumptions C90_view_missing.


(** C90. Refuted: the fields are in the order asked for. *)
Theorem C90_view_order_refuted : ~ (forall dt l, NoDup (map fst dt) -> NoDup (map fst l) -> (forall f, In f l -> In f dt) -> l <> [] -> fields_view dt (map fst l) = POk l).
Proof. exact @view_order_refuted. Qed.
Print Assumptions C90_view_order_refuted.


(** C90. Deleting an axis of a header removes six keywords and keeps all others, in order. *)
Theorem C90_delete : forall {V} (h : list (str * V)) n, exists f, delete_axis h n = filter f h /\
  forall kv, f kv = true <-> ~ In (fst kv) (map (fun w => s w ++ str_of_nat n) ["NAXIS"; "CRVAL"; "CRPIX"; "CDELT"; "CUNIT"; "CTYPE"]%string).
Proof. exact @delete_keeps. Qed.
Print Assumptions C90_delete.


(** C90. The keywords of other axes stay. *)
Theorem C90_delete_others : forall {V} (h : list (str * V)) n m w v, n <> m -> In w ["NAXIS"; "CRVAL"; "CRPIX"; "CDELT"; "CUNIT"; "CTYPE"]%string ->
  In (s w ++ str_of_nat m, v) h -> In (s w ++ str_of_nat m, v) (delete_axis h n).
Proof. exact @delete_others. Qed.
Print Assumptions C90_delete_others.
Example C90_delete_others_nonvacuous : In (s "NAXIS31", 7%Z) (delete_axis [(s "NAXIS3", 5%Z); (s "NAXIS31", 7%Z)] 3) /\ ~ In (s "NAXIS3", 5%Z) (delete_axis [(s "NAXIS3", 5%Z); (s "NAXIS31", 7%Z)] 3).
Proof. vm_compute. intuition discriminate. Qed.


(** C90. Refuted: no keyword of the axis is left. *)
Theorem C90_delete_left_refuted : ~ (forall (h : list (str * Z)) n k v, In (k, v) (delete_axis h n) -> ~ exists w, k = w ++ str_of_nat n).
Proof. exact @delete_left_refuted. Qed.
Print Assumptions C90_delete_left_refuted.


(** C90. Frequencies from wavelengths squared: the inverse, both ways. *)
Theorem C90_l2_array : forall l, Forall (fun f => 0 < f) l -> l2_to_freq_array (map (fun f => (299792458 / f) ^ 2) l) = map Some l.
Proof. exact @l2_array. Qed.
Print Assumptions C90_l2_array.


(** C90.  *)
Theorem C90_l2_forth : forall x, 0 < x -> exists f, l2_to_freq x = Some f /\ 0 < f /\ (299792458 / f) ^ 2 = x.
Proof. exact @l2_forth. Qed.
Print Assumptions C90_l2_forth.

