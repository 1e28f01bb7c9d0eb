(** From the text of UDL files to their metadata: proofs, and a file. *)
From Verif Require Weed_Model Weed_Spec Weed_Main Weed_Commas Whole_Case.
From Verif Require Import Base Meta_Types Lit_Spec Lit_Model Doc_Model Udl_Types Udl_Spec Udl_Model Udl_Claims Udl_Final Udl_Refute Udl_Examples Whole_Model Whole_Spec.
From Coq Require Import Ascii Permutation.
Open Scope list_scope.

(** *** Files are read as they are written *)
Lemma bytes_chars x : bytes_of (chars x) = x.
Proof. unfold bytes_of, chars. rewrite map_map. rewrite (map_ext _ (fun b => b)); [apply map_id |]. intros b. apply byte_of_ascii_of_byte. Qed.
Lemma map_back {A B} (f : A -> B) (g : B -> A) (P : A -> Prop) l : (forall a, P a -> g (f a) = a) -> Forall P l -> map g (map f l) = l.
Proof. intros H F. induction F as [| a l K F IH]; [reflexivity |]. cbn [map]. now rewrite (H a K), IH. Qed.
Lemma opt_back {A B} (f : A -> B) (g : B -> A) o : (forall a, g (f a) = a) -> option_map g (option_map f o) = o.
Proof. intros H. destruct o as [a |]; cbn; [now rewrite H | reflexivity]. Qed.
Lemma doc_back o : doc_in (option_map chars o) = o.
Proof. apply opt_back, bytes_chars. Qed.
Lemma texts_back l : map bytes_of (map chars l) = l.
Proof. apply (map_back chars bytes_of (fun _ => True)); [intros a _; apply bytes_chars | apply Forall_forall; trivial]. Qed.
Lemma attr_back a : attr_plain a -> attr_of (write_attr a) = a.
Proof. intros P. destruct a as [x | x y [] | x l |]; cbn; rewrite ?bytes_chars, ?texts_back; try reflexivity. now contradiction P. Qed.
Lemma attrs_back a : attrs_plain a -> attrs_in (write_attrs a) = a.
Proof. intros P. destruct a as [l |]; [| reflexivity]. cbn. f_equal. exact (map_back write_attr attr_of _ l attr_back (P l eq_refl)). Qed.
Lemma type_back t : type_plain t -> forall n, (n = true -> forall u, t <> WNull u) -> type_of (write_type n t) = nullable n t.
Proof.
  induction t as [x | | u | u | | | t IH | k IHk v IHv | t IH |]; intros P n N; cbn [type_plain] in P.
  - cbn. now rewrite bytes_chars.
  - reflexivity.
  - reflexivity.
  - reflexivity.
  - reflexivity.
  - reflexivity.
  - cbn. rewrite (IH P false); [reflexivity | discriminate].
  - destruct P as [Pk Pv]. assert (Ek : type_of (write_type false k) = k) by (rewrite (IHk Pk false); [reflexivity | discriminate]).
    assert (Ev : type_of (write_type false v) = v) by (rewrite (IHv Pv false); [reflexivity | discriminate]).
    transitivity (nullable n (WMap (type_of (write_type false k)) (type_of (write_type false v)))); [destruct k; reflexivity |]. now rewrite Ek, Ev.
  - destruct n; [now contradiction (N eq_refl t) |]. cbn [write_type]. rewrite (IH).
    + reflexivity.
    + destruct t; try exact P; contradiction P.
    + intros _ u E. subst t. exact P.
  - contradiction P.
Qed.
Lemma type_whole t : type_plain t -> type_of (write_type false t) = t.
Proof. intros P. rewrite (type_back t P false); [reflexivity | discriminate]. Qed.
Lemma value_back u : value_of_lit (write_value u) = u.
Proof. destruct u as [b | | | s | | [s | s | s] | | s]; cbn; rewrite ?bytes_chars; reflexivity. Qed.
Lemma arg_back a : arg_plain a -> arg_of (write_arg a) = a.
Proof.
  destruct a as [a o t x d |]; intros P; [| contradiction P]. destruct P as [A T]. unfold arg_of. cbn.
  now rewrite attrs_back, type_whole, bytes_chars, (opt_back _ _ _ value_back) by assumption.
Qed.
Lemma args_back l : Forall arg_plain l -> map arg_of (map write_arg l) = l.
Proof. exact (map_back _ _ _ l arg_back). Qed.
Lemma field_back f : field_plain f -> field_of (write_field f) = f.
Proof.
  destruct f as [a t x d c]. intros [A T]. unfold field_of. cbn in *.
  now rewrite attrs_back, type_whole, bytes_chars, (opt_back _ _ _ value_back), doc_back by assumption.
Qed.
Lemma member_back m : member_plain m -> member_of (write_member m) = m.
Proof.
  destruct m as [a l c | [a m s r x l c] |]; intros P; cbn in *; [| | contradiction P].
  - destruct P as [A L]. now rewrite attrs_back, args_back, doc_back by assumption.
  - destruct P as (A & -> & -> & R & L). rewrite attrs_back, args_back, doc_back, (opt_back _ _ _ bytes_chars) by assumption.
    destruct r as [| t]; [reflexivity |]. now rewrite (type_whole t (R t eq_refl)).
Qed.
Lemma members_back l : Forall member_plain l -> map member_of (map write_member l) = l.
Proof. exact (map_back _ _ _ l member_back). Qed.
Lemma def_back d : def_plain d -> def_of (write_def d) = d.
Proof.
  destruct d as [a x c ms | a x c vs | a x i c fs | a x i c ms | a x i c ms | a t x |]; intros P; cbn [def_plain] in P; cbn [write_def def_of inherits].
  - destruct P as [A M]. now rewrite attrs_back, bytes_chars, doc_back, members_back by assumption.
  - rewrite attrs_back, bytes_chars, doc_back by assumption. f_equal. apply (map_back _ _ (fun _ => True)); [| apply Forall_forall; trivial].
    intros [y d] _. cbn. now rewrite bytes_chars, doc_back.
  - destruct P as (A & -> & M). rewrite attrs_back, bytes_chars, doc_back by assumption. f_equal. exact (map_back _ _ _ fs field_back M).
  - destruct P as (A & -> & M). now rewrite attrs_back, bytes_chars, doc_back, members_back by assumption.
  - destruct P as (A & -> & M). now rewrite attrs_back, bytes_chars, doc_back, members_back by assumption.
  - destruct P as [A T]. rewrite attrs_back, bytes_chars by assumption. unfold attributed.
    destruct (match write_attrs a with Some l => existsb custom_word l | None => false end); now rewrite type_whole by assumption.
  - contradiction P.
Qed.
Lemma document_back f : Forall def_plain f -> document (write f) = f.
Proof. exact (map_back _ _ _ f def_back). Qed.

Lemma plain_tokens l u : Weed_Spec.spells (Weed_Spec.udl_tokens l) u -> exists tss, Forall2 Weed_Spec.written l tss /\ Weed_Spec.spells (List.concat tss) u.
Proof.
  intros S. exists (map Weed_Spec.def_tokens l). split; [| rewrite <- flat_map_concat_map; exact S].
  clear S. induction l as [| d l IH]; constructor; [apply Weed_Spec.written_def | exact IH].
Qed.
Lemma text_read f s : text_of f s -> Weed_Model.read_udl s = Weed_Model.Parsed (write f).
Proof.
  intros (_ & K & N & w & u & w' & -> & B & B' & E & tss & W & S). refine (Weed_Commas.read_written (write f) tss u w w' K _ W S E B B').
  destruct f; [now contradiction N | discriminate].
Qed.
Lemma text_metadata f s c v d : text_of f s -> metadata_of_text c v d s = read_udl c v d f.
Proof. intros T. unfold metadata_of_text. rewrite (text_read f s T). now rewrite (document_back f (proj1 T)). Qed.

Lemma text_document f s : text_of f s -> exists l, Weed_Model.read_udl s = Weed_Model.Parsed l /\ document l = f.
Proof. intros T. exists (write f). exact (conj (text_read f s T) (document_back f (proj1 T))). Qed.
Lemma text_one f f' s : text_of f s -> text_of f' s -> f = f'.
Proof.
  intros T T'. destruct (text_document f s T) as (l & E & <-). destruct (text_document f' s T') as (l' & E' & <-).
  rewrite E in E'. injection E' as <-. reflexivity.
Qed.
Lemma text_items f s c v d g : text_of f s -> plainly_written f -> metadata_of_text c v d s = UOk g ->
  (forall M, In M (g_items g) <-> says c v d f M) /\ namespace_is d f (g_namespace g) (g_doc g).
Proof.
  intros T (A & B & C & D) E. rewrite (text_metadata f s c v d T) in E. split.
  - intros M. split; intros I.
    + exact (reads_soundly_proof _ _ _ _ _ _ (conj A B) E I).
    + exact (reads_fully_proof _ _ _ _ _ _ (conj A (conj C D)) E I).
  - exact (reads_namespace_proof _ _ _ _ _ E).
Qed.
Lemma text_accepted f s c v d : text_of f s -> unshadowed f -> attrs_once f -> customs_after c f -> legal c v d f ->
  exists g, metadata_of_text c v d s = UOk g.
Proof. intros T A B C L. rewrite (text_metadata f s c v d T). exact (accepts_proof _ _ _ _ (conj A (conj B C)) L). Qed.
Lemma text_spellings f s s' c v d : text_of f s -> text_of f s' -> metadata_of_text c v d s = metadata_of_text c v d s'.
Proof. intros T T'. now rewrite (text_metadata f s c v d T), (text_metadata f s' c v d T'). Qed.
Lemma text_order f f' s s' c v d g g' : text_of f s -> text_of f' s' -> Permutation f f' -> plainly_written f ->
  metadata_of_text c v d s = UOk g -> metadata_of_text c v d s' = UOk g' -> forall M, In M (g_items g) <-> In M (g_items g').
Proof.
  intros T T' P H E E'. rewrite (text_metadata f s c v d T) in E. rewrite (text_metadata f' s' c v d T') in E'.
  exact (order_free_proof _ _ _ _ _ _ _ P H E E').
Qed.
Lemma text_panic s c v d : (forall l, Weed_Model.read_udl s = Weed_Model.Parsed l -> constructors_throw_known (document l)) ->
  metadata_of_text c v d s <> UPanic.
Proof.
  intros H. unfold metadata_of_text. pose proof (Weed_Main.no_panic s) as N. destruct (Weed_Model.read_udl s) as [l | |].
  - exact (never_panics_proof c v d (document l) (H l eq_refl)).
  - discriminate.
  - now contradiction N.
Qed.

(** *** The file of Udl_Examples.v *)
Import Whole_Case.
Lemma a_doc_is : write a_file = a_doc.
Proof. vm_compute. reflexivity. Qed.
Lemma a_file_plain : Forall def_plain a_file.
Proof.
  assert (N : attrs_plain None) by discriminate.
  assert (Y : forall l, Forall attr_plain l -> attrs_plain (Some l)) by (intros l K l' E; injection E as <-; exact K).
  unfold a_file, the_ns, the_error, the_url, the_rec, the_enum, the_obj, the_cb, the_ext, add, go, ask, variant_p, variant_q, arg, by_ref, by_arc.
  repeat (cbn [def_plain member_plain arg_plain field_plain type_plain op_attrs op_modifier op_special op_ret op_args wf_attrs wf_ty];
    match goal with
    | |- Forall _ (_ :: _) => apply Forall_cons
    | |- Forall _ [] => apply Forall_nil
    | |- _ /\ _ => split
    | |- attrs_plain None => exact N
    | |- attrs_plain (Some _) => apply Y
    | |- attr_plain _ => discriminate
    | |- field_plain _ => unfold field_plain
    | |- forall t, RType _ = RType t -> _ => let E := fresh in intros ? E; injection E as <-
    | |- True => exact I
    | |- @eq (option _) _ _ => reflexivity
    | |- @eq bool _ _ => reflexivity
    end).
Qed.
Lemma wide_is : text_of a_file wide_text.
Proof.
  split; [exact a_file_plain |]. rewrite a_doc_is. split; [exact a_doc_ok |]. split; [discriminate |]. exists [], wide_text, []. split; [now rewrite app_nil_r |].
  split; [constructor |]. split; [constructor |]. split; [exact wide_edges |]. apply plain_tokens, wide_spelt.
Qed.
Lemma long_is : text_of a_file long_text.
Proof.
  split; [exact a_file_plain |]. rewrite a_doc_is. split; [exact a_doc_ok |]. split; [discriminate |]. exists [], long_text, []. split; [now rewrite app_nil_r |].
  split; [constructor |]. split; [constructor |]. split; [exact long_edges |]. apply plain_tokens, long_spelt.
Qed.
Lemma back_is : text_of (rev a_file) back_text.
Proof.
  split; [apply Forall_rev, a_file_plain |]. assert (E : write (rev a_file) = rev a_doc) by (rewrite <- a_doc_is; apply map_rev). rewrite E.
  split; [apply Forall_rev, a_doc_ok |]. split; [discriminate |]. exists [], back_text, []. split; [now rewrite app_nil_r |].
  split; [constructor |]. split; [constructor |]. split; [exact back_edges |]. apply plain_tokens, back_spelt.
Qed.
Example whole_order : text_of a_file wide_text /\ text_of (rev a_file) back_text /\ Permutation a_file (rev a_file) /\ plainly_written a_file
  /\ exists g g', metadata_of_text here convert_default convert_docstring wide_text = UOk g
       /\ metadata_of_text here convert_default convert_docstring back_text = UOk g' /\ g_items g <> g_items g'.
Proof.
  split; [exact wide_is |]. split; [exact back_is |]. split; [apply Permutation_rev |]. split; [exact ex_plainly |].
  destruct ex_order as (g & g' & E & E' & N & _). exists g, g'.
  rewrite (text_metadata a_file wide_text here convert_default convert_docstring wide_is), (text_metadata (rev a_file) back_text here convert_default convert_docstring back_is).
  exact (conj E (conj E' N)).
Qed.
Example whole_case : text_of a_file wide_text /\ plainly_written a_file
  /\ exists g, metadata_of_text here convert_default convert_docstring wide_text = UOk g /\ List.length (g_items g) = 12.
Proof.
  split; [exact wide_is |]. split; [exact ex_plainly |]. rewrite (text_metadata a_file wide_text here convert_default convert_docstring wide_is).
  eexists. split; [vm_compute; reflexivity | reflexivity].
Qed.
Example whole_legal : text_of a_file wide_text /\ unshadowed a_file /\ attrs_once a_file /\ customs_after here a_file
  /\ legal here convert_default convert_docstring a_file.
Proof. exact (conj wide_is (conj ex_unshadowed (conj ex_once (conj ex_customs ex_legal)))). Qed.
Example whole_spellings : text_of a_file wide_text /\ text_of a_file long_text /\ wide_text <> long_text
  /\ metadata_of_text here convert_default convert_docstring tight_text = metadata_of_text here convert_default convert_docstring wide_text.
Proof.
  split; [exact wide_is |]. split; [exact long_is |]. split; [intros E; vm_compute in E; discriminate E |].
  rewrite (text_metadata a_file wide_text here convert_default convert_docstring wide_is). unfold metadata_of_text. rewrite tight_reads, <- a_doc_is.
  now rewrite (document_back a_file a_file_plain).
Qed.
Example whole_throws : forall l, Weed_Model.read_udl tight_text = Weed_Model.Parsed l -> constructors_throw_known (document l).
Proof. intros l E. rewrite tight_reads in E. injection E as <-. rewrite <- a_doc_is, (document_back a_file a_file_plain). exact ex_throws_known. Qed.
(** A text on which reading panics. *)
Definition panic_text : Weed_Model.text := Weed_Model.tx "namespace ns {}; interface O { [Throws=E] constructor(); };".
Lemma text_panics : metadata_of_text here convert_default convert_docstring panic_text = UPanic.
Proof. vm_compute. reflexivity. Qed.
