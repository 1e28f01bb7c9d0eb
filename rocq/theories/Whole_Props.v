(** C76: from the text of UDL files to their metadata. *)
From Verif Require Weed_Model Whole_Case.
From Verif Require Import Base Meta_Types Lit_Spec Lit_Model Doc_Model Udl_Types Udl_Spec Udl_Model Udl_Claims Udl_Refute Udl_Examples Whole_Model Whole_Spec Whole_Proofs.
From Coq Require Import Permutation.
Import Whole_Case.

(** The metadata that is made of a text is what the definitions that it spells say, all of it and nothing else, and the namespace is the file's.
    Partial: for the documents of C61 (no builtin names, plain variants, no attribute twice, no traits on [enum]). *)
Theorem C76_items_partial : forall file s c value_of doc_of g, text_of file s -> plainly_written file -> metadata_of_text c value_of doc_of s = UOk g ->
  (forall M, In M (g_items g) <-> says c value_of doc_of file M) /\ namespace_is doc_of file (g_namespace g) (g_doc g).
Proof. exact text_items. Qed.
Print Assumptions C76_items_partial.

Example C76_items_case : text_of a_file wide_text /\ plainly_written a_file
  /\ exists g, metadata_of_text here convert_default convert_docstring wide_text = UOk g /\ List.length (g_items g) = 12.
Proof. exact whole_case. Qed.

(** Every text of a legal document is accepted. Partial: where custom types come after the types they are made of. *)
Theorem C76_accepted_partial : forall file s c value_of doc_of, text_of file s -> unshadowed file -> attrs_once file ->
  customs_after c file -> legal c value_of doc_of file -> exists g, metadata_of_text c value_of doc_of s = UOk g.
Proof. exact text_accepted. Qed.
Print Assumptions C76_accepted_partial.

Example C76_accepted_case : text_of a_file wide_text /\ unshadowed a_file /\ attrs_once a_file
  /\ customs_after here a_file /\ legal here convert_default convert_docstring a_file.
Proof. exact whole_legal. Qed.

(** How a document is spelt makes no difference to what is made of it. *)
Theorem C76_spelling_is_free : forall file s s' c value_of doc_of, text_of file s -> text_of file s' ->
  metadata_of_text c value_of doc_of s = metadata_of_text c value_of doc_of s'.
Proof. exact text_spellings. Qed.
Print Assumptions C76_spelling_is_free.

Example C76_spelling_is_free_case : text_of a_file wide_text /\ text_of a_file long_text /\ wide_text <> long_text
  /\ metadata_of_text here convert_default convert_docstring tight_text = metadata_of_text here convert_default convert_docstring wide_text.
Proof. exact whole_spellings. Qed.

(** Nor does the order of the definitions. *)
Theorem C76_order_is_free_partial : forall file file' s s' c value_of doc_of g g', text_of file s -> text_of file' s' -> Permutation file file' -> plainly_written file ->
  metadata_of_text c value_of doc_of s = UOk g -> metadata_of_text c value_of doc_of s' = UOk g' -> forall M, In M (g_items g) <-> In M (g_items g').
Proof. exact text_order. Qed.
Print Assumptions C76_order_is_free_partial.

Example C76_order_is_free_case : text_of a_file wide_text /\ text_of (rev a_file) back_text /\ Permutation a_file (rev a_file) /\ plainly_written a_file
  /\ exists g g', metadata_of_text here convert_default convert_docstring wide_text = UOk g
       /\ metadata_of_text here convert_default convert_docstring back_text = UOk g' /\ g_items g <> g_items g'.
Proof. exact whole_order. Qed.

(** Files are read as they are written: attributes, types, values, members and definitions, whatever is in them. *)
Theorem C76_as_written_partial : forall file s, text_of file s -> exists l, Weed_Model.read_udl s = Weed_Model.Parsed l /\ document l = file.
Proof. exact text_document. Qed.
Print Assumptions C76_as_written_partial.

Example C76_as_written_case : text_of a_file wide_text.
Proof. exact wide_is. Qed.

(** No text writes two files down. *)
Theorem C76_one_file : forall file file' s, text_of file s -> text_of file' s -> file = file'.
Proof. exact text_one. Qed.
Print Assumptions C76_one_file.

Example C76_one_file_case : text_of a_file long_text.
Proof. exact long_is. Qed.

(** Whatever the text, no panic. Partial: unless a constructor throws an error that is not defined. *)
Theorem C76_no_panic_partial : forall s c value_of doc_of,
  (forall l, Weed_Model.read_udl s = Weed_Model.Parsed l -> constructors_throw_known (document l)) -> metadata_of_text c value_of doc_of s <> UPanic.
Proof. exact text_panic. Qed.
Print Assumptions C76_no_panic_partial.

Example C76_no_panic_case : forall l, Weed_Model.read_udl tight_text = Weed_Model.Parsed l -> constructors_throw_known (document l).
Proof. exact whole_throws. Qed.

(** There is a text that is read with a panic and not with an error. *)
Theorem C76_text_panics_refuted : metadata_of_text here convert_default convert_docstring panic_text = UPanic.
Proof. exact text_panics. Qed.
Print Assumptions C76_text_panics_refuted.
