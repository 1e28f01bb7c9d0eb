(** C71: an exported item is described alike by its sources and by the library built from them. *)
From Verif Require Import Base Meta_Types Meta_Model Meta_Spec Src_Model Src_Spec Src_Proofs Src_Main
  Src_Accept Src_Examples.

(** Items of every kind that both accept: what is read back from the library and what is read from the
    sources are the same, item by item, provided the item is [plain] (see Src_Spec.v) and can be recorded
    (see C27). *)
Theorem C71_alike_partial : forall d p it ms bs ss,
  plain p it -> macros p it = Some ms -> Forall (recordable d) ms -> Forall2 recorded ms bs ->
  sources p it = Some ss ->
  exists ls, Forall2 (fun b m => read d b = Ok (m, [])) bs ls /\
             same_items p (map from_library ls) ss.
Proof. exact described_alike. Qed.
Print Assumptions C71_alike_partial.
Example C71_alike_case : Forall (fun x => plain (fst x) (snd x)) examples /\ Forall meets examples.
Proof. split; [exact examples_plain | exact examples_meet]. Qed.

(** Items of every kind that the macros accept are accepted by the source reader too, provided the item is
    [tidy] (see Src_Spec.v) and can be recorded. *)
Theorem C71_accepted_partial : forall d p it ms,
  tidy it -> macros p it = Some ms -> Forall (recordable d) ms ->
  exists ss, sources p it = Some ss.
Proof. exact item_accepted. Qed.
Print Assumptions C71_accepted_partial.
Example C71_accepted_case : Forall (fun x => tidy (snd x)) examples /\ Forall meets examples.
Proof. split; [exact examples_tidy | exact examples_meet]. Qed.

(** Default values that both accept are the same, for all types and values. *)
Theorem C71_defaults : forall t v x y,
  m_opt_default t v = Some x -> opt_all (default_ok t) x -> s_opt_default t v = Some y -> x = y.
Proof. exact default_sim. Qed.
Print Assumptions C71_defaults.
Example C71_defaults_case :
  m_opt_default (TOption TU8) (Some (Some (VSome (VInt 3 false))))
    = Some (Some (DLit (LSome (DLit (LUInt 3 Decimal_ TU8))))) /\
  s_opt_default (TOption TU8) (Some (Some (VSome (VInt 3 false))))
    = Some (Some (DLit (LSome (DLit (LUInt 3 Decimal_ TU8))))).
Proof. split; reflexivity. Qed.

(** Documentation that the macros accept is the same. *)
Theorem C71_docs : forall l o, m_doc l = Some o -> like_doc o (s_doc l).
Proof. exact doc_sim. Qed.
Print Assumptions C71_docs.
Example C71_docs_case : m_doc doc_lines = Some (s_doc doc_lines) /\ s_doc doc_lines <> None.
Proof. split; [reflexivity | discriminate]. Qed.

(** ** What keeps items from being described alike *)

(** The values of an enum without an integer type. *)
Theorem C71_values_refuted : differ 9 here values.
Proof. exact values_differ. Qed.
Print Assumptions C71_values_refuted.
(** The integer type of an error. *)
Theorem C71_error_repr_refuted : differ 9 here error_repr.
Proof. exact error_repr_differ. Qed.
Print Assumptions C71_error_repr_refuted.
(** Methods that take their object by [Arc]. *)
Theorem C71_by_arc_refuted : differ 9 here by_arc.
Proof. exact by_arc_differ. Qed.
Print Assumptions C71_by_arc_refuted.
(** Types of other crates. *)
Theorem C71_remote_refuted : differ 9 here remote_record.
Proof. exact remote_differ. Qed.
Print Assumptions C71_remote_refuted.
(** That an object implements a trait. *)
Theorem C71_trait_impl_refuted : differ 9 here trait_impl.
Proof. exact trait_impl_differ. Qed.
Print Assumptions C71_trait_impl_refuted.
(** The methods, and the built-in traits, of a renamed type. *)
Theorem C71_renamed_impl_refuted : differ 9 here renamed_impl.
Proof. exact renamed_impl_differ. Qed.
Print Assumptions C71_renamed_impl_refuted.
Theorem C71_renamed_debug_refuted : differ 9 here renamed_debug.
Proof. exact renamed_debug_differ. Qed.
Print Assumptions C71_renamed_debug_refuted.
(** Names written with `r#`, fields without a name, types made public under another name. *)
Theorem C71_raw_name_refuted : differ 9 here raw_name.
Proof. exact raw_name_differ. Qed.
Print Assumptions C71_raw_name_refuted.
Theorem C71_unnamed_field_refuted : differ 9 here unnamed_field.
Proof. exact unnamed_field_differ. Qed.
Print Assumptions C71_unnamed_field_refuted.
Theorem C71_use_as_refuted : differ 9 (used "Thing") plain_object.
Proof. exact use_as_differ. Qed.
Print Assumptions C71_use_as_refuted.
(** Methods with two attributes. *)
Theorem C71_two_attributes_refuted : differ 9 here two_attrs.
Proof. exact two_attrs_differ. Qed.
Print Assumptions C71_two_attributes_refuted.

(** Items only the macros accept, items only the source reader accepts, and items that make a library
    that cannot be read but are fine in sources. *)
Theorem C71_library_only_refuted : Forall (library_only 9 here) for_macros.
Proof. exact library_only_all. Qed.
Print Assumptions C71_library_only_refuted.
Theorem C71_sources_only_refuted : Forall (sources_only here) for_sources.
Proof. exact sources_only_all. Qed.
Print Assumptions C71_sources_only_refuted.
Theorem C71_unreadable_refuted : Forall (unreadable here) for_neither.
Proof. exact unreadable_all. Qed.
Print Assumptions C71_unreadable_refuted.
