(** C57: Conditional compilation in the Rust sources. *)
From Verif Require Import Base Meta_Types Cfg_Types Cfg_Spec Cfg_Model Cfg_Claims Cfg_Proofs Cfg_Refute.

Theorem C57_predicate_partial : predicate_statement.
Proof. exact predicate_proof. Qed.
Print Assumptions C57_predicate_partial.

Theorem C57_attributes_partial : attributes_statement.
Proof. exact attributes_proof. Qed.
Print Assumptions C57_attributes_partial.

Theorem C57_same_bindings_partial : same_bindings_statement.
Proof. exact same_bindings_proof. Qed.
Print Assumptions C57_same_bindings_partial.

Theorem C57_same_names_partial : same_names_statement.
Proof. exact same_names_proof. Qed.
Print Assumptions C57_same_names_partial.

Theorem C57_compiled_sources_are_settled : settles_statement.
Proof. exact settles_proof. Qed.
Print Assumptions C57_compiled_sources_are_settled.

Theorem C57_every_predicate_refuted : ~ every_predicate_statement.
Proof. exact every_predicate_refuted_. Qed.
Print Assumptions C57_every_predicate_refuted.

Theorem C57_never_too_much_refuted : ~ never_too_much_statement.
Proof. exact never_too_much_refuted_. Qed.
Print Assumptions C57_never_too_much_refuted.

Theorem C57_constant_refuted : ~ constant_statement.
Proof. exact constant_refuted_. Qed.
Print Assumptions C57_constant_refuted.

Theorem C57_no_error_refuted : ~ no_error_statement.
Proof. exact no_error_refuted_. Qed.
Print Assumptions C57_no_error_refuted.

Theorem C57_nested_refuted : ~ nested_statement.
Proof. exact nested_refuted_. Qed.
Print Assumptions C57_nested_refuted.

Theorem C57_arguments_refuted : ~ arguments_statement.
Proof. exact arguments_refuted_. Qed.
Print Assumptions C57_arguments_refuted.

Theorem C57_macros_refuted : ~ macros_statement.
Proof. exact macros_refuted_. Qed.
Print Assumptions C57_macros_refuted.

Theorem C57_file_heads_refuted : ~ file_heads_statement.
Proof. exact file_heads_refuted_. Qed.
Print Assumptions C57_file_heads_refuted.

Theorem C57_callback_error_refuted : ~ callback_error_statement.
Proof. exact callback_error_refuted_. Qed.
Print Assumptions C57_callback_error_refuted.

Theorem C57_module_docs_refuted : ~ module_docs_statement.
Proof. exact module_docs_refuted_. Qed.
Print Assumptions C57_module_docs_refuted.

Theorem C57_uses_refuted : ~ uses_statement.
Proof. exact uses_refuted_. Qed.
Print Assumptions C57_uses_refuted.

Theorem C57_aliases_refuted : ~ aliases_statement.
Proof. exact aliases_refuted_. Qed.
Print Assumptions C57_aliases_refuted.

Theorem C57_absent_types_refuted : ~ absent_types_statement.
Proof. exact absent_types_refuted_. Qed.
Print Assumptions C57_absent_types_refuted.

