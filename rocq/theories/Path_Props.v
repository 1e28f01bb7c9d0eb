(** C56: What a path in the Rust sources is taken to mean. *)
From Verif Require Import Base Meta_Types Path_Types Path_Spec Path_Model Path_Claims Path_Proofs Path_Refute.

Theorem C56_lookups_end : ends_statement.
Proof. exact ends_proof. Qed.
Print Assumptions C56_lookups_end.

Theorem C56_found_is_meant_partial : sound_statement.
Proof. exact sound_proof. Qed.
Print Assumptions C56_found_is_meant_partial.

Theorem C56_meant_is_found_partial : found_statement.
Proof. exact found_proof. Qed.
Print Assumptions C56_meant_is_found_partial.

Theorem C56_twice_declared_not_found : twice_statement.
Proof. exact twice_proof. Qed.
Print Assumptions C56_twice_declared_not_found.

Theorem C56_one_meaning : one_meaning_statement.
Proof. exact one_meaning_proof. Qed.
Print Assumptions C56_one_meaning.

Theorem C56_independent_of_history_refuted : ~ independent_statement.
Proof. exact independent_refuted_. Qed.
Print Assumptions C56_independent_of_history_refuted.

Theorem C56_not_missing_refuted : ~ not_missing_statement.
Proof. exact not_missing_refuted_. Qed.
Print Assumptions C56_not_missing_refuted.

Theorem C56_not_missing_without_globs_refuted : ~ not_missing_without_globs_statement.
Proof. exact not_missing_without_globs_refuted_. Qed.
Print Assumptions C56_not_missing_without_globs_refuted.

Theorem C56_self_path_refuted : ~ self_statement.
Proof. exact self_refuted_. Qed.
Print Assumptions C56_self_path_refuted.

Theorem C56_visible_refuted : ~ visible_statement.
Proof. exact visible_refuted_. Qed.
Print Assumptions C56_visible_refuted.

Theorem C56_macro_refuted : ~ macro_statement.
Proof. exact macro_refuted_. Qed.
Print Assumptions C56_macro_refuted.

Theorem C56_no_panic_refuted : ~ no_panic_statement.
Proof. exact no_panic_refuted_. Qed.
Print Assumptions C56_no_panic_refuted.
