(** C59: Public paths of items. *)
From Verif Require Import Base Meta_Types Path_Types Path_Spec Path_Model Path_Claims Pub_Spec Pub_Model Pub_Claims Pub_Proofs Pub_Refute.

Theorem C59_ends : pub_ends_statement.
Proof. exact pub_ends_proof. Qed.
Print Assumptions C59_ends.

Theorem C59_offered : pub_sound_statement.
Proof. exact pub_sound_proof. Qed.
Print Assumptions C59_offered.

Theorem C59_found_partial : pub_complete_statement.
Proof. exact pub_complete_proof. Qed.
Print Assumptions C59_found_partial.

Theorem C59_cached_partial : pub_cached_statement.
Proof. exact pub_cached_proof. Qed.
Print Assumptions C59_cached_partial.

Theorem C59_cached_refuted : ~ pub_cached_always_statement.
Proof. exact pub_cached_always_refuted_. Qed.
Print Assumptions C59_cached_refuted.

Theorem C59_visible_refuted : ~ pub_visible_statement.
Proof. exact pub_visible_refuted_. Qed.
Print Assumptions C59_visible_refuted.

Theorem C59_refers_refuted : ~ pub_refers_statement.
Proof. exact pub_refers_refuted_. Qed.
Print Assumptions C59_refers_refuted.

Theorem C59_functions_refuted : ~ pub_functions_statement.
Proof. exact pub_functions_refuted_. Qed.
Print Assumptions C59_functions_refuted.

Theorem C59_modules_refuted : ~ pub_modules_statement.
Proof. exact pub_modules_refuted_. Qed.
Print Assumptions C59_modules_refuted.

Theorem C59_enum_globs_refuted : ~ pub_enum_globs_statement.
Proof. exact pub_enum_globs_refuted_. Qed.
Print Assumptions C59_enum_globs_refuted.
