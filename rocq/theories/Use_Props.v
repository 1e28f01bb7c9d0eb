(** C58: What [use] declarations bring. *)
From Verif Require Import Base Meta_Types Path_Types Use_Spec Use_Model Use_Claims Use_Proofs.

Theorem C58_brings_partial : brings_statement.
Proof. exact brings_proof. Qed.
Print Assumptions C58_brings_partial.

Theorem C58_shape : shape_statement.
Proof. exact shape_proof. Qed.
Print Assumptions C58_shape.

Theorem C58_rename_self_refuted : ~ rename_self_statement.
Proof. exact rename_self_refuted_. Qed.
Print Assumptions C58_rename_self_refuted.

Theorem C58_refused_refuted : ~ refused_statement.
Proof. exact refused_refuted_. Qed.
Print Assumptions C58_refused_refuted.

Theorem C58_renamed_module_found_refuted : ~ lookup_statement.
Proof. exact lookup_refuted_. Qed.
Print Assumptions C58_renamed_module_found_refuted.
