(** UDL files mean what they say (C61). *)
From Verif Require Import Base Meta_Types Lit_Spec Udl_Types Udl_Spec Udl_Model Udl_Claims Udl_Final Udl_Refute.

(** All metadata that is made of a file is what one of its definitions says; where no definition has a builtin
    type's name and variants have neither attributes nor [static]. *)
Theorem C61_sound_partial : reads_soundly (fun file => unshadowed file /\ plain_variants file).
Proof. exact reads_soundly_proof. Qed.
Print Assumptions C61_sound_partial.

(** All that a file's definitions say is in the metadata; where no attribute has two values and no [enum] has
    traits. *)
Theorem C61_complete_partial : reads_fully (fun file => unshadowed file /\ attrs_once file /\ no_enum_traits file).
Proof. exact reads_fully_proof. Qed.
Print Assumptions C61_complete_partial.

(** No definition, member or trait of a file that is read is left out. *)
Theorem C61_covered_partial : reads_all plainly_written.
Proof. exact reads_all_proof. Qed.
Print Assumptions C61_covered_partial.

(** The namespace is the file's only one. *)
Theorem C61_namespace : reads_namespace.
Proof. exact reads_namespace_proof. Qed.
Print Assumptions C61_namespace.

(** Legal files are read; where custom types come after the types they are made of. *)
Theorem C61_accepted_partial : accepts (fun c file => unshadowed file /\ attrs_once file /\ customs_after c file).
Proof. exact accepts_proof. Qed.
Print Assumptions C61_accepted_partial.

(** Definitions can be in any order in which the file is read. *)
Theorem C61_order_partial : order_free plainly_written.
Proof. exact order_free_proof. Qed.
Print Assumptions C61_order_partial.

(** Reading panics for no file whose constructors throw defined errors. *)
Theorem C61_panics_partial : never_panics constructors_throw_known.
Proof. exact never_panics_proof. Qed.
Print Assumptions C61_panics_partial.

(** [Traits=(…)] on an [enum] is lost. *)
Theorem C61_enum_traits_refuted : ~ reads_fully (fun file => unshadowed file /\ plain_variants file /\ attrs_once file).
Proof. exact traits_refuted. Qed.
Print Assumptions C61_enum_traits_refuted.

(** Of two [Throws=…] only the first counts. *)
Theorem C61_two_throws_refuted : ~ reads_fully (fun file => unshadowed file /\ plain_variants file /\ no_enum_traits file).
Proof. exact throws_refuted. Qed.
Print Assumptions C61_two_throws_refuted.

(** A dictionary with a builtin type's name is not what its name means. *)
Theorem C61_builtin_names_refuted : ~ reads_fully (fun file => plain_variants file /\ attrs_once file /\ no_enum_traits file).
Proof. exact shadow_refuted. Qed.
Print Assumptions C61_builtin_names_refuted.

(** [static] on a variant is ignored. *)
Theorem C61_static_variants_refuted : ~ reads_soundly (fun file => unshadowed file /\ attrs_once file /\ no_enum_traits file).
Proof. exact static_refuted. Qed.
Print Assumptions C61_static_variants_refuted.

(** A custom type before the type it is made of is refused. *)
Theorem C61_customs_first_refuted : ~ accepts (fun _ file => plainly_written file).
Proof. exact order_refuted. Qed.
Print Assumptions C61_customs_first_refuted.

(** A constructor that throws an undefined error panics. *)
Theorem C61_undefined_error_refuted : ~ never_panics plainly_written.
Proof. exact panic_refuted. Qed.
Print Assumptions C61_undefined_error_refuted.

(** Two dictionaries of one name are both kept. *)
Theorem C61_defined_twice_refuted : ~ one_record plainly_written.
Proof. exact twice_refuted. Qed.
Print Assumptions C61_defined_twice_refuted.

(** Not all words that the error message advises for types of elsewhere are accepted. *)
Theorem C61_advised_words_refuted : ~ words_accepted.
Proof. exact words_refuted. Qed.
Print Assumptions C61_advised_words_refuted.
