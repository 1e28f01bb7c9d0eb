(** Types in signatures are resolved to what they denote (C60). *)
From Verif Require Import Base Meta_Types Path_Types Path_Spec Path_Model Pub_Spec Pub_Claims Rty_Types Rty_Spec Rty_Model Rty_Claims Rty_Proofs Rty_Refute.

(** What is recorded for a type is what the type may denote, from whatever cache; where aliases use their
    parameters only as arguments of their own type. *)
Theorem C60_type_partial : type_sound plain named_somehow.
Proof. exact type_sound_proof. Qed.
Print Assumptions C60_type_partial.

(** Also as an argument: with how it is passed. *)
Theorem C60_argument_partial : arg_sound plain named_somehow.
Proof. exact arg_sound_proof. Qed.
Print Assumptions C60_argument_partial.

(** And as a result: with the type of errors. *)
Theorem C60_result_partial : return_sound plain named_somehow.
Proof. exact return_sound_proof. Qed.
Print Assumptions C60_result_partial.

(** A receiver: [&self] or [Arc<Self>]. *)
Theorem C60_receiver_partial : self_sound.
Proof. exact self_sound_proof. Qed.
Print Assumptions C60_receiver_partial.

(** A type that denotes something that can be recorded is resolved. *)
Theorem C60_found_partial : type_found all_plain.
Proof. exact type_found_proof. Qed.
Print Assumptions C60_found_partial.

(** And never to anything else, nor to an error. *)
Theorem C60_exact_partial : type_exact all_plain named_somehow.
Proof. exact type_exact_proof. Qed.
Print Assumptions C60_exact_partial.

(** Parameters deeper in an alias's type are not replaced. *)
Theorem C60_nested_parameters_refuted : ~ type_exact not_nested named_somehow.
Proof. exact nested_refuted. Qed.
Print Assumptions C60_nested_parameters_refuted.

(** Aliases with lifetimes are refused. *)
Theorem C60_lifetimes_refuted : ~ type_exact with_lifetimes named_somehow.
Proof. exact lifetimes_refuted. Qed.
Print Assumptions C60_lifetimes_refuted.

(** A trait of another crate is recorded as one of the crate that uses it. *)
Theorem C60_traits_of_crates_refuted : ~ type_exact traits_of_crates named_publicly.
Proof. exact crates_refuted. Qed.
Print Assumptions C60_traits_of_crates_refuted.

(** A trait with a name for the bindings is recorded under its own. *)
Theorem C60_renamed_traits_refuted : ~ type_exact traits_renamed named_publicly.
Proof. exact renamed_refuted. Qed.
Print Assumptions C60_renamed_traits_refuted.

(** Custom types are recorded in modules that are not public. *)
Theorem C60_custom_types_refuted : ~ type_exact customs_only named_publicly.
Proof. exact customs_refuted. Qed.
Print Assumptions C60_custom_types_refuted.

(** Resolving a circular alias may not end. *)
Theorem C60_ends_refuted : ~ type_ends_statement.
Proof. exact ends_refuted. Qed.
Print Assumptions C60_ends_refuted.
