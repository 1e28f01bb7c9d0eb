(** C39: renaming is consistent. *)
From Verif Require Import Base Meta_Types Reach_Spec Ren_Model Ren_Spec Ren_Proofs Ren_Examples.

(** Kotlin, Swift, Ruby: fields, functions, methods of objects and arguments of constructors and
    callbacks mention a renamed type by its new name, however deep.  Missing: the other places, types
    of another crate within a type, boxes. *)
Theorem C39_mentions_partial : forall rs c, unique_keys rs ->
  Forall2 (fun t t' => no_box t -> one_crate (ci_crate c) t -> renaming crate rs t t')
    (field_mentions c ++ function_mentions c ++ method_mentions c ++ constructor_arguments c ++
     callback_arguments c)
    (let c' := rename rs c in
     field_mentions c' ++ function_mentions c' ++ method_mentions c' ++ constructor_arguments c' ++
     callback_arguments c').
Proof. exact covered_right. Qed.
Print Assumptions C39_mentions_partial.

(** So do the known types, from which converters are generated. *)
Theorem C39_known_types_partial : forall rs c, unique_keys rs ->
  Forall2 (fun t t' => no_box t -> one_crate (ci_crate c) t -> renaming crate rs t t')
          (known c) (known (rename rs c)).
Proof. exact known_right. Qed.
Print Assumptions C39_known_types_partial.

(** Types, fields, variants, functions, methods, constructors and arguments get the name configured
    under their key, which is made of original names whatever else is renamed. *)
Theorem C39_names : forall rs c, unique_keys rs ->
  Forall2 (renames_slot crate rs) (definition_slots c) (definition_slots (rename rs c)).
Proof. exact definition_names_right. Qed.
Print Assumptions C39_names.

(** So do the methods of callback interfaces that are not themselves renamed. *)
Theorem C39_callback_names_partial : forall rs c, unique_keys rs ->
  (forall b n, In b (callbacks c) -> ~ configured rs (crate (cb_mp b)) (cb_name b) n) ->
  Forall2 (renames_slot crate rs) (callback_slots c) (callback_slots (rename rs c)).
Proof. exact callback_names_right. Qed.
Print Assumptions C39_callback_names_partial.

(** A mention that is renamed properly refers to a definition if it did. *)
Theorem C39_resolves : forall rs c t t', unique_keys rs ->
  resolves c t -> renaming crate rs t t' -> resolves (rename rs c) t'.
Proof. exact resolves_after. Qed.
Print Assumptions C39_resolves.

(** Python: everything mentions a renamed type by its new name.  Missing: boxes, and custom types made
    of user-defined types. *)
Theorem C39_python_mentions_partial : forall rs ns c c', unique_keys rs ->
  p_namespace rs ns c = Ok c' ->
  Forall2 (fun t t' => no_box t -> builtin_customs t -> renaming (fun ns => ns) rs t t')
          (mentions c) (mentions c').
Proof. exact (fun rs ns c c' U => p_mentions rs ns U c c'). Qed.
Print Assumptions C39_python_mentions_partial.

Theorem C39_python_names : forall rs ns c c', unique_keys rs ->
  p_namespace rs ns c = Ok c' ->
  Forall2 (renames_slot (fun _ => ns) rs)
    (definition_slots c ++ callback_slots c ++ value_method_slots c)
    (definition_slots c' ++ callback_slots c' ++ value_method_slots c').
Proof. exact (fun rs ns c c' U => p_names rs ns U c c'). Qed.
Print Assumptions C39_python_names.

(** Kotlin, Swift, Ruby, the rest.  A type of another crate, within an option: *)
Theorem C39_external_refuted : exists rs c, unique_keys rs /\
  ~ Forall2 (renaming crate rs) (function_mentions c) (function_mentions (rename rs c)).
Proof. exact (ex_intro _ conf (ex_intro _ nested (conj conf_unique nested_wrong))). Qed.
Print Assumptions C39_external_refuted.

(** In a box: *)
Theorem C39_box_refuted : exists rs c, unique_keys rs /\
  ~ Forall2 (renaming crate rs) (function_mentions c) (function_mentions (rename rs c)).
Proof. exact (ex_intro _ conf (ex_intro _ boxed (conj conf_unique boxed_wrong))). Qed.
Print Assumptions C39_box_refuted.

(** The object a constructor makes: *)
Theorem C39_constructor_result_refuted : exists rs c, unique_keys rs /\ all_fine c /\
  ~ Forall2 (renaming crate rs) (constructor_results c) (constructor_results (rename rs c)).
Proof.
  exact (ex_intro _ conf (ex_intro _ constructor
    (conj conf_unique (conj constructor_fine constructor_result_wrong)))).
Qed.
Print Assumptions C39_constructor_result_refuted.

(** The error of a constructor: *)
Theorem C39_constructor_error_refuted : exists rs c, unique_keys rs /\ all_fine c /\
  ~ Forall2 (renaming crate rs) (constructor_errors c) (constructor_errors (rename rs c)).
Proof.
  exact (ex_intro _ conf (ex_intro _ constructor
    (conj conf_unique (conj constructor_fine constructor_error_wrong)))).
Qed.
Print Assumptions C39_constructor_error_refuted.

(** The result of a callback: *)
Theorem C39_callback_result_refuted : exists rs c, unique_keys rs /\ all_fine c /\
  ~ Forall2 (renaming crate rs) (callback_outcomes c) (callback_outcomes (rename rs c)).
Proof.
  exact (ex_intro _ conf (ex_intro _ callback
    (conj conf_unique (conj callback_fine callback_outcome_wrong)))).
Qed.
Print Assumptions C39_callback_result_refuted.

(** Methods of records: *)
Theorem C39_record_method_refuted : exists rs c, unique_keys rs /\ all_fine c /\
  ~ Forall2 (renaming crate rs) (value_method_mentions c) (value_method_mentions (rename rs c)).
Proof.
  exact (ex_intro _ conf (ex_intro _ record_method
    (conj conf_unique (conj record_method_fine record_method_wrong)))).
Qed.
Print Assumptions C39_record_method_refuted.

(** The traits an object implements: *)
Theorem C39_trait_impl_refuted : exists rs c, unique_keys rs /\ all_fine c /\
  ~ Forall2 (renaming crate rs) (trait_mentions c) (trait_mentions (rename rs c)).
Proof.
  exact (ex_intro _ conf (ex_intro _ implements
    (conj conf_unique (conj implements_fine implements_wrong)))).
Qed.
Print Assumptions C39_trait_impl_refuted.

(** A method of a callback interface, if both are renamed: *)
Theorem C39_callback_key_refuted : exists rs c, unique_keys rs /\ all_fine c /\
  ~ Forall2 (renames_slot crate rs) (callback_slots c) (callback_slots (rename rs c)).
Proof.
  exact (ex_intro _ conf (ex_intro _ callback
    (conj conf_unique (conj callback_fine callback_key_wrong)))).
Qed.
Print Assumptions C39_callback_key_refuted.
