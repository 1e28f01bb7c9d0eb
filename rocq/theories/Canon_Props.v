(** C37: two different types used in one component get different converter names. *)
From Verif Require Import Base Meta_Types Canon_Model Canon_Spec Canon_Proofs Canon_Examples.

(** Python (and every generator built on the pipeline). *)
Theorem C37_python_partial types t t' :
  one_type_per_name types -> In t types -> In t' types -> builtin_keys t -> builtin_keys t' ->
  canonical_name t = canonical_name t' -> t = t'.
Proof. exact (pipeline_distinct types t t'). Qed.
Print Assumptions C37_python_partial.

(** Kotlin, where a box and its content share a converter. *)
Theorem C37_kotlin_partial types t t' :
  one_type_per_name types -> In t types -> In t' types -> builtin_keys t -> builtin_keys t' ->
  kotlin_name t = kotlin_name t' -> unboxed t = unboxed t'.
Proof. exact (kotlin_distinct types t t'). Qed.
Print Assumptions C37_kotlin_partial.

(** Swift, if converting names to camel case does not confuse them. *)
Theorem C37_swift_partial class_name types t t' :
  (forall n n', class_name n = class_name n' -> n = n') ->
  one_type_per_name types -> In t types -> In t' types -> builtin_keys t -> builtin_keys t' ->
  swift_name class_name t = swift_name class_name t' -> unboxed t = unboxed t'.
Proof. exact (swift_distinct class_name types t t'). Qed.
Print Assumptions C37_swift_partial.

(** Not so for maps with user-defined keys, which nothing forbids, in any of the three. *)
Theorem C37_map_keys_refuted :
  exists types t t', one_type_per_name types /\ In t types /\ In t' types /\
    unboxed t <> unboxed t' /\ canonical_name t = canonical_name t' /\
    kotlin_name t = kotlin_name t' /\ forall cn, swift_name cn t = swift_name cn t'.
Proof. exact map_keys_clash. Qed.
Print Assumptions C37_map_keys_refuted.

(** Nor for types of the same name from different crates. *)
Theorem C37_namesakes_refuted :
  exists t t', builtin_keys t /\ builtin_keys t' /\ unboxed t <> unboxed t' /\
    canonical_name t = canonical_name t' /\ kotlin_name t = kotlin_name t' /\
    forall cn, swift_name cn t = swift_name cn t'.
Proof. exact namesakes_clash. Qed.
Print Assumptions C37_namesakes_refuted.
