(** C43: types that contain objects are recognised. *)
From Verif Require Import Base Meta_Types Reach_Model Reach_Spec Reach_Proofs Reach_Examples.

(** The question always gets an answer, whatever the interfaces, recursive types included. *)
Theorem C43_terminates : forall self all item,
  exists fuel answer, item_contains_object_references fuel self all item = Some answer.
Proof. exact objects_terminate. Qed.
Print Assumptions C43_terminates.

(** It has one answer. *)
Theorem C43_one_answer : forall self all item fuel fuel' a a',
  item_contains_object_references fuel self all item = Some a ->
  item_contains_object_references fuel' self all item = Some a' -> a = a'.
Proof. exact objects_one_answer. Qed.
Print Assumptions C43_one_answer.

(** Yes means an object is reachable through definitions, their fields and signatures. *)
Theorem C43_yes_is_right : forall self all item fuel,
  well_formed (self :: all) item ->
  item_contains_object_references fuel self all item = Some true ->
  exists o, an_object o /\ contains (self :: all) everything item o.
Proof. exact objects_sound. Qed.
Print Assumptions C43_yes_is_right.

(** No means none is, as long as no type is boxed.  Missing: boxed types, where it is false. *)
Theorem C43_no_is_right_partial : forall self all item fuel o,
  well_formed (self :: all) item -> no_box (self :: all) item ->
  item_contains_object_references fuel self all item = Some false ->
  contains (self :: all) everything item o -> ~ an_object o.
Proof. exact objects_complete. Qed.
Print Assumptions C43_no_is_right_partial.

(** The same for unsigned integers, the other question the iterator answers. *)
Theorem C43_unsigned_partial : forall self all item,
  well_formed (self :: all) item -> no_box (self :: all) item ->
  exists fuel answer, item_contains_unsigned_types fuel self all item = Some answer /\
    (answer = true <-> exists u, an_unsigned u /\ contains (self :: all) everything item u).
Proof. exact unsigned_exact. Qed.
Print Assumptions C43_unsigned_partial.

(** A record whose boxed field holds an object is said not to contain any. *)
Theorem C43_box_refuted : exists self all item,
  well_formed (self :: all) item /\
  (exists o, an_object o /\ contains (self :: all) only_fields item o) /\
  forall fuel, item_contains_object_references fuel self all item <> Some true.
Proof. exact boxed_missed. Qed.
Print Assumptions C43_box_refuted.

(** A record none of whose fields leads to an object is said to contain one when one of its methods
    mentions it. *)
Theorem C43_method_refuted : exists self all item fuel,
  well_formed (self :: all) item /\ no_box (self :: all) item /\
  item_contains_object_references fuel self all item = Some true /\
  forall o, contains (self :: all) only_fields item o -> ~ an_object o.
Proof. exact methods_flagged. Qed.
Print Assumptions C43_method_refuted.
