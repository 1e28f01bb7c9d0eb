(** C35: sorting definitions terminates, keeps every definition exactly once, and puts each definition
    after those it depends on whenever the dependencies are acyclic. *)
From Coq Require Import Permutation.
From Verif Require Import Base Meta_Types Canon_Model Sort_Model Sort_Spec Sort_Proofs Sort_Examples.

Theorem C35_types_terminates defs : exists r, sort_type_definitions defs = Ok r.
Proof. exact (sort_total _ _ defs). Qed.
Print Assumptions C35_types_terminates.

Theorem C35_ffi_terminates defs : exists r, sort_ffi_definitions defs = Ok r.
Proof. exact (sort_total _ _ defs). Qed.
Print Assumptions C35_ffi_terminates.

(** Every definition is kept exactly once, if different types have different converter names. *)
Theorem C35_types_kept_partial defs r :
  NoDup (map self_type defs) -> names_distinct defs ->
  sort_type_definitions defs = Ok r -> Permutation defs r.
Proof. exact (types_once defs r). Qed.
Print Assumptions C35_types_kept_partial.

Theorem C35_ffi_kept defs r :
  NoDup (map ffi_item_name defs) -> sort_ffi_definitions defs = Ok r -> Permutation defs r.
Proof. exact (sort_perm _ _ defs r). Qed.
Print Assumptions C35_ffi_kept.

(** In any case exactly one definition of each name is kept. *)
Theorem C35_one_per_name defs r : sort_type_definitions defs = Ok r ->
  incl r defs /\ NoDup (map type_item_name r) /\
  forall d, In d defs -> In (type_item_name d) (map type_item_name r).
Proof. exact (sort_one_per_name _ _ defs r). Qed.
Print Assumptions C35_one_per_name.

(** A definition comes after each one it needs, unless that one needs it back: in particular always
    when there is no cycle. *)
Theorem C35_types_in_order_partial defs r :
  NoDup (map self_type defs) -> names_distinct defs -> sort_type_definitions defs = Ok r ->
  forall x y, In x defs -> In y defs -> needs x y -> before r y x \/ needs_within defs y x.
Proof. exact (types_in_order defs r). Qed.
Print Assumptions C35_types_in_order_partial.

Theorem C35_ffi_in_order defs r :
  NoDup (map ffi_item_name defs) -> sort_ffi_definitions defs = Ok r ->
  forall x y, In x defs -> In y defs -> ffi_needs x y -> before r y x \/ ffi_needs_within defs y x.
Proof. exact (ffi_in_order defs r). Qed.
Print Assumptions C35_ffi_in_order.

(** Without the assumption on names a definition is lost: that of a type with a namesake in another
    crate. *)
Theorem C35_namesake_refuted :
  exists defs r d, NoDup (map self_type defs) /\ sort_type_definitions defs = Ok r /\
    In d defs /\ ~ In d r.
Proof. exact namesake_dropped. Qed.
Print Assumptions C35_namesake_refuted.
