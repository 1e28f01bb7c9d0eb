(** C40: metadata items are grouped by crate without loss. *)
From Verif Require Import Base Meta_Types Meta_Eq Group_Model Group_Spec Group_Proofs Group_Examples.
From Coq Require Import Permutation.

(** Each item ends, once, in the group of its crate, and in no other group. *)
Theorem C40_in_its_group : forall items gs x,
  group_library items = Ok gs -> In x items -> is_namespace x = false ->
  exists c g, of_crate x c /\ In (c, g) gs /\ count_occ metadata_eq_dec (g_items g) x = 1 /\
    forall c' g', In (c', g') gs -> In x (g_items g') -> c' = c /\ g' = g.
Proof. exact in_its_group. Qed.
Print Assumptions C40_in_its_group.

(** A group holds only items of its crate, and its namespace is one the library declares for it. *)
Theorem C40_nothing_else : forall items gs c g x,
  group_library items = Ok gs -> In (c, g) gs ->
  (In x (g_items g) -> In x items /\ of_crate x c) /\
  g_crate g = c /\ exists a, In a items /\ declares a c (g_namespace g).
Proof. exact nothing_else. Qed.
Print Assumptions C40_nothing_else.

(** Grouping succeeds exactly when there are items, the crate of each is declared and no two are
    equal. *)
Theorem C40_errors : forall items,
  (exists gs, group_library items = Ok gs) <->
  items <> [] /\
  (forall x, In x items -> is_namespace x = false ->
     exists c, of_crate x c /\ exists a n, In a items /\ declares a c n) /\
  NoDup (filter (fun x => negb (is_namespace x)) items).
Proof. exact succeeds_exactly. Qed.
Print Assumptions C40_errors.

(** The order in which the items are found does not matter, if no crate declares two namespaces. *)
Theorem C40_order_partial : forall items items' gs,
  one_namespace items -> Permutation items items' -> group_library items = Ok gs ->
  exists gs', group_library items' = Ok gs' /\ same_groups gs gs'.
Proof. exact order_irrelevant. Qed.
Print Assumptions C40_order_partial.

(** If one does, it does. *)
Theorem C40_order_refuted : exists items items' gs gs',
  Permutation items items' /\ group_library items = Ok gs /\ group_library items' = Ok gs' /\
  ~ same_groups gs gs'.
Proof. exact twice_order. Qed.
Print Assumptions C40_order_refuted.
