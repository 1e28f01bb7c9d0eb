(** C34: a record or enum is flagged recursive exactly when it contains itself, whatever the order in
    which hash maps are traversed. *)
From Coq Require Import Relation_Operators.
From Verif Require Import Base Meta_Types Cyc_Model Cyc_Spec Cyc_Proofs Cyc_Examples.

(** The search always ends. *)
Theorem C34_terminates g : exists rc, find_recursive g = Ok rc.
Proof. exact (find_total g). Qed.
Print Assumptions C34_terminates.

(** What is flagged contains itself, in every traversal order, as long as no two different types in
    sight have the same name. *)
Theorem C34_flagged_contain_themselves defs g rc :
  defined_once defs -> unambiguous defs -> traversal defs g -> find_recursive g = Ok rc ->
  forall d i, In d defs -> defines d i -> marked rc d = true -> contains_itself defs i.
Proof. exact (marked_sound defs g rc). Qed.
Print Assumptions C34_flagged_contain_themselves.

(** On every cycle of definitions at least one is flagged, in every traversal order.  In particular
    a type with itself among its own fields is always flagged ([path] empty). *)
Theorem C34_every_cycle_partial defs g rc :
  defined_once defs -> traversal defs g -> find_recursive g = Ok rc ->
  forall a path, chain defs a path a ->
  exists b d, In b (a :: path) /\ In d defs /\ defines d b /\ marked rc d = true.
Proof. exact (chain_marked defs g rc). Qed.
Print Assumptions C34_every_cycle_partial.

(** The flags are exact when no type lies on two cycles. *)
Theorem C34_exact_partial defs g rc :
  defined_once defs -> unambiguous defs -> traversal defs g -> find_recursive g = Ok rc ->
  (forall a b c, contains defs a b -> contains defs a c ->
     clos_trans _ (contains defs) b a -> clos_trans _ (contains defs) c a -> b = c) ->
  forall d i, In d defs -> defines d i -> (marked rc d = true <-> contains_itself defs i).
Proof. exact (marked_exact defs g rc). Qed.
Print Assumptions C34_exact_partial.

(** They are not exact in general: a definition on two cycles may be missed. *)
Theorem C34_missed_refuted :
  exists defs g rc d i, defined_once defs /\ unambiguous defs /\ traversal defs g /\
    find_recursive g = Ok rc /\ In d defs /\ defines d i /\ contains_itself defs i /\
    marked rc d = false.
Proof. exact knot_missed_refuted. Qed.
Print Assumptions C34_missed_refuted.

(** And whether it is missed depends on the traversal order, which is random. *)
Theorem C34_order_refuted :
  exists defs g g' rc rc' d, traversal defs g /\ traversal defs g' /\
    find_recursive g = Ok rc /\ find_recursive g' = Ok rc' /\ In d defs /\
    marked rc d = false /\ marked rc' d = true.
Proof. exact knot_order_refuted. Qed.
Print Assumptions C34_order_refuted.

(** A type that does not contain itself is flagged when it holds a namesake from another crate. *)
Theorem C34_namesake_refuted :
  exists defs g rc d i, defined_once defs /\ traversal defs g /\ find_recursive g = Ok rc /\
    In d defs /\ defines d i /\ ~ contains_itself defs i /\ marked rc d = true.
Proof. exact namesake_refuted. Qed.
Print Assumptions C34_namesake_refuted.
