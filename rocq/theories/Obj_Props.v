(** * C17 and C19: objects and trait objects crossing the FFI *)

From Verif Require Import Base Obj_Model Obj_Spec Obj_Proofs4 Obj_Examples.

(** C17: lifting a handle reaches the object it was lowered for, in every
    history of both sides and for every choice of allocation addresses. *)
Theorem C17_lift_reaches_what_was_lowered :
  forall s sent got h, reachable s -> In (EGot sent got h) (log s) -> sent = got.
Proof. exact lifts_reach_sent. Qed.
Print Assumptions C17_lift_reaches_what_was_lowered.

(** C17: calling a method through any reference reaches the object the
    reference was made for. *)
Theorem C17_calls_reach_the_implementation :
  forall s of on, reachable s -> In (EUse of on) (log s) -> of = on.
Proof. exact uses_reach_made. Qed.
Print Assumptions C17_calls_reach_the_implementation.

(** C17: no handle is zero, and the lowest bit says which side made it. *)
Theorem C17_handles_nonzero_and_tagged :
  forall s w h, reachable s -> In (ESent w h) (log s) ->
    h <> 0%Z /\ is_foreign h = match w with Foreign _ => true | Rust _ => false end.
Proof. exact sent_handles. Qed.
Print Assumptions C17_handles_nonzero_and_tagged.

(** C17, C19: no released allocation and no invalid handle is ever used. *)
Theorem C19_nothing_released_is_used : forall s, reachable s -> ~ In EBad (log s).
Proof. exact never_bad. Qed.
Print Assumptions C19_nothing_released_is_used.

(** C19: whenever a Rust object is used, reached or dropped, it is alive. *)
Theorem C19_only_live_objects_used_or_dropped : forall s, reachable s -> only_live (log s).
Proof. exact only_live_reach. Qed.
Print Assumptions C19_only_live_objects_used_or_dropped.

(** C19: an object is alive or has been dropped, never both, never twice. *)
Theorem C19_dropped_exactly_once : forall s id, reachable s -> alive id s + drops id s = news id s.
Proof. exact books_balance. Qed.
Print Assumptions C19_dropped_exactly_once.

(** C19: an object is alive exactly while some reference to it exists. *)
Theorem C19_alive_iff_referenced :
  forall s id, reachable s -> (0 < alive id s <-> In (Rust id) (referenced s)).
Proof. exact alive_iff. Qed.
Print Assumptions C19_alive_iff_referenced.

(** C19: a foreign object is kept by the handle map exactly while Rust or a
    handle in transit refers to it. *)
Theorem C19_foreign_object_kept_iff_referenced :
  forall s id, reachable s -> (In id (map snd (fm s)) <-> In (Foreign id) (referenced s)).
Proof. exact map_iff. Qed.
Print Assumptions C19_foreign_object_kept_iff_referenced.

(** C19: when no reference is left, nothing leaks on either side. *)
Theorem C19_no_leak : forall s, reachable s -> referenced s = [] -> hp s = [] /\ fm s = [].
Proof. exact nothing_left. Qed.
Print Assumptions C19_no_leak.
