(** * C25: the foreign loop around a Rust future, under every interleaving

    Read with [Loop_Spec]; the events are those of the foreign side ([flog]) and of the
    Rust side ([log (rust s)], see [Async_Spec]). *)

From Verif Require Import Base Async_Model Async_Spec Loop_Model Loop_Spec Loop_Proofs2.

(** Free exactly once, at the end; complete at most once. *)
Theorem C25_freed_exactly_once :
  forall s, freachable s -> frees (flog s) = (match pc s with TEnd => 1 | _ => 0 end) /\ completes (flog s) <= 1.
Proof. exact loop_frees. Qed.
Print Assumptions C25_freed_exactly_once.

(** Complete only when resumed with "ready", nothing after free, no continuation handle
    missing from the map when its callback comes. *)
Theorem C25_used_in_order : forall s, freachable s -> orderly (flog s).
Proof. exact loop_orderly. Qed.
Print Assumptions C25_used_in_order.

(** Complete delivers what the Rust future finished with, never the cancelled status. *)
Theorem C25_result_delivered :
  forall s o, freachable s -> In (EComplete o) (log (rust s)) -> exists v, o = Some v /\ In (EInnerDone v) (log (rust s)).
Proof. exact loop_result. Qed.
Print Assumptions C25_result_delivered.

(** Once the task has ended and calls in progress have returned, the continuation map is
    empty. *)
Theorem C25_map_empty : forall s, freachable s -> pc s = TEnd -> quiescent (rust s) -> conts s = [].
Proof. exact loop_map_empty. Qed.
Print Assumptions C25_map_empty.

(** The loop does not hang: when everything has settled and the task cannot move, it has
    ended, or it waits for a future that neither finished nor was woken since its last poll. *)
Theorem C25_no_hang :
  forall s, freachable s -> settled s -> fstep s Task = None ->
    pc s = TEnd \/ exists h, pc s = TAwait h /\ woken (log (rust s)) = false /\ dones (rust s) = 0.
Proof. exact loop_progress. Qed.
Print Assumptions C25_no_hang.

(** And the Rust future's memory is released, with no access after that. *)
Theorem C25_memory_released :
  forall s, freachable s -> pc s = TEnd -> quiescent (rust s) -> ext (rust s) = 0 ->
    deallocs (rust s) = 1 /\ ~ In EBad (log (rust s)).
Proof. exact loop_released. Qed.
Print Assumptions C25_memory_released.
