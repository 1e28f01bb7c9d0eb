(** * C18: foreign handle maps behave like maps of live tokens *)

From Verif Require Import Base Hmap_Model Hmap_Spec Hmap_Proofs Hmap_Examples.

(** Every interleaving produces a legal history: fresh odd handles for exactly
    the object inserted or cloned, lookups that answer with what is live at that
    moment, and sizes that count the live handles. *)
Theorem C18_every_history_legal : forall k s, reachable k s -> legal (log s).
Proof. exact reach_legal. Qed.
Print Assumptions C18_every_history_legal.

Theorem C18_remove_succeeds_once : forall k s h, reachable k s -> removals h (log s) <= 1.
Proof. exact remove_once. Qed.
Print Assumptions C18_remove_succeeds_once.

(** After a successful removal ([later] is what happened since), no lookup of
    that handle ever succeeds again. *)
Theorem C18_invalid_forever_after_remove :
  forall k s later earlier h, reachable k s -> log s = later ++ earlier -> 0 < removals h earlier ->
    forall e, In e later -> ~ looks h e.
Proof. exact invalid_forever. Qed.
Print Assumptions C18_invalid_forever_after_remove.

(** No deadlock: whatever the other threads do, a call in progress can always
    run to its end. *)
Theorem C18_calls_can_finish :
  forall k xs s t, run k init xs = Some s -> (k = Kotlin -> Z.of_nat (length xs) < 2 ^ 62)%Z ->
    exists ys s', only_go ys /\ run k s ys = Some s' /\ pcs s' t = Idle.
Proof. exact calls_finish. Qed.
Print Assumptions C18_calls_can_finish.
