(** * C26, C46, C47: foreign futures awaited by Rust, under every interleaving

    Read with [Ffut_Spec]. *)

From Verif Require Import Base Ffut_Model Ffut_Spec Ffut_Proofs.

(** The foreign method is called at most once, and nothing at all happens for a future that
    is never polled. *)
Theorem C26_called_once : forall s, reachable s -> calls s <= 1 /\ (calls s = 0 -> log s = []).
Proof. exact (fun s R => conj (called_once s R) (never_started s R)). Qed.
Print Assumptions C26_called_once.

(** The task receives at most one result, and one that was passed to the callback. *)
Theorem C26_received_once :
  forall s, reachable s ->
    sents s <= 1 /\ readies s <= 1 /\ (forall v, In (EReady v) (log s) -> In (ESent v) (log s)).
Proof. exact received_once. Qed.
Print Assumptions C26_received_once.

(** Once the callback has stored the result, no poll returns Pending, ... *)
Theorem C26_never_pending_once_sent :
  forall s l1 v l2 w, reachable s -> log s = l1 ++ ESent v :: l2 -> ~ In (EPending w) l1.
Proof. exact no_pending_after_sent. Qed.
Print Assumptions C26_never_pending_once_sent.

(** ... and a task that is still interested gets it by polling, whatever the foreign side
    is doing. *)
Theorem C26_result_received :
  forall s v, reachable s -> In (ESent v) (log s) ->
    match fut s with RCalling _ | RDrop1 | RDrop2 | RGone => False | _ => True end ->
    exists os s', Forall rust_side os /\ run s os = Some s' /\ In (EReady v) (log s').
Proof. exact sent_then_ready. Qed.
Print Assumptions C26_result_received.

(** No wake is lost: a task that waits although the completion call has returned was woken
    after its last poll, through the waker of that poll. *)
Theorem C26_no_lost_wake : forall s, reachable s -> completed s -> fut s = RWait -> wake_arrived s.
Proof. exact no_lost_wake. Qed.
Print Assumptions C26_no_lost_wake.

(** The dropped-callback runs exactly once when the future is over, if the foreign code set
    one; not before, and never otherwise. *)
Theorem C26_dropped_callback_once :
  forall s, reachable s ->
    (over s -> In (ESetup true) (log s) -> drops s = 1) /\
    (~ over s \/ ~ In (ESetup true) (log s) -> drops s = 0).
Proof. exact dropped_once. Qed.
Print Assumptions C26_dropped_callback_once.

(** The channel is deallocated exactly once, when both sides are done with it, and never
    touched afterwards. *)
Theorem C26_channel_freed_once :
  forall s, reachable s ->
    ~ In EBad (log s) /\ frees s <= 1 /\ (completed s -> over s -> frees s = 1) /\ (fut s = RWait -> frees s = 0).
Proof. exact channel_freed. Qed.
Print Assumptions C26_channel_freed_once.

(** ** C46: the foreign code completes every call exactly once *)

(** Never twice, whatever the method does. *)
Theorem C46_at_most_once_partial :
  forall lower lower_e r,
    length (python_plain lower r) <= 1 /\ length (python_with_error lower lower_e r) <= 1 /\
    length (kotlin_plain lower r) <= 1 /\ length (kotlin_with_error lower lower_e r) <= 1 /\
    length (swift_plain r) <= 1 /\ length (swift_with_error r) <= 1.
Proof. exact at_most_once. Qed.
Print Assumptions C46_at_most_once_partial.

(** Exactly once and with the right outcome, if lowering it succeeds and the task was not
    cancelled.  Missing: those two cases, for which the claim is false, see below. *)
Theorem C46_completes_partial :
  forall lower lower_e r, lowers lower lower_e r -> r <> IsCancelled ->
    python_plain lower r = [expected_plain r] /\
    python_with_error lower lower_e r = [expected_with_error r] /\
    kotlin_plain lower r = [expected_plain r] /\
    kotlin_with_error lower lower_e r = [expected_with_error r] /\
    swift_plain r = [expected_plain r] /\ swift_with_error r = [expected_with_error r].
Proof. exact exactly_once. Qed.
Print Assumptions C46_completes_partial.

(** A call that is not completed never returns: the Rust task waits for ever. *)
Theorem C46_not_completed_hangs :
  forall s os s', reachable s -> calls s = 1 -> right s = true ->
    (forall v, ~ In (Complete v) os) -> run s os = Some s' -> readies s' = 0.
Proof. exact no_completion_no_result. Qed.
Print Assumptions C46_not_completed_hangs.

(** And there are such calls: a Python or Kotlin method whose return value does not lower,
    a Kotlin error that does not lower, a Python task that was cancelled. *)
Theorem C46_not_completed_refuted :
  (exists lower v, python_plain lower (Returns v) = [] /\ kotlin_plain lower (Returns v) = [] /\
     forall lower_e, kotlin_with_error lower lower_e (Returns v) = []) /\
  (exists lower_e e, forall lower, kotlin_with_error lower lower_e (Throws e) = []) /\
  (forall lower lower_e, python_plain lower IsCancelled = [] /\ python_with_error lower lower_e IsCancelled = []).
Proof. exact not_completed. Qed.
Print Assumptions C46_not_completed_refuted.

(** ** C47: a result nobody collects is released *)

(** Once both sides are done, the result was either received or thrown away with the
    channel, and not both.  Missing: in the second case the buffers in it are not released
    ([RustBuffer] has no destructor, and only lifting frees it), see below. *)
Theorem C47_received_or_discarded_partial :
  forall s, reachable s -> completed s -> over s -> readies s + discards s = 1.
Proof. exact accounted. Qed.
Print Assumptions C47_received_or_discarded_partial.

(** The second case happens. *)
Theorem C47_discarded_refuted : exists s, reachable s /\ completed s /\ over s /\ In (EFreed (Some 42%Z)) (log s).
Proof. exact discarded. Qed.
Print Assumptions C47_discarded_refuted.
