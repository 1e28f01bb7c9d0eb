(** * C21-C24, C45: Rust futures under every interleaving *)

From Verif Require Import Base Async_Model Async_Spec Async_Proofs Async_Proofs2 Async_Proofs3 Async_Proofs4 Async_Proofs5 Async_Examples.

(** C21: no continuation is called more often than it was handed over. *)
Theorem C21_at_most_once : forall s cb, reachable s -> invoked cb s <= polled cb s.
Proof. exact at_most_once. Qed.
Print Assumptions C21_at_most_once.

(** C21: when everything settles after a cancel or a free, every continuation
    has been called exactly once, whatever happened before. *)
Theorem C21_all_called_after_cancel_or_free : forall s cb,
  reachable s -> quiescent s -> cancelled (log s) = true -> invoked cb s = polled cb s.
Proof. exact quiet_cancelled. Qed.
Print Assumptions C21_all_called_after_cancel_or_free.

(** C21: even with concurrent polls at most one continuation keeps waiting. *)
Theorem C21_at_most_one_waits : forall s, reachable s -> quiescent s -> polls s <= invokes s + 1.
Proof. exact quiet_one_waiting. Qed.
Print Assumptions C21_at_most_one_waits.

(** C21: for a foreign side which polls one continuation at a time (as the
    generated bindings do), once things settle every continuation has been
    called if the future was woken since its last poll, has finished, or was
    cancelled. *)
Theorem C21_called_when_woken_ready_or_cancelled : forall s os cb,
  run init os = Some s -> one_at_a_time init os -> quiescent s ->
  woken (log s) = true \/ 0 < dones s \/ cancelled (log s) = true ->
  invoked cb s = polled cb s.
Proof. exact quiet_one. Qed.
Print Assumptions C21_called_when_woken_ready_or_cancelled.

(** C21: things do settle: whatever is in progress can go on, and only a
    bounded number of steps remain before everything in progress has returned. *)
Theorem C21_settles : forall s, reachable s ->
  (~ quiescent s -> exists i r s', step s (Go i r) = Some s') /\
  (exists n, forall os s', forallb is_go os = true -> run s os = Some s' -> length os <= n).
Proof. exact settles_bound. Qed.
Print Assumptions C21_settles.

(** C22: if the future was woken after its last poll started, then once things
    settle either no continuation is left waiting or one has been called back
    since that poll started. *)
Theorem C22_no_lost_wakeup : forall s,
  reachable s -> quiescent s -> woken (log s) = true ->
  invokes s = polls s \/ signalled (log s) = true.
Proof. exact no_lost_wakeup. Qed.
Print Assumptions C22_no_lost_wakeup.

(** C22: polling one continuation at a time, no continuation is left waiting. *)
Theorem C22_no_lost_wakeup_sequential : forall os s,
  run init os = Some s -> one_at_a_time init os -> quiescent s ->
  woken (log s) = true -> invokes s = polls s.
Proof. exact no_lost_wakeup_one. Qed.
Print Assumptions C22_no_lost_wakeup_sequential.

(** ... and when the foreign side polls one continuation at a time, it is told
    to poll again no more often than the future was woken. *)
Theorem C22_not_told_in_vain : forall os s,
  run init os = Some s -> one_at_a_time init os -> told_again s <= wakes s.
Proof. exact not_told_in_vain. Qed.
Print Assumptions C22_not_told_in_vain.

Example C22_not_told_in_vain_case : exists s, run init ex_sched = Some s /\ one_at_a_time init ex_sched /\ told_again s = 1 /\ wakes s = 1.
Proof. eexists. vm_compute. tauto. Qed.

(** C23: a continuation only handed over after cancellation never makes the
    user's future run and is never called with the "wake" code. *)
Theorem C23_late_polls_are_ready : forall s cb,
  reachable s -> polled_early cb (log s) = false ->
  ~ In (EInner cb) (log s) /\ ~ In (EInvoke cb CWake) (log s).
Proof. exact late_polls. Qed.
Print Assumptions C23_late_polls_are_ready.

(** C23: a waiting continuation is called with the "ready" code when the
    foreign side cancels or frees. *)
Theorem C23_waiting_called_ready : forall s c os s1 s2 cb,
  reachable s -> quiescent s -> polled cb s = invoked cb s + 1 ->
  c = Cancel \/ c = Free -> step s c = Some s1 ->
  forallb is_go os = true -> run s1 os = Some s2 -> quiescent s2 ->
  count (is_ready_of cb) (log s) < count (is_ready_of cb) (log s2).
Proof. exact waiting_called. Qed.
Print Assumptions C23_waiting_called_ready.

(** C23: complete delivers a result only if the user's future produced it
    before; otherwise it reports the cancelled status. *)
Theorem C23_unfinished_reports_cancelled : forall s o l1 l2,
  reachable s -> log s = l1 ++ EComplete (Some o) :: l2 -> In (EInnerDone o) l2.
Proof. exact result_from_future. Qed.
Print Assumptions C23_unfinished_reports_cancelled.

(** C24: the user's future is polled according to the executor contract. *)
Theorem C24_polled_correctly : forall s, reachable s -> polls_right (log s).
Proof. exact (fun s H => l_polls s (reach_log s H)). Qed.
Print Assumptions C24_polled_correctly.

(** C24: each complete call delivers the result that is available, and nothing
    else. *)
Theorem C24_results_right : forall s, reachable s -> results_right (log s).
Proof. exact (fun s H => l_results s (reach_log s H)). Qed.
Print Assumptions C24_results_right.

(** C24: the future finishes at most once and its result is delivered at most once. *)
Theorem C24_delivered_once : forall s, reachable s -> dones s <= 1 /\ results s <= 1.
Proof. exact delivered_once. Qed.
Print Assumptions C24_delivered_once.

(** C45: the allocation is never touched after its release, is released at most
    once, and is released exactly when the foreign side has given its handle
    back, no call or wake is in progress and no waker is left outside the
    future. *)
Theorem C45_released_once_and_not_early : forall s, reachable s ->
  ~ In EBad (log s) /\ deallocs s <= 1 /\
  (deallocs s = 1 <-> handle s = false /\ quiescent s /\ ext s = 0).
Proof. exact released. Qed.
Print Assumptions C45_released_once_and_not_early.
