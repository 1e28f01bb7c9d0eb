(** C74: asynchronous calls in the JNI bindings. *)
From Verif Require Import Jasync_Model Jasync_Spec Jasync_Proofs Jasync_Main Jasync_Tally Jasync_Refute Jasync_Examples.

(** Whoever has a pointer to the future may use it: its memory is there. *)
Theorem C74_alive : forall inline has_result s, reach inline has_result s -> points s -> (0 < strong s)%nat.
Proof. exact alive. Qed.
Print Assumptions C74_alive.

Example C74_alive_case : exists s, reach false true s /\ finished s /\ points s.
Proof. exact example_late. Qed.

(** When nobody has a pointer any more the memory is gone, with all references to continuations, and the future was freed once. *)
Theorem C74_gone : forall inline has_result s, reach inline has_result s -> ~ points s -> strong s = 0%nat /\ refs s = 0%nat /\ frees s = 1%nat.
Proof. exact gone. Qed.
Print Assumptions C74_gone.

Example C74_gone_case : exists s, reach false true s /\ at_ s = Finished (Gives (Some 7%Z)) /\ ended s = Some (Ready (Some 7%Z)) /\ ~ points s.
Proof. exact example_run. Qed.

(** The future is not freed twice. *)
Theorem C74_freed_once : forall inline has_result s, reach inline has_result s -> (frees s <= 1)%nat.
Proof. exact freed_once. Qed.
Print Assumptions C74_freed_once.

(** A continuation is only resumed while it can be: it is the one of the current poll and was not resumed. *)
Theorem C74_resumed_once : forall inline has_result s k, reach inline has_result s -> resumes s k -> resumable s k.
Proof. exact resumed_once. Qed.
Print Assumptions C74_resumed_once.

Example C74_resumed_once_case : (exists s, reach false true s /\ resumes s 1 /\ saf s = Asleep) /\ (exists s, reach false true s /\ resumes s 1 /\ saf s = Undecided).
Proof. split; [exact example_resume | exact example_early]. Qed.

(** A continuation is never stored over another. *)
Theorem C74_not_replaced : forall inline has_result s, reach inline has_result s -> at_ s = Holding -> sch s = Empty \/ sch s = Waked.
Proof. exact not_replaced. Qed.
Print Assumptions C74_not_replaced.

(** A future that ended is not polled again. *)
Theorem C74_not_polled_again : forall inline has_result s, reach inline has_result s -> at_ s = Future_ -> ended s = None.
Proof. exact not_polled_again. Qed.
Print Assumptions C74_not_polled_again.

(** The call ends as the future did. Partial: a result that is null gives a NullPointerException instead. *)
Theorem C74_result_partial : forall inline has_result s e, reach inline has_result s -> at_ s = Finished e ->
  exists r, ended s = Some r /\ (e = shown has_result r \/ r = Ready None /\ has_result = true /\ e = NullPointer).
Proof. exact result_shown. Qed.
Print Assumptions C74_result_partial.

Example C74_result_partial_case : exists s, reach false true s /\ at_ s = Finished (Gives (Some 7%Z)) /\ ended s = Some (Ready (Some 7%Z)) /\ ~ points s.
Proof. exact example_run. Qed.

(** And so it does. *)
Theorem C74_null_refuted : forall inline, exists s, reach inline true s /\ ended s = Some (Ready None) /\ at_ s = Finished NullPointer.
Proof. exact null_lost. Qed.
Print Assumptions C74_null_refuted.

(** The program only stands still when the call has ended, or when it sleeps and the future was not woken since it was polled.
    Partial: coroutines are dispatched, and do not run on inside the thread that resumes them. *)
Theorem C74_no_deadlock_partial : forall has_result s, reach false has_result s -> still false has_result s -> finished s \/ at_ s = Sleeping /\ woken s = false.
Proof. exact stands_still. Qed.
Print Assumptions C74_no_deadlock_partial.

Example C74_no_deadlock_partial_case : forall has_result, reach false has_result (asleep false).
Proof. exact (asleep_reached false). Qed.

(** A future that was woken is polled again, or the call ends; there is no endless run without a poll. *)
Theorem C74_polled_again_partial : forall has_result s s', reach false has_result s -> woken s = true -> steps false has_result s s' ->
  (forall s2, ~ step false has_result Sys s' s2) -> at_ s' = Top \/ finished s'.
Proof. exact polled_again. Qed.
Print Assumptions C74_polled_again_partial.

Example C74_polled_again_partial_case : exists s s', reach false true s /\ woken s = true /\ at_ s = Sleeping /\ steps false true s s' /\ at_ s' = Top.
Proof. exact example_again. Qed.

(** And it is not polled in vain: each poll after the first has a wake of its own. *)
Theorem C74_not_in_vain : forall inline has_result polls wakes s, tallied inline has_result polls wakes s -> (polls <= S wakes)%nat.
Proof. exact not_in_vain. Qed.
Print Assumptions C74_not_in_vain.

Example C74_not_in_vain_case : exists s, tallied false true 2 1 s.
Proof. exact example_tally. Qed.

(** Between two polls the program takes a bounded number of steps. *)
Theorem C74_steps_end : forall has_result s, exists bound, forall k s', counted false has_result k s s' -> (k <= bound)%nat.
Proof. exact steps_end. Qed.
Print Assumptions C74_steps_end.

(** When the coroutine runs on inside the thread that resumes it, it deadlocks: that thread holds the lock that the next poll takes. *)
Theorem C74_inline_refuted : forall has_result, exists s, reach true has_result s /\ woken s = false /\ frees s = 0%nat
  /\ forall s', later true has_result s s' -> still true has_result s' /\ ~ finished s'.
Proof. exact deadlocks. Qed.
Print Assumptions C74_inline_refuted.

(** Cancelling the coroutine does not end the call. *)
Theorem C74_cancel_refuted : forall inline has_result, exists s, reach inline has_result s /\ cancelled s = true /\ still inline has_result s /\ ~ finished s.
Proof. exact cancel_ignored. Qed.
Print Assumptions C74_cancel_refuted.

(** Rust gets what the coroutine came to, whatever fails on the way, and never waits for nothing. *)
Theorem C74_answer : forall throws a, awaited throws a = Some (answer throws a).
Proof. exact answer_right. Qed.
Print Assumptions C74_answer.

Example C74_answer_case : answer true example_call = SError 4 /\ clean example_call.
Proof. exact example_answer. Qed.

(** The sender that Kotlin has a pointer to is used once. Partial: no exception stays pending in the native method that completes. *)
Theorem C74_sender_once_partial : forall throws a, clean a -> (uses (snd (start_call throws a)) <= 1)%nat
  /\ (a_lower a = Fine -> a_method a = Fine -> uses (snd (start_call throws a)) = 1%nat).
Proof. exact sender_used_once. Qed.
Print Assumptions C74_sender_once_partial.

(** Otherwise it is used twice, after it was freed. *)
Theorem C74_sender_twice_refuted : exists throws a, uses (snd (start_call throws a)) = 2%nat.
Proof. exact used_twice. Qed.
Print Assumptions C74_sender_twice_refuted.

(** It is leaked when the JNI method throws. *)
Theorem C74_sender_leak_refuted : exists throws a, clean a /\ In Leaked (snd (start_call throws a)).
Proof. exact leaked. Qed.
Print Assumptions C74_sender_leak_refuted.

(** The message of an exception of the implementation does not get to Rust. *)
Theorem C74_message_refuted : forall throws m1 m2,
  awaited throws (Call Fine Fine (Coroutine true Fine (ThrowsOther m1))) = awaited throws (Call Fine Fine (Coroutine true Fine (ThrowsOther m2))).
Proof. exact message_lost. Qed.
Print Assumptions C74_message_refuted.
