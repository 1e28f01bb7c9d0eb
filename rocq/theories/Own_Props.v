(** What calls leave behind (C65). *)
From Verif Require Import Base Own_Model Own_Spec Own_Cross Own_Claims.

(** Whatever calls are made, with whatever values, and however they end: nothing is released twice or used after it was
    released, and nothing that belongs to others is released. *)
Theorem C65_never_twice : forall cs, sound (history cs).
Proof. exact history_sound. Qed.
Print Assumptions C65_never_twice.

(** When all values can be converted, no waiting task is interrupted, no future is dropped, and no error is an object
    in Kotlin or Swift: after any calls, whether they return, fail or panic, exactly that is alive that was before. *)
Theorem C65_nothing_left_partial : forall cs, Forall smooth cs -> clean (history cs).
Proof. exact nothing_left. Qed.
Print Assumptions C65_nothing_left_partial.

(** An argument that cannot be written: everything of the arguments before it is left, and the objects in it before the
    place where it fails.  In Swift the process ends. *)
Theorem C65_unsendable_argument : forall L decl failed before v after body,
  Forall (all_of writable) before -> ~ all_of writable v ->
  (L <> Swift ->
   leaves (cross (ToRust L decl failed (before ++ v :: after) body))
     (total buffers_of before) (total objects_of before + objects (until_unwritable (parts v)))) /\
  (L = Swift -> ends_process (cross (ToRust L decl failed (before ++ v :: after) body))).
Proof. exact unsendable_argument. Qed.
Print Assumptions C65_unsendable_argument.

(** An argument that Rust refuses: everything of the arguments after it is left, and the objects in it after the place
    where it is refused. *)
Theorem C65_refused_argument : forall L decl before v after body,
  Forall (all_of writable) (before ++ v :: after) -> Forall (all_of readable) before -> ~ all_of readable v ->
  leaves (cross (ToRust L decl None (before ++ v :: after) body))
    (total buffers_of after) (objects (after_unreadable (parts v)) + total objects_of after).
Proof. exact refused_argument. Qed.
Print Assumptions C65_refused_argument.

(** A result that Rust fails to write. *)
Theorem C65_unsendable_result : forall L decl failed args v,
  Forall (all_of fine) args -> ~ all_of writable v ->
  leaves (cross (ToRust L decl failed args (Returns v))) 0 (objects (until_unwritable (parts v))).
Proof. exact unsendable_result. Qed.
Print Assumptions C65_unsendable_result.

(** A result that the caller refuses: in Swift its buffer is left. *)
Theorem C65_refused_result : forall L decl failed args v,
  Forall (all_of fine) args -> all_of writable v -> ~ all_of readable v ->
  leaves (cross (ToRust L decl failed args (Returns v)))
    (match L with Swift => buffers_of v | _ => 0 end) (objects (after_unreadable (parts v))).
Proof. exact refused_result. Qed.
Print Assumptions C65_refused_result.

(** An error that is an object: in Kotlin and Swift its buffer is left. *)
Theorem C65_error_object : forall L failed args e,
  Forall (all_of fine) args -> Forall fine e ->
  leaves (cross (ToRust L ObjectError failed args (Fails e))) (match L with Kotlin | Swift => 1 | _ => 0 end) 0.
Proof. exact error_object. Qed.
Print Assumptions C65_error_object.

(** A task that is interrupted when the Rust future is ready: the result or the error is left.  Nothing is, when it is
    interrupted before. *)
Theorem C65_interrupted : forall L decl failed args body,
  L <> Swift -> Forall (all_of fine) args ->
  (forall v, body = Returns v -> all_of writable v ->
    leaves (cross (ToRustAsync L decl failed WhenReady args body)) (buffers_of v) (objects_of v)) /\
  (forall e, body = Fails e -> Forall writable e ->
    leaves (cross (ToRustAsync L decl failed WhenReady args body)) 1 (objects e)) /\
  (body = Panics true -> leaves (cross (ToRustAsync L decl failed WhenReady args body)) 1 0) /\
  clean (cross (ToRustAsync L decl failed WhilePending args body)).
Proof. exact interrupted_call. Qed.
Print Assumptions C65_interrupted.

(** An argument of a callback that is refused. *)
Theorem C65_callback_refused_argument : forall L decl before v after d,
  Forall (all_of writable) (before ++ v :: after) -> Forall (all_of readable) before -> ~ all_of readable v ->
  leaves (cross (ToForeign L decl (before ++ v :: after) d))
    (match L with Swift => buffers_of v | _ => 0 end + total buffers_of after)
    (objects (after_unreadable (parts v)) + total objects_of after).
Proof. exact callback_refused_argument. Qed.
Print Assumptions C65_callback_refused_argument.

(** The Rust future of an asynchronous callback is dropped before the foreign task starts: all arguments are left, and
    the sending half of the channel. *)
Theorem C65_callback_dropped_before_start : forall L decl args d,
  L <> Swift -> Forall (all_of writable) args ->
  leaves (cross (ToForeignAsync L decl BeforeStart args d)) (total buffers_of args) (total objects_of args + 1).
Proof. exact callback_dropped_before_start. Qed.
Print Assumptions C65_callback_dropped_before_start.

(** It is dropped while the foreign method runs: the sending half, the message, or the answer is left. *)
Theorem C65_callback_dropped_while_running : forall L decl args v,
  Forall (all_of fine) args -> all_of writable v ->
  leaves (cross (ToForeignAsync L decl WhileRunning args (Answers v)))
    (match L with Python | Ruby => 0 | Kotlin => 1 | Swift => buffers_of v end)
    (match L with Python | Ruby => 1 | Kotlin => 0 | Swift => objects_of v end).
Proof. exact callback_dropped_while_running. Qed.
Print Assumptions C65_callback_dropped_while_running.

(** It is dropped when the answer is there: the answer is left. *)
Theorem C65_callback_answer_dropped : forall L decl args v,
  Forall (all_of fine) args -> all_of writable v ->
  leaves (cross (ToForeignAsync L decl Answered args (Answers v))) (buffers_of v) (objects_of v).
Proof. exact callback_answer_dropped. Qed.
Print Assumptions C65_callback_answer_dropped.

(** A result that Python or Kotlin fail to write is not answered: the future is never ready, and what it needs stays. *)
Theorem C65_callback_never_answered : forall L decl args v,
  (L = Python /\ decl = false) \/ L = Kotlin ->
  Forall (all_of fine) args -> ~ all_of writable v ->
  leaves (cross (ToForeignAsync L decl Kept args (Answers v))) 0 (objects (until_unwritable (parts v)) + 2).
Proof. exact callback_never_answered. Qed.
Print Assumptions C65_callback_never_answered.

(** Without bound: every error that is an object costs a buffer in Kotlin and Swift; *)
Theorem C65_object_errors_refuted : forall L n, L = Kotlin \/ L = Swift ->
  leaves (history (repeat (ToRust L ObjectError None [] (Fails [Object])) n)) n 0.
Proof. exact object_errors. Qed.
Print Assumptions C65_object_errors_refuted.

(** so does every refused result in Swift; *)
Theorem C65_refused_results_refuted : forall n,
  leaves (history (repeat (ToRust Swift NoError None [] (Returns (Packed [Unreadable]))) n)) n 0.
Proof. exact refused_results. Qed.
Print Assumptions C65_refused_results_refuted.

(** every argument that cannot be written, one for the argument before it; *)
Theorem C65_unsendable_arguments_refuted : forall L n, L <> Swift ->
  leaves (history (repeat (ToRust L NoError None [Packed [Object]; Packed [Unwritable]] (Panics true)) n)) n n.
Proof. exact unsendable_arguments. Qed.
Print Assumptions C65_unsendable_arguments_refuted.

(** every argument that Rust refuses, one for the argument after it; *)
Theorem C65_refused_arguments_refuted : forall L n,
  leaves (history (repeat (ToRust L NoError None [Packed [Unreadable]; Packed [Object]] (Panics true)) n)) n n.
Proof. exact refused_arguments. Qed.
Print Assumptions C65_refused_arguments_refuted.

(** every task that is cancelled when the result is there, the result; *)
Theorem C65_cancelled_refuted : forall L n, L <> Swift ->
  leaves (history (repeat (ToRustAsync L NoError None WhenReady [] (Returns (Packed [Object]))) n)) n n.
Proof. exact cancelled_calls. Qed.
Print Assumptions C65_cancelled_refuted.

(** and every dropped future of a callback, in each language, a reference. *)
Theorem C65_dropped_callbacks_refuted : forall L n,
  exists w d, w <> Kept /\ leaves (history (repeat (ToForeignAsync L false w [] d) n)) 0 n.
Proof. exact dropped_callbacks. Qed.
Print Assumptions C65_dropped_callbacks_refuted.
