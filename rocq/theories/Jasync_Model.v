(** Model of asynchronous calls in the JNI bindings for Kotlin.
    Part 1, Kotlin awaits a Rust future: uniffi-bindgen-kotlin-jni/src/bindings/templates/shared/Async.kt,
    src/scaffolding/templates/async.rs and uniffi_core/src/ffi/rustfuture/scheduler.rs, as threads that
    interleave.
    Part 2, Rust awaits a coroutine of Kotlin: src/scaffolding/templates/callback_interface.rs:136-175,
    src/bindings/templates/shared/CallbackInterfaceFfi.kt:72-140 and async.rs:185-281. *)
From Coq Require Export List ZArith String Bool Arith Lia.
Export ListNotations.
Open Scope string_scope.
Open Scope list_scope.

(** ** Part 1 *)

(** What Kotlin sees of a value: [None] is null, which is Rust's None (OptionalFfi.kt:33-48). *)
Definition kvalue := option Z.

(** How the future ends, and what becomes of it in the poll function: a value, an error that is thrown, or
    something else that is thrown (a panic, a value that cannot be converted), async.rs:108-151. *)
Inductive fut_end := Ready (v : kvalue) | Failed (e : Z) | Broken (message : string).

(** How the suspend function ends. *)
Inductive call_end := Gives (v : kvalue) | Throws (e : Z) | ThrowsInternal (message : string) | NullPointer.

(** Async.kt:43-48: [return completion.value!!], or [return] if there is no result. *)
Definition deliver (has_result : bool) (v : kvalue) : call_end :=
  if has_result then match v with Some z => Gives (Some z) | None => NullPointer end else Gives None.

(** scheduler.rs:27-40 State; continuations are numbered. *)
Inductive sched := Empty | Waked | Cancelled | Set_ (k : nat).

(** The continuation that [suspendCoroutine] makes (SafeContinuation of the Kotlin library): undecided until
    its block ends, resumed with a value, or suspended. *)
Inductive safe := Undecided | Resumed (ready : bool) | Asleep.

(** What the poll function returns or throws. *)
Inductive poll_end := Pending | Complete (v : kvalue) | Raised (e : call_end).

(** Where the coroutine is. *)
Inductive pc :=
| Top                       (* Async.kt:19: it is about to call the poll function *)
| Check                     (* async.rs:97: the scheduler is locked and asked whether it is cancelled *)
| Future_                   (* l.102-105: the future runs *)
| Store                     (* l.154-157: it was not ready, and the continuation is about to be stored *)
| Holding                   (* scheduler.rs:65-90 Scheduler::store, with the outer lock held *)
| Resuming (k : nat)        (* l.92-94: store resumes a continuation at once *)
| Unlocking
| Returning (r : poll_end)
| BlockEnds                 (* the block of suspendCoroutine is over *)
| Sleeping                  (* the coroutine is suspended *)
| Runnable                  (* it was resumed, and its dispatcher will run it *)
| After (ready : bool)      (* Async.kt:42 *)
| Freeing (e : call_end)    (* l.51-53 *)
| Finished (e : call_end).

(** Where the thread that has the lock of the scheduler to wake it is: async.rs:26-34, scheduler.rs:103-131,
    and invoke, async.rs:46-66. [Inside]: the coroutine runs in this thread. *)
Inductive waking := Take | Resume (k : nat) | Inside | Delete | Unlock.

Inductive holder := Free | ByPoll | ByWaker (w : waking).

(** The state: the scheduler, the lock around it (async.rs:7), the number and the state of the continuation of
    the current poll, where the coroutine is, the wakers that are held somewhere, the threads that wait for
    the lock in order to wake, the strong count of the future, the global references to continuations.
    For the theorems: how the future ended, whether it was woken since it was last polled, how often it was
    freed, and whether the coroutine was cancelled. *)
Record st := ST {
  sch : sched; lock : holder; cur : nat; saf : safe; at_ : pc;
  wakers : nat; waiting : nat; strong : nat; refs : nat;
  ended : option fut_end; woken : bool; frees : nat; cancelled : bool }.

(** async.rs:11-20 UniffiRustFuture::new and into_handle. *)
Definition init : st := ST Empty Free 0 (Resumed false) Top 0 0 1 0 None false 0 false.

(** The steps of the threads of the program, the start of a poll, and what other code does: it clones and
    drops wakers and wakes, the user cancels the coroutine. *)
Inductive kind := Sys | Begin | Env.

(** How the future's end leaves the poll function: l.108-151. A value is given to the [completion]. *)
Definition leaves (r : fut_end) : poll_end :=
  match r with Ready v => Complete v | Failed e => Raised (Throws e) | Broken m => Raised (ThrowsInternal m) end.

Section mode.
(** Whether the coroutine is resumed in the thread that resumes it (Dispatchers.Unconfined, or no dispatcher). *)
Variable inline : bool.
Variable has_result : bool.

(** Taking the lock and giving it back are one step where nothing happens between them. The waker that the
    poll function makes is counted with the reference of the poll function. A wake that the future calls while
    it is polled is taken as one from another thread. *)
Inductive step : kind -> st -> st -> Prop :=
(** Async.kt:20-21, async.rs:88-95: a new continuation, one more reference. *)
| begin_ : forall s1 l c f w wt st_ rf en wo fr ca,
    step Begin (ST s1 l c f Top w wt st_ rf en wo fr ca) (ST s1 l (S c) Undecided Check w wt (S st_) rf en false fr ca)
(** async.rs:97-100 *)
| check : forall s1 c f w wt st_ rf en wo fr ca,
    step Sys (ST s1 Free c f Check w wt st_ rf en wo fr ca)
      (ST s1 Free c f (match s1 with Cancelled => Returning (Raised (ThrowsInternal "cancelled")) | _ => Future_ end) w wt st_ rf en wo fr ca)
(** l.105 *)
| pending : forall s1 l c f w wt st_ rf en wo fr ca,
    step Sys (ST s1 l c f Future_ w wt st_ rf en wo fr ca) (ST s1 l c f Store w wt st_ rf en wo fr ca)
| ready : forall s1 l c f w wt st_ rf en wo fr ca r,
    step Sys (ST s1 l c f Future_ w wt st_ rf en wo fr ca) (ST s1 l c f (Returning (leaves r)) w wt st_ rf (Some r) wo fr ca)
(** l.154-157 *)
| store : forall s1 c f w wt st_ rf en wo fr ca,
    step Sys (ST s1 Free c f Store w wt st_ rf en wo fr ca) (ST s1 ByPoll c f Holding w wt st_ (S rf) en wo fr ca)
(** scheduler.rs:65-90 *)
| holding : forall s1 c f w wt st_ rf en wo fr ca,
    step Sys (ST s1 ByPoll c f Holding w wt st_ rf en wo fr ca)
      (ST (match s1 with Empty => Set_ c | Set_ _ => Set_ c | Waked => Empty | Cancelled => Cancelled end) ByPoll c f
          (match s1 with Empty => Unlocking | Set_ k => Resuming k | Waked | Cancelled => Resuming c end) w wt st_ rf en wo fr ca)
(** l.92-94, async.rs:46-66: the continuation of this poll is undecided, so that only its value is kept. *)
| resuming : forall s1 c w wt st_ rf en wo fr ca,
    step Sys (ST s1 ByPoll c Undecided (Resuming c) w wt st_ (S rf) en wo fr ca)
      (ST s1 ByPoll c (Resumed false) Unlocking w wt st_ rf en wo fr ca)
| unlocking : forall s1 c f w wt st_ rf en wo fr ca,
    step Sys (ST s1 ByPoll c f Unlocking w wt st_ rf en wo fr ca) (ST s1 Free c f (Returning Pending) w wt st_ rf en wo fr ca)
(** Async.kt:28-40, and the references of the poll function are dropped. *)
| returning_pending : forall s1 l c f w wt st_ rf en wo fr ca,
    step Sys (ST s1 l c f (Returning Pending) w wt (S st_) rf en wo fr ca) (ST s1 l c f BlockEnds w wt st_ rf en wo fr ca)
| returning_complete : forall s1 l c w wt st_ rf en wo fr ca v,
    step Sys (ST s1 l c Undecided (Returning (Complete v)) w wt (S st_) rf en wo fr ca)
      (ST s1 l c (Resumed true) BlockEnds w wt st_ rf en wo fr ca)
| returning_raised : forall s1 l c f w wt st_ rf en wo fr ca e,
    step Sys (ST s1 l c f (Returning (Raised e)) w wt (S st_) rf en wo fr ca) (ST s1 l c f (Freeing e) w wt st_ rf en wo fr ca)
(** [getOrThrow] of SafeContinuation. *)
| block_resumed : forall s1 l c w wt st_ rf en wo fr ca b,
    step Sys (ST s1 l c (Resumed b) BlockEnds w wt st_ rf en wo fr ca) (ST s1 l c (Resumed b) (After b) w wt st_ rf en wo fr ca)
| block_suspended : forall s1 l c w wt st_ rf en wo fr ca,
    step Sys (ST s1 l c Undecided BlockEnds w wt st_ rf en wo fr ca) (ST s1 l c Asleep Sleeping w wt st_ rf en wo fr ca)
| dispatched : forall s1 l c f w wt st_ rf en wo fr ca,
    step Sys (ST s1 l c f Runnable w wt st_ rf en wo fr ca) (ST s1 l c f (After false) w wt st_ rf en wo fr ca)
(** Async.kt:42-49 *)
| again : forall s1 l c f w wt st_ rf en wo fr ca,
    step Sys (ST s1 l c f (After false) w wt st_ rf en wo fr ca) (ST s1 l c f Top w wt st_ rf en wo fr ca)
| over : forall s1 l c f w wt st_ rf v wo fr ca,
    step Sys (ST s1 l c f (After true) w wt st_ rf (Some (Ready v)) wo fr ca)
      (ST s1 l c f (Freeing (deliver has_result v)) w wt st_ rf (Some (Ready v)) wo fr ca)
(** Async.kt:51-53, async.rs:165-182 *)
| freeing : forall s1 l c f w wt st_ rf en wo fr ca e,
    step Sys (ST s1 l c f (Freeing e) w wt (S st_) rf en wo fr ca) (ST s1 l c f (Finished e) w wt st_ rf en wo (S fr) ca)
(** Other threads: async.rs:26-34. *)
| wake_lock : forall s1 c f p w wt st_ rf en wo fr ca,
    step Sys (ST s1 Free c f p w (S wt) st_ rf en wo fr ca) (ST s1 (ByWaker Take) c f p w wt st_ rf en wo fr ca)
(** scheduler.rs:103-131 *)
| wake_take : forall s1 c f p w wt st_ rf en wo fr ca,
    step Sys (ST s1 (ByWaker Take) c f p w wt st_ rf en wo fr ca)
      (ST (match s1 with Set_ _ => Empty | Empty => Waked | other => other end)
          (ByWaker (match s1 with Set_ k => Resume k | _ => Unlock end)) c f p w wt st_ rf en wo fr ca)
(** async.rs:46-66, Async.kt:5-7: the value is kept if the block is not over yet. *)
| wake_undecided : forall s1 c p w wt st_ rf en wo fr ca,
    step Sys (ST s1 (ByWaker (Resume c)) c Undecided p w wt st_ rf en wo fr ca)
      (ST s1 (ByWaker Delete) c (Resumed false) p w wt st_ rf en wo fr ca)
(** Otherwise the dispatcher is given the coroutine, or it runs on in this thread. *)
| wake_asleep : forall s1 c w wt st_ rf en wo fr ca,
    step Sys (ST s1 (ByWaker (Resume c)) c Asleep Sleeping w wt st_ rf en wo fr ca)
      (ST s1 (ByWaker (if inline then Inside else Delete)) c (Resumed false) (if inline then Top else Runnable) w wt st_ rf en wo fr ca)
| wake_inside : forall s1 c f p w wt st_ rf en wo fr ca, (p = Sleeping \/ exists e, p = Finished e) ->
    step Sys (ST s1 (ByWaker Inside) c f p w wt st_ rf en wo fr ca) (ST s1 (ByWaker Delete) c f p w wt st_ rf en wo fr ca)
| wake_delete : forall s1 c f p w wt st_ rf en wo fr ca,
    step Sys (ST s1 (ByWaker Delete) c f p w wt st_ (S rf) en wo fr ca) (ST s1 (ByWaker Unlock) c f p w wt st_ rf en wo fr ca)
| wake_unlock : forall s1 c f p w wt st_ rf en wo fr ca,
    step Sys (ST s1 (ByWaker Unlock) c f p w wt (S st_) rf en wo fr ca) (ST s1 Free c f p w wt st_ rf en wo fr ca)
(** The future hands out a waker; wakers are cloned, dropped, and woken. *)
| hand_out : forall s1 l c f w wt st_ rf en wo fr ca,
    step Env (ST s1 l c f Future_ w wt st_ rf en wo fr ca) (ST s1 l c f Future_ (S w) wt (S st_) rf en wo fr ca)
| clone : forall s1 l c f p w wt st_ rf en wo fr ca,
    step Env (ST s1 l c f p (S w) wt st_ rf en wo fr ca) (ST s1 l c f p (S (S w)) wt (S st_) rf en wo fr ca)
| drop_ : forall s1 l c f p w wt st_ rf en wo fr ca,
    step Env (ST s1 l c f p (S w) wt (S st_) rf en wo fr ca) (ST s1 l c f p w wt st_ rf en wo fr ca)
| wake : forall s1 l c f p w wt st_ rf en wo fr ca,
    step Env (ST s1 l c f p (S w) wt st_ rf en wo fr ca) (ST s1 l c f p w (S wt) st_ rf en true fr ca)
(** The user cancels the coroutine: [suspendCoroutine] takes no notice, and the cancel function
    (async.rs:164-178) is never called. *)
| cancel : forall s1 l c f p w wt st_ rf en wo fr ca,
    step Env (ST s1 l c f p w wt st_ rf en wo fr ca) (ST s1 l c f p w wt st_ rf en wo fr true).

Inductive reach : st -> Prop :=
| reach_init : reach init
| reach_step : forall k s s', reach s -> step k s s' -> reach s'.
End mode.

(** ** Part 2 *)

(** A part of the call that may fail, with the message of the exception or error. *)
Inductive part := Fine | Fails (message : string).

(** What the coroutine comes to when it is run: the object is not there any more, an argument is not lifted,
    or the implementation ends: it returns a value, throws an error of the interface, or something else
    (a cancellation too). [lower]: Kotlin lowers the value; [lift]: Rust lifts it; [stays]: a Java exception is
    pending when the native method returns. *)
Inductive impl_end :=
| Returns (v : Z) (lower lift : part) (stays : bool)
| ThrowsDeclared (e : Z) (lower lift : part) (stays : bool)
| ThrowsOther (message : string).
Record coroutine := Coroutine { c_there : bool; c_args : part; c_impl : impl_end }.

(** A call: the arguments are lowered, the JNI method is called, the coroutine runs. *)
Record async_call := Call { a_lower : part; a_method : part; a_run : coroutine }.

(** What is sent to the Rust future: [Result<Result<T, E>>]. *)
Inductive sent := SValue (v : Z) | SError (e : Z) | SUnexpected (message : string).

(** What happens to the sender, which is a raw pointer while Kotlin has it: [Used] is a call of [from_raw]
    and [send] (async.rs:190-192, 214). *)
Inductive event := Used (x : sent) | DroppedHere | Leaked.

(** The native methods that complete: async.rs:185-219 and 222-252. *)
Definition completes (x : sent) (lift : part) : event :=
  Used (match lift with Fine => x | Fails m => SUnexpected m end).
(** l.256-276 *)
Definition unexpected_completes : event := Used (SUnexpected "Unexpected callback error").

(** CallbackInterfaceFfi.kt:86-137: everything is inside one [try], whose handler completes with an
    unexpected error. A native method that returns with a pending exception throws it. *)
Definition run_coroutine (throws : bool) (c : coroutine) : list event :=
  if c_there c then
    match c_args c with
    | Fails _ => [unexpected_completes]
    | Fine =>
        match c_impl c with
        | Returns v lower lift stays =>
            match lower with
            | Fails _ => [unexpected_completes]
            | Fine => completes (SValue v) lift :: (if stays then [unexpected_completes] else [])
            end
        | ThrowsDeclared e lower lift stays =>
            if throws then
              match lower with
              | Fails _ => [unexpected_completes]
              | Fine => completes (SError e) lift :: (if stays then [unexpected_completes] else [])
              end
            else [unexpected_completes]
        | ThrowsOther _ => [unexpected_completes]
        end
    end
  else [unexpected_completes].

(** callback_interface.rs:136-175. The future is told at once, or waits for the receiver. *)
Definition start_call (throws : bool) (a : async_call) : option sent * list event :=
  match a_lower a with
  | Fails m => (Some (SUnexpected m), [DroppedHere])
  | Fine =>
      match a_method a with
      | Fails m => (Some (SUnexpected ("Exception calling call_void: " ++ m)%string), [Leaked])
      | Fine => (None, run_coroutine throws (a_run a))
      end
  end.

(** oneshot.rs:36-47, 71-84: the receiver gives the value that was sent; the sender is gone after that, and
    its memory is when the receiver is dropped. *)
Fixpoint received (l : list event) : option sent :=
  match l with
  | Used x :: _ => Some x
  | _ :: l' => received l'
  | [] => None
  end.
Definition awaited (throws : bool) (a : async_call) : option sent :=
  match start_call throws a with (Some x, _) => Some x | (None, l) => received l end.
(** How often the raw pointer is turned into a sender. *)
Definition uses (l : list event) : nat := List.length (filter (fun e => match e with Used _ => true | _ => false end) l).
