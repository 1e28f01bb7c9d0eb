(** * Rust futures exported over the FFI, as an interleaving machine

    Models uniffi_core/src/ffi/rustfuture/{scheduler,future,mod}.rs.

    Every FFI call ([rust_future_poll], [rust_future_cancel],
    [rust_future_complete], [rust_future_free]) and every [Waker::wake] is an
    _activity_.  An activity advances in atomic steps: one step per critical
    section of the scheduler mutex or of the future mutex, and one step per
    invocation of a continuation callback (which the code performs after
    releasing the locks).  Any number of activities may be in flight, and the
    schedule chooses which one advances next, so the machine ranges over all
    interleavings of any number of threads.

    The user's future is an arbitrary oracle: what one poll of it returns is
    chosen by the schedule, and so is every clone and drop of a waker.

    Simplifications: mutex poisoning is not modelled (a panic of the user's
    [poll] is caught inside the critical section, future.rs l.119; a panic of
    the user's [Drop] is not modelled).  Values of the future are integers. *)

From Verif Require Import Base.

(** A continuation callback together with its data (mod.rs l.99-104,
    [UniffiCompatRustFutureContinuationCallback] and [callback_data]). *)
Definition cbid := nat.

(** future.rs [RustFuturePoll]: [Ready] = 0, [Wake]/[MaybeReady] = 1. *)
Inductive code := CReady | CWake.

(** scheduler.rs l.27-38, [enum Scheduler]. *)
Inductive sched := SEmpty | SWaked | SCancelled | SSet (cb : cbid).

(** future.rs l.97-106: what [WrappedFuture::result] holds: the lowered return
    value, or the call status describing an error or a panic. *)
Inductive outcome := ORet (v : Z) | OFail (status : Z).

(** What one poll of the user's future does (future.rs l.109-141): pending, or
    finished with a value, an error or a caught panic. *)
Inductive pollres := RPending | RDone (o : outcome).

(** What an activity does when its work is over. *)
Inductive kont :=
| KDrop      (* drop the [Arc] it owns *)
| KKeep      (* [wake_by_ref]: give the waker back to its owner *)
| KFree.     (* [RustFuture::free]: go on to the second statement *)

(** Program counters of activities. *)
Inductive act :=
| ACheck (cb : cbid)                         (* poll: about to read is_cancelled *)
| ALock (cb : cbid)                          (* poll: about to lock the future *)
| APolling (cb : cbid)                       (* poll: inside the user's poll, future mutex held *)
| AStore (cb : cbid)                         (* poll: about to call scheduler.store *)
| AInvoke (cb : cbid) (c : code) (k : kont)  (* about to invoke a continuation *)
| AWake (k : kont)                           (* wake: about to call scheduler.wake *)
| ACancel (k : kont)                         (* cancel / free: about to call scheduler.cancel *)
| AComplete                                  (* complete: about to lock the future *)
| AFree.                                     (* free: about to lock the future *)

(** Observable events, recorded newest first. *)
Inductive event :=
| EPoll (cb : cbid)             (* foreign code called rust_future_poll with cb *)
| EInner (cb : cbid)            (* the user's future starts being polled on behalf of cb *)
| EInnerPending                 (* that poll returned Pending *)
| EInnerDone (o : outcome)      (* that poll finished the user's future *)
| EInvoke (cb : cbid) (c : code)
| EWake                         (* Scheduler::wake ran *)
| ECancel                       (* Scheduler::cancel ran *)
| EComplete (o : option outcome)(* complete returned: a result, or the cancelled status *)
| EFree                         (* free's second half ran *)
| EDealloc                      (* the RustFuture allocation is released *)
| EBad.                         (* an activity touched the released allocation *)

Record st := mk {
  sch : sched;
  fut : bool;               (* WrappedFuture::future is Some *)
  res : option outcome;     (* WrappedFuture::result *)
  locked : bool;            (* the future mutex is held *)
  handle : bool;            (* the foreign side owns the handle's Arc *)
  strong : nat;             (* the Arc's strong count *)
  own : nat;                (* wakers stored inside the user's future *)
  ext : nat;                (* wakers stored anywhere else *)
  acts : list act;
  log : list event }.

(** mod.rs l.114-124 [rust_future_new]: one Arc, owned by the handle. *)
Definition init : st := mk SEmpty true None false true 1 0 0 [] [].

Inductive op :=
| Poll (cb : cbid) | Cancel | Complete | Free     (* foreign calls *)
| Wake (by_value : bool)                          (* a thread uses a waker *)
| CloneWaker | DropWaker                          (* on wakers held elsewhere *)
| HandOut                                         (* the user's poll clones its context's waker to elsewhere *)
| Stash | Unstash                                 (* the user's poll keeps / drops a waker in the future *)
| Go (i : nat) (r : pollres).                     (* activity i advances; r is used inside the user's poll *)

(** Helpers on states. *)
Definition ev (e : event) (s : st) : st :=
  mk (sch s) (fut s) (res s) (locked s) (handle s) (strong s) (own s) (ext s) (acts s) (e :: log s).
Definition add (a : act) (s : st) : st :=
  mk (sch s) (fut s) (res s) (locked s) (handle s) (strong s) (own s) (ext s) (a :: acts s) (log s).
Definition set_sch (x : sched) (s : st) : st :=
  mk x (fut s) (res s) (locked s) (handle s) (strong s) (own s) (ext s) (acts s) (log s).
Definition set_acts (l : list act) (s : st) : st :=
  mk (sch s) (fut s) (res s) (locked s) (handle s) (strong s) (own s) (ext s) l (log s).
Definition set_locked (b : bool) (s : st) : st :=
  mk (sch s) (fut s) (res s) b (handle s) (strong s) (own s) (ext s) (acts s) (log s).
Definition set_ext (n : nat) (s : st) : st :=
  mk (sch s) (fut s) (res s) (locked s) (handle s) (strong s) (own s) n (acts s) (log s).
Definition set_own (n : nat) (s : st) : st :=
  mk (sch s) (fut s) (res s) (locked s) (handle s) (strong s) n (ext s) (acts s) (log s).
Definition set_handle (b : bool) (s : st) : st :=
  mk (sch s) (fut s) (res s) (locked s) b (strong s) (own s) (ext s) (acts s) (log s).
Definition set_res (o : option outcome) (s : st) : st :=
  mk (sch s) (fut s) o (locked s) (handle s) (strong s) (own s) (ext s) (acts s) (log s).
Definition set_fut (b : bool) (s : st) : st :=
  mk (sch s) b (res s) (locked s) (handle s) (strong s) (own s) (ext s) (acts s) (log s).

(** [Arc::increment_strong_count] / [Arc::clone]; reading a released
    allocation is recorded as [EBad]. *)
Definition inc (s : st) : st :=
  let s := match strong s with O => ev EBad s | _ => s end in
  mk (sch s) (fut s) (res s) (locked s) (handle s) (S (strong s)) (own s) (ext s) (acts s) (log s).

(** Dropping an [Arc]: the last one releases the allocation. *)
Definition dec (s : st) : st :=
  match strong s with
  | O => ev EBad s
  | S n =>
      let s' := mk (sch s) (fut s) (res s) (locked s) (handle s) n (own s) (ext s) (acts s) (log s) in
      match n with O => ev EDealloc s' | _ => s' end
  end.

(** Accessing the RustFuture through an [Arc]. *)
Definition touch (s : st) : st :=
  match strong s with O => ev EBad s | _ => s end.

(** future.rs l.153-158, 173, 176-179: [self.future = None] drops the user's
    future and with it the wakers it stored. *)
Definition drop_future (s : st) : st :=
  set_fut false (set_own 0 (Nat.iter (own s) dec s)).

(** End of an activity. *)
Definition finish (k : kont) (s : st) : st :=
  match k with
  | KDrop => dec s
  | KKeep => set_ext (S (ext s)) s
  | KFree => add AFree s
  end.

(** scheduler.rs l.70-100 [Scheduler::store]. *)
Definition sched_store (cb : cbid) (x : sched) : sched * option (cbid * code) :=
  match x with
  | SEmpty => (SSet cb, None)
  | SSet old => (SSet cb, Some (old, CWake))
  | SWaked => (SEmpty, Some (cb, CWake))
  | SCancelled => (SCancelled, Some (cb, CReady))
  end.

(** scheduler.rs l.109-135 [Scheduler::wake]. *)
Definition sched_wake (x : sched) : sched * option (cbid * code) :=
  match x with
  | SSet cb => (SEmpty, Some (cb, CWake))
  | SEmpty => (SWaked, None)
  | SWaked => (SWaked, None)
  | SCancelled => (SCancelled, None)
  end.

(** scheduler.rs l.137-149 [Scheduler::cancel]. *)
Definition sched_cancel (x : sched) : sched * option (cbid * code) :=
  match x with
  | SSet cb => (SCancelled, Some (cb, CReady))
  | _ => (SCancelled, None)
  end.

(** scheduler.rs l.151-153 [Scheduler::is_cancelled]. *)
Definition is_cancelled (x : sched) : bool :=
  match x with SCancelled => true | _ => false end.

(** Apply a scheduler transition; a callback it returns is invoked later, after
    the lock has been released. *)
Definition apply_sched (p : sched * option (cbid * code)) (k : kont) (s : st) : st :=
  let s := set_sch (fst p) s in
  match snd p with
  | Some (cb, c) => add (AInvoke cb c k) s
  | None => finish k s
  end.

(** One atomic step of an activity which has been removed from [acts s]. *)
Definition advance (a : act) (r : pollres) (s : st) : option st :=
  match a with
  (* future.rs l.205-206 *)
  | ACheck cb =>
      if is_cancelled (sch s) then Some (add (AInvoke cb CReady KDrop) (touch s))
      else Some (add (ALock cb) (touch s))
  (* future.rs l.206-211 and l.144-150: lock, make a waker, look at the result *)
  | ALock cb =>
      if locked s then None
      else match res s with
           | Some _ => Some (add (AInvoke cb CReady KDrop) (touch s))
           | None =>
               if fut s then Some (add (APolling cb) (ev (EInner cb) (inc (set_locked true s))))
               else Some (add (AInvoke cb CReady KDrop) (touch s))
           end
  (* future.rs l.148-158: the user's poll returns; the waker and the guard are dropped *)
  | APolling cb =>
      match r with
      | RPending => Some (dec (add (AStore cb) (set_locked false (ev EInnerPending (touch s)))))
      | RDone o =>
          Some (dec (add (AInvoke cb CReady KDrop)
                  (set_locked false (ev (EInnerDone o) (set_res (Some o) (drop_future (touch s)))))))
      end
  (* future.rs l.213-217 *)
  | AStore cb => Some (apply_sched (sched_store cb (sch s)) KDrop (touch s))
  | AInvoke cb c k => Some (finish k (ev (EInvoke cb c) s))
  (* future.rs l.275-291: wake and wake_by_ref *)
  | AWake k => Some (apply_sched (sched_wake (sch s)) k (ev EWake (touch s)))
  (* future.rs l.224-226 and l.236 *)
  | ACancel k => Some (apply_sched (sched_cancel (sch s)) k (ev ECancel (touch s)))
  (* future.rs l.228-233 and l.162-174 *)
  | AComplete =>
      if locked s then None
      else Some (dec (set_res None (drop_future (ev (EComplete (res s)) (touch s)))))
  (* future.rs l.237-239 and l.176-179 *)
  | AFree =>
      if locked s then None
      else Some (dec (set_res None (drop_future (ev EFree (touch s)))))
  end.

Fixpoint remove_nth {A} (i : nat) (l : list A) : list A :=
  match l, i with
  | [], _ => []
  | _ :: l', O => l'
  | x :: l', S i' => x :: remove_nth i' l'
  end.

Definition is_polling (a : act) : bool := match a with APolling _ => true | _ => false end.

(** One step of the machine; [None] when the operation is not possible: a call
    on a handle the foreign side no longer owns (the documented contract,
    mod.rs l.126-193), the use of a waker that does not exist, or an activity
    blocked on the future mutex. *)
Definition step (s : st) (o : op) : option st :=
  match o with
  (* mod.rs l.135-146: into_arc_borrowed, then RustFuture::poll *)
  | Poll cb => if handle s then Some (add (ACheck cb) (ev (EPoll cb) (inc s))) else None
  (* mod.rs l.158-161 *)
  | Cancel => if handle s then Some (add (ACancel KDrop) (inc s)) else None
  (* mod.rs l.173-182 *)
  | Complete => if handle s then Some (add AComplete (inc s)) else None
  (* mod.rs l.190-193: into_arc takes the handle's reference over *)
  | Free => if handle s then Some (add (ACancel KFree) (set_handle false s)) else None
  (* future.rs l.275-291 *)
  | Wake by_value =>
      match ext s with
      | O => None
      | S n => Some (add (AWake (if by_value then KDrop else KKeep)) (set_ext n s))
      end
  (* future.rs l.262-266 *)
  | CloneWaker => match ext s with O => None | S _ => Some (set_ext (S (ext s)) (inc s)) end
  (* future.rs l.293-296 *)
  | DropWaker => match ext s with O => None | S n => Some (dec (set_ext n s)) end
  | HandOut => if existsb is_polling (acts s) then Some (set_ext (S (ext s)) (inc s)) else None
  | Stash => if existsb is_polling (acts s) then Some (set_own (S (own s)) (inc s)) else None
  | Unstash =>
      if existsb is_polling (acts s) then
        match own s with O => None | S n => Some (dec (set_own n s)) end
      else None
  | Go i r =>
      match nth_error (acts s) i with
      | None => None
      | Some a => advance a r (set_acts (remove_nth i (acts s)) s)
      end
  end.

Fixpoint run (s : st) (os : list op) : option st :=
  match os with
  | [] => Some s
  | o :: os' => match step s o with Some s' => run s' os' | None => None end
  end.
