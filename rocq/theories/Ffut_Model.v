(** * Rust awaiting a foreign asynchronous method

    Models uniffi_core/src/oneshot.rs and uniffi_core/src/ffi/foreignfuture.rs as an
    interleaving machine: the Rust task that owns the future on one side, the foreign code
    that was given the completion callback on the other.  One step per critical section of
    the channel's mutex, per call of a waker, per call of the dropped-callback and per
    reference-count change, so that every interleaving is covered.

    Results are integers, wakers are numbers.  Simplification: the executor owns the future
    exclusively ([poll] takes [&mut self]), so polls and the drop do not overlap each other;
    what the lift of the result does is left out (the dropped-callback runs whether it
    returns or unwinds). *)

From Verif Require Import Base.

Definition wid := nat.

(** Where the Rust future is. *)
Inductive rfut :=
| RInit                      (* never polled *)
| RCalling (w : wid)         (* first poll: inside the foreign scaffolding function *)
| RPolling (w : wid)         (* in [Receiver::poll], about to lock *)
| RWait                      (* pending *)
| RTaken (v : Z)             (* the value was taken; the receiver is still to be dropped *)
| RLift (v : Z)              (* about to drop the dropped-callback and return *)
| RFin                       (* returned Ready *)
| RDrop1                     (* being dropped early: the receiver *)
| RDrop2                     (* being dropped early: the dropped-callback *)
| RGone.                     (* dropped early *)

(** A completion call in progress (oneshot.rs l.38-51). *)
Inductive send :=
| SLock (v : Z)              (* about to lock and store *)
| SWake (w : wid)            (* lock released, about to wake *)
| SDrop.                     (* about to drop the sender *)

Inductive event :=
| ECall                      (* the foreign method is called *)
| ESetup (b : bool)          (* that call returned, having set a dropped-callback or not *)
| ESent (v : Z)              (* a completion stored its value *)
| EPending (w : wid)         (* a poll returned Pending, having been given waker w *)
| EWoke (w : wid)
| EReady (v : Z)             (* a poll returned Ready *)
| EDropped                   (* the foreign dropped-callback ran *)
| EFreed (v : option Z)      (* the channel was deallocated, with what it still held *)
| EBad.                      (* the channel was touched after that *)

Record st := mk {
  value : option Z;
  waker : option wid;
  strong : nat;              (* references to the channel *)
  fut : rfut;
  right : bool;              (* the foreign code still has to complete *)
  armed : bool;              (* it set a dropped-callback *)
  sends : list send;
  log : list event }.

Definition init : st := mk None None 0 RInit false false [] [].

Inductive op :=
| Poll (w : wid)             (* the executor polls with waker w *)
| Setup (b : bool)           (* the scaffolding function returns, having set a dropped-callback or not *)
| DropFuture                 (* the executor drops the future *)
| Complete (v : Z)           (* the foreign code calls the completion callback *)
| GoRust                     (* the Rust side advances *)
| GoSend (i : nat).          (* a completion call advances *)

Definition ev (e : event) (s : st) : st :=
  mk (value s) (waker s) (strong s) (fut s) (right s) (armed s) (sends s) (e :: log s).
Definition set_fut (f : rfut) (s : st) : st :=
  mk (value s) (waker s) (strong s) f (right s) (armed s) (sends s) (log s).
Definition touch (s : st) : st := match strong s with O => ev EBad s | _ => s end.

(** Dropping a reference to the channel ([Arc]). *)
Definition dec (s : st) : st :=
  match strong s with
  | O => ev EBad s
  | S n =>
      let s' := mk (value s) (waker s) n (fut s) (right s) (armed s) (sends s) (log s) in
      match n with
      | O => ev (EFreed (value s)) (mk None None 0 (fut s) (right s) (armed s) (sends s) (log s))
      | _ => s'
      end
  end.

(** foreignfuture.rs l.59-63: dropping the struct calls the callback; the default one does
    nothing (l.47-57). *)
Definition drop_callback (s : st) : st := if armed s then ev EDropped s else s.

Fixpoint remove_nth {A} (i : nat) (l : list A) : list A :=
  match l, i with
  | [], _ => []
  | _ :: l', O => l'
  | x :: l', S i' => x :: remove_nth i' l'
  end.

(** oneshot.rs l.38-51 [Sender::send], reached through foreignfuture.rs l.93-99. *)
Definition go_send (a : send) (s : st) : st :=
  match a with
  | SLock v =>
      let s := touch s in
      let rest := match waker s with Some w => SWake w | None => SDrop end in
      ev (ESent v) (mk (Some v) None (strong s) (fut s) (right s) (armed s) (rest :: sends s) (log s))
  | SWake w => ev (EWoke w) (mk (value s) (waker s) (strong s) (fut s) (right s) (armed s) (SDrop :: sends s) (log s))
  | SDrop => dec s
  end.

Definition step (s : st) (o : op) : option st :=
  match o with
  (* foreignfuture.rs l.67-91: the body of the async function up to the await, then on *)
  | Poll w =>
      match fut s with
      | RInit => Some (ev ECall (mk None None 2 (RCalling w) true false (sends s) (log s)))
      | RWait => Some (set_fut (RPolling w) s)
      | _ => None
      end
  | Setup b =>
      match fut s with
      | RCalling w => Some (ev (ESetup b) (mk (value s) (waker s) (strong s) (RPolling w) (right s) b (sends s) (log s)))
      | _ => None
      end
  | GoRust =>
      match fut s with
      (* oneshot.rs l.74-83 [Receiver::poll] *)
      | RPolling w =>
          let s := touch s in
          match value s with
          | Some v => Some (mk None (waker s) (strong s) (RTaken v) (right s) (armed s) (sends s) (log s))
          | None => Some (ev (EPending w) (mk None (Some w) (strong s) RWait (right s) (armed s) (sends s) (log s)))
          end
      | RTaken v => Some (set_fut (RLift v) (dec s))
      | RLift v => Some (ev (EReady v) (set_fut RFin (drop_callback s)))
      | RDrop1 => Some (set_fut RDrop2 (dec s))
      | RDrop2 => Some (set_fut RGone (drop_callback s))
      | _ => None
      end
  | DropFuture =>
      match fut s with
      | RInit => Some (set_fut RGone s)
      | RWait => Some (set_fut RDrop1 s)
      | _ => None
      end
  | Complete v =>
      if right s then Some (mk (value s) (waker s) (strong s) (fut s) false (armed s) (SLock v :: sends s) (log s)) else None
  | GoSend i =>
      match nth_error (sends s) i with
      | None => None
      | Some a => Some (go_send a (mk (value s) (waker s) (strong s) (fut s) (right s) (armed s) (remove_nth i (sends s)) (log s)))
      end
  end.

Fixpoint run (s : st) (os : list op) : option st :=
  match os with
  | [] => Some s
  | o :: os' => match step s o with Some s' => run s' os' | None => None end
  end.

(** ** The generated foreign code that completes

    What the coroutine around the foreign method does with its result.  A completion is
    what it passes to the callback. *)
Inductive result := Returns (v : Z) | Throws (e : Z) | ThrowsOther | IsCancelled.
Inductive completion := Success (v : Z) | DeclaredError (e : Z) | UnexpectedError.

(** [lower v], [lower_e e]: does lowering succeed?  It raises when the method returned
    something of the wrong type or out of range. *)
Section Foreign.
Variables lower lower_e : Z -> bool.

(** python/templates/Async.py l.71-91 [_uniffi_trait_interface_call_async]; lowering is in
    [handle_success], CallbackInterfaceImpl.py l.55-64.  [asyncio.CancelledError] is not
    an [Exception]. *)
Definition python_plain (r : result) : list completion :=
  match r with
  | Returns v => if lower v then [Success v] else []
  | Throws _ | ThrowsOther => [UnexpectedError]
  | IsCancelled => []
  end.

(** Async.py l.97-117 [_uniffi_trait_interface_call_async_with_error] *)
Definition python_with_error (r : result) : list completion :=
  match r with
  | Returns v => if lower v then [Success v] else [UnexpectedError]
  | Throws e => if lower_e e then [DeclaredError e] else [UnexpectedError]
  | ThrowsOther => [UnexpectedError]
  | IsCancelled => []
  end.

(** kotlin/templates/Async.kt l.43-76 (and l.81-114 below): [CancellationException] is an [Exception]. *)
Definition kotlin_plain (r : result) : list completion :=
  match r with
  | Returns v => if lower v then [Success v] else []
  | Throws _ | ThrowsOther | IsCancelled => [UnexpectedError]
  end.

Definition kotlin_with_error (r : result) : list completion :=
  match r with
  | Returns v => if lower v then [Success v] else []
  | Throws e => if lower_e e then [DeclaredError e] else []
  | ThrowsOther | IsCancelled => [UnexpectedError]
  end.

(** swift/templates/Async.swift l.51-74 (and l.82-103 below): lowering cannot throw. *)
Definition swift_plain (r : result) : list completion :=
  match r with
  | Returns v => [Success v]
  | Throws _ | ThrowsOther | IsCancelled => [UnexpectedError]
  end.

Definition swift_with_error (r : result) : list completion :=
  match r with
  | Returns v => [Success v]
  | Throws e => [DeclaredError e]
  | ThrowsOther | IsCancelled => [UnexpectedError]
  end.
End Foreign.
