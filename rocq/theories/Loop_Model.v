(** * The foreign loop that drives a Rust future

    Models the generated call loop, which is the same in the three languages:
    python/templates/Async.py l.40-67 ([_uniffi_continuation_callback],
    [_uniffi_set_future_result], [_uniffi_rust_call_async]),
    kotlin/templates/Async.kt l.6-40 and swift/templates/Async.swift l.6-48, composed with
    the machine of [Async_Model].  One task, one Rust future.

    The continuation handle map is a list of the handles in it (how handles are chosen is
    C18's business: here the next handle is a fresh number).  A continuation callback
    removes its handle and posts the code to the task; the event loop delivers it later.
    The task may be cancelled whenever it is suspended (Python: [CancelledError] out of
    [await future]; Kotlin: [CancellationException] out of [suspendCancellableCoroutine];
    Swift never does it), and then runs the [finally] / [defer] block.  An exception before
    the first poll ([_uniffi_get_event_loop]) runs that block too.

    Simplification: the task does not wait for the poll call to return before it may be
    resumed, which only adds interleavings. *)

From Verif Require Import Base Async_Model.

Inductive tpc :=
| TLoop                  (* head of the loop: about to poll *)
| TAwait (h : cbid)      (* suspended *)
| TReady                 (* about to complete *)
| TCompleting            (* inside the complete call *)
| TFree                  (* about to free: the finally block *)
| TEnd.

(** What the foreign side does and sees, newest first. *)
Inductive fev :=
| FPoll (h : cbid) | FResume (h : cbid) (c : code) | FCancelled | FRaised | FComplete | FFree
| FUseAfterFree           (* a call with a handle that was given back *)
| FBadHandle (h : cbid).  (* a continuation callback whose handle is not in the map *)

Record fst := mkf {
  rust : st;
  pc : tpc;
  conts : list cbid;               (* the continuation handle map *)
  queue : list (cbid * code);      (* posted to the event loop *)
  got : list (cbid * code);        (* results set on the awaited futures *)
  nexth : cbid;
  flog : list fev }.

Definition finit : fst := mkf init TLoop [] [] [] 0 [].

Inductive fop :=
| Task                  (* the task advances *)
| CancelTask            (* the task is cancelled while suspended *)
| Raise                 (* an exception at the head of the loop *)
| Deliver (i : nat)     (* the event loop runs a posted callback *)
| Rust (o : op).        (* the rest of the world: executor, wakers, calls in progress *)

Definition is_call (o : op) : bool :=
  match o with Poll _ | Cancel | Complete | Free => true | _ => false end.

Fixpoint remove_h (h : cbid) (l : list cbid) : option (list cbid) :=
  match l with
  | [] => None
  | x :: l' => if Nat.eqb x h then Some l' else match remove_h h l' with Some l'' => Some (x :: l'') | None => None end
  end.

Fixpoint lookup (h : cbid) (l : list (cbid * code)) : option code :=
  match l with
  | [] => None
  | (x, c) :: l' => if Nat.eqb x h then Some c else lookup h l'
  end.

Definition is_complete (a : act) : bool := match a with AComplete => true | _ => false end.

(** Async.py l.40-43, Async.kt l.10-14, Swift's [uniffiFutureContinuationCallback]. *)
Definition callback (h : cbid) (c : code) (s : fst) : fst :=
  match remove_h h (conts s) with
  | Some l => mkf (rust s) (pc s) l (queue s ++ [(h, c)]) (got s) (nexth s) (flog s)
  | None => mkf (rust s) (pc s) (conts s) (queue s) (got s) (nexth s) (FBadHandle h :: flog s)
  end.

(** An FFI call of the loop. *)
Definition ffi (s : fst) (o : op) (k : st -> fst) : fst :=
  match step (rust s) o with
  | Some r => k r
  | None => mkf (rust s) (pc s) (conts s) (queue s) (got s) (nexth s) (FUseAfterFree :: flog s)
  end.

Definition fstep (s : fst) (o : fop) : option fst :=
  match o with
  | Task =>
      match pc s with
      | TLoop =>
          let h := nexth s in
          Some (ffi s (Poll h) (fun r => mkf r (TAwait h) (h :: conts s) (queue s) (got s) (S h) (FPoll h :: flog s)))
      | TAwait h =>
          match lookup h (got s) with
          | None => None
          | Some CReady => Some (mkf (rust s) TReady (conts s) (queue s) (got s) (nexth s) (FResume h CReady :: flog s))
          | Some CWake => Some (mkf (rust s) TLoop (conts s) (queue s) (got s) (nexth s) (FResume h CWake :: flog s))
          end
      | TReady => Some (ffi s Complete (fun r => mkf r TCompleting (conts s) (queue s) (got s) (nexth s) (FComplete :: flog s)))
      | TCompleting =>
          if existsb is_complete (acts (rust s)) then None
          else Some (mkf (rust s) TFree (conts s) (queue s) (got s) (nexth s) (flog s))
      | TFree => Some (ffi s Free (fun r => mkf r TEnd (conts s) (queue s) (got s) (nexth s) (FFree :: flog s)))
      | TEnd => None
      end
  | CancelTask =>
      match pc s with
      | TAwait _ => Some (mkf (rust s) TFree (conts s) (queue s) (got s) (nexth s) (FCancelled :: flog s))
      | _ => None
      end
  | Raise =>
      match pc s with
      | TLoop => Some (mkf (rust s) TFree (conts s) (queue s) (got s) (nexth s) (FRaised :: flog s))
      | _ => None
      end
  | Deliver i =>
      match nth_error (queue s) i with
      | None => None
      | Some x => Some (mkf (rust s) (pc s) (conts s) (remove_nth i (queue s)) (x :: got s) (nexth s) (flog s))
      end
  | Rust o =>
      if is_call o then None
      else
        match step (rust s) o with
        | None => None
        | Some r =>
            let s' := mkf r (pc s) (conts s) (queue s) (got s) (nexth s) (flog s) in
            match o with
            | Go i _ =>
                match nth_error (acts (rust s)) i with
                | Some (AInvoke h c _) => Some (callback h c s')
                | _ => Some s'
                end
            | _ => Some s'
            end
        end
  end.

Fixpoint frun (s : fst) (os : list fop) : option fst :=
  match os with
  | [] => Some s
  | o :: os' => match fstep s o with Some s' => frun s' os' | None => None end
  end.
