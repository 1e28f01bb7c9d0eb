(** * Scaffolding functions

    Models the function that the macros generate for every exported function
    (uniffi_macros/src/export/scaffolding.rs l.214-321, uniffi_macros/src/fnsig.rs l.203-245):
    lift the arguments one after the other, call the user's function, lower what it
    returns, all inside [rust_call].  The user's function, the lifts and the lowerings
    are arbitrary. *)

From Verif Require Import Base Buf_Model.

Section Types.
Context {V E R : Type}.   (* Rust values, the declared error type, the FFI return type *)

(** An [anyhow::Error]: it can be downcast to the declared error type, or not. *)
Inductive anyhow := User (e : E) | Other (dbg : bytes).

Inductive lres := LOk (v : V) | LErr (e : anyhow) | LPanic (p : payload).

(** One argument: its name and the lift of the value passed for it.  A method's
    receiver is the first argument and is called "self": scaffolding.rs l.145-152. *)
Record arg := Arg { aname : bytes; alift : heap -> heap * lres }.

Inductive fres := FRet (v : V) | FErr (e : E) | FPanics (p : payload).

(** [fallible]: the function returns a [Result]; otherwise its body never yields [FErr]. *)
Record fn := Fn {
  fallible : bool;
  body : list V -> fres;
  lower_ok : V -> heap -> heap * out R;
  lower_error : E -> heap -> heap * out rbuf;
  dflt : R }.

Inductive lifted := AllLifted (vs : list V) | FailedLift (name : bytes) (e : anyhow) | LiftPanics (p : payload).

(** fnsig.rs l.203-223: the lift closure.  [?] leaves at the first failure; the
    remaining arguments are not touched. *)
Fixpoint lift_args (args : list arg) (h : heap) : heap * lifted :=
  match args with
  | [] => (h, AllLifted [])
  | a :: rest =>
      match alift a h with
      | (h1, LOk v) =>
          match lift_args rest h1 with
          | (h2, AllLifted vs) => (h2, AllLifted (v :: vs))
          | other => other
          end
      | (h1, LErr e) => (h1, FailedLift (aname a) e)
      | (h1, LPanic p) => (h1, LiftPanics p)
      end
  end.

(** rustcalls.rs l.137-142: [LiftArgsError::to_internal_error]. *)
Definition failed_message (name dbg : bytes) : bytes :=
  lit "Failed to convert arg '" ++ name ++ lit "':" ++ [x0a] ++ dbg.

(** [{error:?}] for an error of the declared type, which a plain function cannot name. *)
Variable debug : E -> bytes.

Definition internal (name : bytes) (e : anyhow) : bytes :=
  failed_message name (match e with User u => debug u | Other d => d end).

Definition lower_err (f : fn) (e : E) (h : heap) : heap * cres R :=
  match lower_error f e h with
  | (h', Done b) => (h', CErr b)
  | (h', Panics p) => (h', CPanic p)
  end.

(** ffi_converter_traits.rs l.308-310 for plain functions;
    ffi_converter_impls.rs l.581-590 for functions returning a [Result]. *)
Definition handle_failed_lift (f : fn) (name : bytes) (e : anyhow) (h : heap) : heap * cres R :=
  if fallible f then
    match e with
    | User u => lower_err f u h
    | Other d => (h, CInternal (internal name e))
    end
  else (h, CInternal (internal name e)).

(** [lower_return]: ffi_converter_impls.rs l.574-579, ffi_converter_traits.rs l.571-573. *)
Definition call_body (f : fn) (vs : list V) (h : heap) : heap * cres R :=
  match body f vs with
  | FPanics p => (h, CPanic p)
  | FErr e => lower_err f e h
  | FRet v => to_cres (lower_ok f v h)
  end.

(** The closure given to [rust_call], scaffolding.rs l.266-283, and the calls of the
    user's function it makes. *)
Definition attempt (f : fn) (args : list arg) (h : heap) : heap * cres R :=
  match lift_args args h with
  | (h1, AllLifted vs) => call_body f vs h1
  | (h1, FailedLift name e) => handle_failed_lift f name e h1
  | (h1, LiftPanics p) => (h1, CPanic p)
  end.
Definition calls (args : list arg) (h : heap) : list (list V) :=
  match lift_args args h with
  | (_, AllLifted vs) => [vs]
  | _ => []
  end.

Definition scaffold (f : fn) (args : list arg) (st : status) (h : heap) : heap * ret R :=
  rust_call (dflt f) st (attempt f args) h.

(** ** Asynchronous functions

    scaffolding.rs l.298-316: the arguments are lifted by the [extern "C"] function
    itself, outside any [catch_unwind]; a failure to lift is kept for the first poll.
    uniffi_core/src/ffi/rustfuture/future.rs l.109-141: the poll that finishes lowers
    the result inside [try_rust_call] (rustcalls.rs l.183-192); l.162-175: [complete]
    hands it over.  Polls that return Pending are left out: they change nothing here. *)

Inductive started := Future (h : heap) (l : lifted) | Aborted.

Definition start (args : list arg) (h : heap) : started :=
  match lift_args args h with
  | (h1, LiftPanics _) => Aborted
  | (h1, l) => Future h1 l
  end.

Definition finish_poll (f : fn) (l : lifted) (h : heap) : heap * cres R :=
  match l with
  | AllLifted vs => call_body f vs h
  | FailedLift name e => handle_failed_lift f name e h
  | LiftPanics p => (h, CPanic p)
  end.

Definition complete (f : fn) (l : lifted) (st : status) (h : heap) : heap * ret R :=
  match rust_call_with_out_status fresh (finish_poll f l) h with
  | (h', Returned _ (Some r)) => (h', Returned st r)
  | (h', Returned s None) => (h', Returned s (dflt f))
  | (h', Unwound) => (h', Unwound)
  end.

Definition scaffold_async (f : fn) (args : list arg) (st : status) (h : heap) : heap * ret R :=
  match start args h with
  | Aborted => (h, Unwound)
  | Future h1 l => complete f l st h1
  end.

(** ** Arguments passed in buffers *)

(** ffi_converter_traits.rs l.231-239 *)
Definition buf_arg (w : width) (name : bytes) (reader : bytes -> lres) (b : rbuf) : arg :=
  Arg name (fun h =>
    match lift_with w (fun bs => Done (reader bs)) b h with
    | (h', Panics p) => (h', LPanic p)
    | (h', Done r) => (h', r)
    end).

End Types.

Arguments anyhow : clear implicits.
Arguments lres : clear implicits.
Arguments arg : clear implicits.
Arguments fres : clear implicits.
Arguments fn : clear implicits.
Arguments lifted : clear implicits.

(** ** Borrowed byte slices

    foreignbytes.rs l.79-95, l.182-204: the lift of a borrowed slice only keeps the
    descriptor; the bytes are borrowed when the arguments are handed to the function
    (fnsig.rs l.229-245), which is where a malformed descriptor panics. *)
Definition slice_arg {E} (name : bytes) (d : fbytes) : arg fbytes E := Arg name (fun h => (h, LOk d)).
Definition slice_body {E} (m : mem) (g : bytes -> fres fbytes E) (vs : list fbytes) : fres fbytes E :=
  match vs with
  | [d] => match as_slice "ForeignBytes" m d with Panics p => FPanics p | Done bs => g bs end
  | _ => FPanics (Plain KOther)
  end.

(** ** What the foreign code makes of the status

    Python Helpers.py l.51-72 [_uniffi_check_call_status], Kotlin Helpers.kt and Swift's
    [uniffiCheckCallStatus] alike. *)
Inductive outcome (R : Type) :=
| Value (r : R)
| DeclaredError (bs : bytes)      (* the serialized error *)
| Unexpected (msg : bytes)
| InvalidCode.
Arguments Value {R}. Arguments DeclaredError {R}. Arguments Unexpected {R}. Arguments InvalidCode {R}.

Definition contents (h : heap) (b : rbuf) : bytes :=
  match block (data b) (blocks h) with
  | Some bs => firstn (Z.to_nat (len b)) bs
  | None => []
  end.

Definition check_status {R} (h : heap) (st : status) (r : R) : outcome R :=
  if Z.eqb (code st) Success then Value r
  else if Z.eqb (code st) Error then DeclaredError (contents h (error_buf st))
  else if Z.eqb (code st) UnexpectedError then
    Unexpected (if Z.ltb 0 (len (error_buf st)) then contents h (error_buf st) else lit "Unknown rust panic")
  else InvalidCode.
