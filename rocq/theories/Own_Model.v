(** Who owns what while a call is on its way: the buffers that are allocated for the arguments, results
    and errors of a call, the references to objects that are put in them or passed beside them, and
    the references that asynchronous calls need.  Calls from Python, Kotlin, Swift and Ruby to Rust,
    calls from Rust to callbacks in these languages, and both again as asynchronous calls.

    A value is reduced to what matters here: whether it crosses directly (as a number or a handle) or
    packed in a buffer, which objects it holds, and where its conversion fails. *)
From Verif Require Import Base.

Inductive lang := Python | Kotlin | Swift | Ruby.

(** A part of a value, in the order of the buffer.
    [Unwritable]: the sender fails when it gets there: a string with a lone surrogate (Python
    str.encode, Kotlin StringHelper.kt l.25-31, Ruby String#encode), a Kotlin object without a handle
    (ObjectTemplate.kt l.217-220), the code of a custom type, a length that does not fit.
    [Unreadable]: it is written, and the receiver refuses it: the code of a custom type, a time out of
    range, bytes left over at the end.
    (A value of the wrong type is refused before anything is lowered: by the check_lower calls of
    CallableBody.py l.8, by macros.rb l.147-160 setup_args, or by the compiler.) *)
Inductive part := Plain | Object | Unwritable | Unreadable.
Inductive value := Direct (p : part) | Packed (ps : list part).

(** * What is alive *)

(** What a buffer holds.  A handle written in it is the number of the reference. *)
Inductive slot := SData | SRef (r : nat) | SBad.
(** A reference to an object (a strong reference to an [Arc], or an entry of a foreign handle map), or
    an allocated buffer. *)
Inductive cell := CRef | CBuf (ss : list slot).
(** All that was made to be passed across and that nobody has taken or released yet.  A reference that
    was lifted belongs to the object that the receiver got, which releases it when it goes away. *)
Record heap := Heap { next : nat; live : list (nat * cell) }.

(** [Throw]: an exception, a Swift error, a Rust panic or [Err].  [Trap]: the process ends.  [Bad]:
    something is released or used that is not alive: a double free or a use after free. *)
Inductive out (A : Type) := Val (a : A) | Throw | Trap | Bad.
Arguments Val {A}. Arguments Throw {A}. Arguments Trap {A}. Arguments Bad {A}.

Definition M (A : Type) := heap -> out A * heap.
Definition ret {A} (a : A) : M A := fun h => (Val a, h).
Definition raise {A} (o : out A) : M A := fun h => (o, h).
Definition bind {A B} (m : M A) (k : A -> M B) : M B := fun h =>
  match m h with
  | (Val a, h') => k a h'
  | (Throw, h') => (Throw, h')
  | (Trap, h') => (Trap, h')
  | (Bad, h') => (Bad, h')
  end.
(** try … catch *)
Definition catch {A} (m : M A) (k : M A) : M A := fun h =>
  match m h with (Throw, h') => k h' | r => r end.
(** The outcome of a try block as a value. *)
Definition attempt {A} (m : M A) : M (option A) := fun h =>
  match m h with
  | (Val a, h') => (Val (Some a), h')
  | (Throw, h') => (Val None, h')
  | (Trap, h') => (Trap, h')
  | (Bad, h') => (Bad, h')
  end.
Notation "'do' x <- m ; k" := (bind m (fun x => k)) (at level 200, x name, m at level 100, k at level 200).
Notation "'run' m ; k" := (bind m (fun _ => k)) (at level 200, m at level 100, k at level 200).

Definition new (c : cell) : M nat := fun h => (Val (next h), Heap (S (next h)) ((next h, c) :: live h)).
Fixpoint lookup (i : nat) (l : list (nat * cell)) : option cell :=
  match l with
  | [] => None
  | (j, c) :: l' => if Nat.eqb i j then Some c else lookup i l'
  end.
Fixpoint remove (i : nat) (l : list (nat * cell)) : list (nat * cell) :=
  match l with
  | [] => []
  | (j, c) :: l' => if Nat.eqb i j then l' else (j, c) :: remove i l'
  end.
Definition look (i : nat) : M cell := fun h =>
  match lookup i (live h) with Some c => (Val c, h) | None => (Bad, h) end.
(** Release it, or hand it over to whoever owns it from now on. *)
Definition take (i : nat) : M cell := fun h =>
  match lookup i (live h) with
  | Some c => (Val c, Heap (next h) (remove i (live h)))
  | None => (Bad, h)
  end.
(** Write to a buffer that is alive. *)
Definition fill (i : nat) (ss : list slot) : M unit := fun h =>
  match lookup i (live h) with
  | Some (CBuf _) => (Val tt, Heap (next h) ((i, CBuf ss) :: remove i (live h)))
  | _ => (Bad, h)
  end.
Definition take_ref (i : nat) : M unit :=
  do c <- take i; match c with CRef => ret tt | CBuf _ => raise Bad end.
Definition take_buf (i : nat) : M (list slot) :=
  do c <- take i; match c with CBuf ss => ret ss | CRef => raise Bad end.
Definition look_buf (i : nat) : M (list slot) :=
  do c <- look i; match c with CBuf ss => ret ss | CRef => raise Bad end.

(** * Converting *)

(** An argument or result as it crosses: a number (which the receiver may refuse), a handle or a
    buffer. *)
Inductive ffi := Word (fine : bool) | Handle (r : nat) | Buffer (b : nat).

(** Write the parts in order; a handle is cloned, or entered into a handle map, when the writer gets
    there.  The [write] methods of the converters, e.g. InterfaceTemplate.py l.114 and l.163,
    ObjectTemplate.kt l.279 and l.327, ObjectTemplate.swift l.109 and l.161, RustBufferBuilder.rb;
    for Rust [Lower::write] of [Arc<T>], which is [Arc::into_raw].  [fails]: what a failure is. *)
Fixpoint write_parts (fails : out (list slot)) (ps : list part) : M (list slot) :=
  match ps with
  | [] => ret []
  | Plain :: ps' => do ss <- write_parts fails ps'; ret (SData :: ss)
  | Object :: ps' => do r <- new CRef; do ss <- write_parts fails ps'; ret (SRef r :: ss)
  | Unreadable :: ps' => do ss <- write_parts fails ps'; ret (SBad :: ss)
  | Unwritable :: _ => raise fails
  end.

(** Read the parts in order; a handle that is read belongs to the object made for it. *)
Fixpoint read_slots (ss : list slot) : M unit :=
  match ss with
  | [] => ret tt
  | SData :: ss' => read_slots ss'
  | SRef r :: ss' => run take_ref r; read_slots ss'
  | SBad :: _ => raise Throw
  end.

(** Allocate, write, and free the buffer if writing fails.  Python: RustBufferTemplate.py l.33-45
    alloc_with_builder.  Kotlin: FfiConverterTemplate.kt l.38-51.  Ruby: RustBufferTemplate.rb l.41-50.
    (Growing a buffer gives back the same buffer or one in its place, see C13.) *)
Definition pack_allocated (ps : list part) : M nat :=
  do b <- new (CBuf []);
  do ss <- catch (write_parts Throw ps) (run take_buf b; raise Throw);
  run fill b ss; ret b.
(** Write to memory of one's own and copy it to a new buffer.  Swift: RustBufferTemplate.swift
    l.264-268; Rust: uniffi_core/src/ffi_converter_traits.rs l.264-268. *)
Definition pack_copied (fails : out (list slot)) (ps : list part) : M nat :=
  do ss <- write_parts fails ps; new (CBuf ss).

Definition lower_with (fails : forall A, out A) (pack : list part -> M nat) (v : value) : M ffi :=
  match v with
  | Direct Plain => ret (Word true)
  | Direct Unreadable => ret (Word false)
  | Direct Object => do r <- new CRef; ret (Handle r)
  | Direct Unwritable => raise (fails _)
  | Packed ps => do b <- pack ps; ret (Buffer b)
  end.
Definition throws (A : Type) : out A := Throw.
Definition traps (A : Type) : out A := Trap.
(** Swift's [lower] functions cannot throw: what goes wrong in them ends the process. *)
Definition pack (L : lang) : list part -> M nat :=
  match L with
  | Swift => pack_copied Trap
  | Python | Kotlin | Ruby => pack_allocated
  end.
Definition lower (L : lang) : value -> M ffi :=
  match L with
  | Swift => lower_with traps (pack L)
  | Python | Kotlin | Ruby => lower_with throws (pack L)
  end.
Definition rust_lower : value -> M ffi := lower_with throws (pack_copied Throw).

(** The arguments from left to right: CallableBody.py l.11-23, macros.kt l.114-118, macros.swift,
    macros.rb l.60-66; uniffi_macros/src/export/callback_interface.rs l.235-250. *)
Fixpoint lower_all (low : value -> M ffi) (vs : list value) : M (list ffi) :=
  match vs with
  | [] => ret []
  | v :: vs' => do f <- low v; do fs <- lower_all low vs'; ret (f :: fs)
  end.

(** Lift from a buffer.  Python: RustBufferTemplate.py l.48-61 consume_with_stream; Kotlin:
    FfiConverterTemplate.kt l.57-68; Ruby: RustBufferTemplate.rb l.54-62: free it in any case.
    Swift: RustBufferTemplate.swift l.251-259: free it after it was read. *)
Definition unpack (L : lang) (b : nat) : M unit :=
  do ss <- look_buf b;
  run (match L with
       | Swift => read_slots ss
       | Python | Kotlin | Ruby => catch (read_slots ss) (run take_buf b; raise Throw)
       end);
  run take_buf b; ret tt.
(** uniffi_core/src/ffi_converter_traits.rs l.231-240: the buffer becomes a [Vec], which is dropped
    whatever happens. *)
Definition rust_unpack (b : nat) : M unit := do ss <- take_buf b; read_slots ss.

Definition lift_with (unpack : nat -> M unit) (f : ffi) : M unit :=
  match f with
  | Word fine => if fine then ret tt else raise Throw
  | Handle r => take_ref r
  | Buffer b => unpack b
  end.
Fixpoint lift_all (li : ffi -> M unit) (fs : list ffi) : M unit :=
  match fs with
  | [] => ret tt
  | f :: fs' => run li f; lift_all li fs'
  end.
Definition lift (L : lang) : ffi -> M unit := lift_with (unpack L).
Definition rust_lift : ffi -> M unit := lift_with rust_unpack.

(** * Calls to Rust *)

(** What a Rust function does; the parts of the error that it returns; [said]: the panic has a
    message that can be lowered and is not empty. *)
Inductive result := Returns (v : value) | Fails (e : list part) | Panics (said : bool).
(** The [RustCallStatus] and the returned value. *)
Inductive status := Success (f : ffi) | Error (b : option nat) | Unexpected (b : option nat).
(** The error type of the function; an error that is an object crosses in a buffer too. *)
Inductive declared := NoError | EnumError | ObjectError.

Definition message : M status := do b <- new (CBuf [SData]); ret (Unexpected (Some b)).

(** uniffi_macros/src/export/scaffolding.rs l.257-284 with rust_call,
    uniffi_core/src/ffi/rustcalls.rs l.195-248.  The arguments are lifted from left to right and what
    was lifted is dropped if one fails (fnsig.rs l.203-223 lift_closure).  [failed]: the parts of the declared
    error, when the failure to lift can be turned into it (ffi_converter_impls.rs
    handle_failed_lift). *)
Definition respond (body : result) : M status :=
  match body with
  | Returns v => catch (do f <- rust_lower v; ret (Success f)) message
  | Fails e => catch (do b <- pack_copied Throw e; ret (Error (Some b))) message
  | Panics true => message
  | Panics false => ret (Unexpected None)
  end.
Definition refuse (failed : option (list part)) : M status :=
  match failed with
  | Some e => respond (Fails e)
  | None => message
  end.
Definition scaffold (failed : option (list part)) (body : result) (fs : list ffi) : M status :=
  do lifted <- attempt (lift_all rust_lift fs);
  match lifted with
  | Some _ => respond body
  | None => refuse failed
  end.

(** Look at the status, lift the error or the result.  Helpers.py l.51-71 and InterfaceTemplate.py
    l.68-81; Helpers.kt l.53-90 and the error handlers of ErrorTemplate.kt and of ObjectTemplate.kt
    l.240-249; Helpers.swift l.66-110 and ObjectTemplate.swift l.197-201; ErrorTemplate.rb l.83-145.
    Kotlin and Swift read an error that is an object from the buffer, and do not free it. *)
Definition lift_error (L : lang) (decl : declared) (b : nat) : M unit :=
  match decl, L with
  | NoError, _ => run take_buf b; raise Throw
  | EnumError, _ | ObjectError, (Python | Ruby) => unpack L b
  | ObjectError, (Kotlin | Swift) => do ss <- look_buf b; read_slots ss
  end.
Definition finish (L : lang) (decl : declared) (st : status) : M unit :=
  match st with
  | Success f => lift L f
  | Error (Some b) => run lift_error L decl b; raise Throw
  | Unexpected (Some b) => run take_buf b; raise Throw
  | Error None | Unexpected None => raise Throw
  end.

(** A call of a function, a constructor or, when the first argument is the object, a method: its
    handle is cloned before the other arguments are lowered (CallableBody.py l.15, ObjectTemplate.kt
    l.191, macros.swift, ObjectTemplate.rb). *)
Definition call (L : lang) (decl : declared) (failed : option (list part)) (args : list value)
    (body : result) : M unit :=
  do fs <- lower_all (lower L) args;
  do st <- scaffold failed body fs;
  finish L decl st.

(** ** Asynchronous ones *)

(** The foreign task may be interrupted while it waits: before the Rust future is ready, or after the
    future is ready and before the task goes on. *)
Inductive interrupt := Never | WhilePending | WhenReady.
(** In Python a cancelled task gets a CancelledError, in Kotlin a CancellationException, in Ruby an
    exception that another thread raises; all at the point where they wait.  Swift's
    [withUnsafeContinuation] is not interrupted. *)
Definition interrupted (L : lang) (i : interrupt) : interrupt :=
  match L with Swift => Never | Python | Kotlin | Ruby => i end.

(** scaffolding.rs l.294-315: the arguments are lifted at once, then the future is made; its handle is
    a reference.  Async.py l.48-71, Async.kt l.15-38, Async.swift l.6-38, Async.rb l.40-94: poll, complete, lift,
    and free the future in any case.  Freeing a future drops a result that was not fetched
    (rustfuture/future.rs l.176-179): neither a [RustBuffer] nor a lowered handle has a destructor. *)
Definition call_async (L : lang) (decl : declared) (failed : option (list part)) (i : interrupt)
    (args : list value) (body : result) : M unit :=
  do fs <- lower_all (lower L) args;
  do lifted <- attempt (lift_all rust_lift fs);
  do future <- new CRef;
  let answer := match lifted with Some _ => respond body | None => refuse failed end in
  match interrupted L i with
  | WhilePending => run take_ref future; raise Throw
  | WhenReady => run answer; run take_ref future; raise Throw
  | Never =>
    do st <- answer;
    do r <- attempt (finish L decl st);
    run take_ref future;
    match r with Some _ => ret tt | None => raise Throw end
  end.

(** * Calls from Rust to callbacks *)

(** What the foreign method does: return, raise the declared error, raise something else. *)
Inductive deed := Answers (v : value) | Raises (e : list part) | Breaks.

(** The declared error is lowered in the handler.  If that fails: Python has a second handler around
    it; in Kotlin and Ruby the exception leaves the callback, with the code of an error set and an
    empty buffer. *)
Definition report_error (L : lang) (e : list part) : M status :=
  match L with
  | Python => catch (do b <- pack L e; ret (Error (Some b))) message
  | Kotlin | Ruby => catch (do b <- pack L e; ret (Error (Some b))) (ret (Error None))
  | Swift => do b <- pack L e; ret (Error (Some b))
  end.
(** CallbackInterfaceImpl.{py l.22-52, kt l.18-46, swift l.43-77, rb l.31-37} with Helpers.py l.73-91,
    Helpers.kt l.97-129, Helpers.swift l.112-140, Helpers.rb l.29-50.  The arguments are lifted from left
    to right inside the try block. *)
Definition respond_foreign (L : lang) (decl : bool) (fs : list ffi) (d : deed) : M status :=
  do lifted <- attempt (lift_all (lift L) fs);
  match lifted with
  | None => message
  | Some _ =>
    match d with
    | Answers v => catch (do f <- lower L v; ret (Success f)) message
    | Raises e => if decl then report_error L e else message
    | Breaks => message
    end
  end.
(** [LiftReturn::lift_foreign_return], ffi_converter_traits.rs l.357-374.  An error that was not
    declared is not freed; the foreign code does not report one. *)
Definition rust_finish (decl : bool) (st : status) : M unit :=
  match st with
  | Success f => rust_lift f
  | Error (Some b) => if decl then run rust_unpack b; raise Throw else raise Throw
  | Unexpected (Some b) => run take_buf b; raise Throw
  | Error None | Unexpected None => raise Throw
  end.
(** callback_interface.rs l.245-252. *)
Definition callback (L : lang) (decl : bool) (args : list value) (d : deed) : M unit :=
  do fs <- lower_all rust_lower args;
  do st <- respond_foreign L decl fs d;
  rust_finish decl st.

(** ** Asynchronous ones *)

(** The Rust future of the call may be dropped before the foreign task runs, while the foreign method
    runs, or when the task has sent its answer and the future was not polled again. *)
Inductive dropped := Kept | BeforeStart | WhileRunning | Answered.

(** What a cancelled task still does.  Before it starts: a Python task and a Kotlin coroutine are not
    started at all, a Ruby thread may be ended before it begins; a Swift task runs as if nothing happened.
    While the method runs: Python raises a CancelledError, which is not an [Exception] (Async.py l.83,
    l.111), and Ruby a UniffiInternalCancelled, which ends the thread in silence (Async.rb
    l.147-148, l.162); Kotlin a CancellationException, which is reported like any exception (Async.kt
    l.66-73); Swift sets a flag. *)
Inductive reaction := Silent | Reports | GoesOn.
Definition reacts (L : lang) : reaction :=
  match L with Python | Ruby => Silent | Kotlin => Reports | Swift => GoesOn end.

(** The answer of the foreign task, from the lifted arguments.  A failure to lower the result: in Python
    with a declared error it is reported (Async.py l.99-117), otherwise nothing is sent (Async.py
    l.90-91, Async.kt l.75); Ruby reports it (Async.rb l.165-173).  A failure to lower the error:
    Python and Ruby report it, Kotlin sends nothing. *)
Definition async_answer (L : lang) (decl : bool) (d : deed) : M (option status) :=
  let sent (m : M status) : M (option status) := do st <- m; ret (Some st) in
  let or_message (m : M status) := sent (catch m message) in
  let or_nothing (m : M status) := attempt m in
  match d with
  | Answers v =>
    let m := do f <- lower L v; ret (Success f) in
    match L with
    | Python => if decl then or_message m else or_nothing m
    | Kotlin => or_nothing m
    | Ruby => or_message m
    | Swift => sent m
    end
  | Raises e =>
    if decl then
      let m := do b <- pack L e; ret (Error (Some b)) in
      match L with
      | Python | Ruby => or_message m
      | Kotlin => or_nothing m
      | Swift => sent m
      end
    else sent message
  | Breaks => sent message
  end.

(** The whole task: lift, call, answer.  [Some st]: what is sent. *)
Definition task (L : lang) (decl : bool) (fs : list ffi) (d : deed) : M (option status) :=
  do lifted <- attempt (lift_all (lift L) fs);
  match lifted with
  | None => do st <- message; ret (Some st)
  | Some _ => async_answer L decl d
  end.
(** foreignfuture.rs l.93-99: sending uses up the sender.  A future whose answer never comes is not
    finished: [Throw] stands for waiting for ever. *)
Definition send (sender : nat) (st : option status) : M (option status) :=
  match st with
  | Some s => run take_ref sender; ret (Some s)
  | None => ret None
  end.

(** foreignfuture.rs l.67-91 with CallbackInterfaceImpl and Async of each language.  [sender] is the
    raw pointer to the channel; [entry] is the entry for the task in the foreign handle map, which the
    foreign callback removes when the Rust future is dropped: always, and once.  Dropping the future or
    the channel drops the answer in it, which has no destructor. *)
Definition callback_async (L : lang) (decl : bool) (w : dropped) (args : list value) (d : deed) : M unit :=
  do sender <- new CRef;
  do fs <- lower_all rust_lower args;
  do entry <- new CRef;
  match w with
  | Kept =>
    do st <- task L decl fs d;
    do got <- send sender st;
    match got with
    | Some s =>
      do r <- attempt (rust_finish decl s);
      run take_ref entry;
      match r with Some _ => ret tt | None => raise Throw end
    | None => raise Throw
    end
  | BeforeStart =>
    run take_ref entry;
    match L with
    | Swift => do st <- task L decl fs d; run send sender st; ret tt
    | Python | Kotlin | Ruby => ret tt
    end
  | WhileRunning =>
    do lifted <- attempt (lift_all (lift L) fs);
    match lifted with
    | None => do st <- message; run send sender (Some st); run take_ref entry; ret tt
    | Some _ =>
      run take_ref entry;
      match reacts L with
      | Silent => ret tt
      | Reports => do st <- message; run send sender (Some st); ret tt
      | GoesOn => do st <- async_answer L decl d; run send sender st; ret tt
      end
    end
  | Answered =>
    do st <- task L decl fs d;
    run send sender st;
    run take_ref entry; ret tt
  end.

(** * Histories *)

(** A call in one of the four ways. *)
Inductive crossing :=
| ToRust (L : lang) (decl : declared) (failed : option (list part)) (args : list value) (body : result)
| ToRustAsync (L : lang) (decl : declared) (failed : option (list part)) (i : interrupt)
    (args : list value) (body : result)
| ToForeign (L : lang) (decl : bool) (args : list value) (d : deed)
| ToForeignAsync (L : lang) (decl : bool) (w : dropped) (args : list value) (d : deed).
Definition cross (c : crossing) : M unit :=
  match c with
  | ToRust L decl failed args body => call L decl failed args body
  | ToRustAsync L decl failed i args body => call_async L decl failed i args body
  | ToForeign L decl args d => callback L decl args d
  | ToForeignAsync L decl w args d => callback_async L decl w args d
  end.
(** One call after the other, whether they fail or not, unless the process ends. *)
Fixpoint history (cs : list crossing) : M unit :=
  match cs with
  | [] => ret tt
  | c :: cs' => run attempt (cross c); history cs'
  end.
