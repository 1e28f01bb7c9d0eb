(** Model of the calls between Kotlin and Rust in the JNI bindings: the native method that is generated for a
    Rust function (uniffi-bindgen-kotlin-jni/src/scaffolding/templates/jni_method.rs), the Rust struct that is
    generated for a trait implemented in Kotlin (templates/callback_interface.rs,
    templates/callback_interface_shared.rs), the Kotlin function it calls
    (src/bindings/templates/shared/CallbackInterfaceFfi.kt) and the runtime below them
    (uniffi-bindgen-kotlin-jni/runtime/src: attach.rs, caching.rs, calls.rs, errors.rs, strings.rs).
    Values are numbers: how they are converted is the subject of Jni_Model.v; here only the JNI functions
    that a conversion calls and its outcome matter. *)
From Coq Require Import List ZArith String Bool.
Import ListNotations.
Open Scope string_scope.
Open Scope list_scope.
Open Scope Z_scope.

(** ** The Java VM *)

(** Java exceptions: an instance of the exception class of an error of the interface, an InternalException
    (shared/Package.kt:9), or any other [Throwable]. *)
Inductive exc :=
| Declared (e : Z)
| Internal (message : string)
| Other (n : Z).

(** Classes and methods that Rust looks up: uniffi/InternalException (errors.rs:8), Throwable.getMessage
    (errors.rs:29-33), the function that lifts a type (templates/lift_lower.rs:1-7), the function that
    dispatches to a callback method (callback_interface.rs:63-67) and the one that frees (l.180-184). *)
Inductive key :=
| KInternal
| KMessage
| KLift (name : string)
| KDispatch (name : string)
| KFree.

Definition key_eqb (a b : key) : bool :=
  match a, b with
  | KInternal, KInternal | KMessage, KMessage | KFree, KFree => true
  | KLift a, KLift b | KDispatch a, KDispatch b => String.eqb a b
  | _, _ => false
  end.

(** The JNI functions that the code calls. *)
Inductive jni_fn :=
| AttachCurrentThread | PushLocalFrame | PopLocalFrame
| FindClass (k : key) | GetMethodID (k : key) | NewGlobalRef (k : key)
| CallMethodA (k : key)
| ExceptionOccurred | ExceptionClear | Throw | ThrowNew
| NewStringUTF | GetStringUTFLength | GetStringUTFChars | ReleaseStringUTFChars
| NewDirectByteBuffer | GetDirectBufferAddress | GetDirectBufferCapacity
| NewArray | SetArrayRegion | GetArrayLength | GetPrimitiveArrayCritical | ReleasePrimitiveArrayCritical.

(** The functions that may be called while a Java exception is pending (JNI specification, chapter 2, "Java
    Exceptions"); AttachCurrentThread does not belong to the environment of the thread. *)
Definition while_pending (f : jni_fn) : bool :=
  match f with
  | AttachCurrentThread | PushLocalFrame | PopLocalFrame | ExceptionOccurred | ExceptionClear
  | ReleaseStringUTFChars | ReleasePrimitiveArrayCritical => true
  | _ => false
  end.

(** What is known of a thread and of the library: the pending exception, the number of local frames, whether
    the thread is attached to the VM, the lookups that are cached, whether the cached InternalException class
    is null, the objects in the handle maps of the Kotlin code, and how many JNI functions have been called. *)
Record st := ST {
  pend : option exc;
  frames : nat;
  attached : bool;
  cache : list key;
  null_class : bool;
  objs : list Z;
  clock : nat }.

(** How the program ends other than by a panic that is caught. *)
Inductive crash :=
| Misuse (f : jni_fn)       (* a JNI function is called while an exception is pending *)
| UnwindsOut                (* a panic leaves a function that Kotlin called *)
| PanicInDrop               (* a panic while unwinding *)
| NullClass.                (* ThrowNew without a class *)

Inductive out (A : Type) :=
| Done (a : A)
| Unwinds (message : string)
| Crashed (c : crash).
Arguments Done {A}. Arguments Unwinds {A}. Arguments Crashed {A}.

Definition M (A : Type) := st -> out A * st.

Definition ret {A} (a : A) : M A := fun s => (Done a, s).
Definition panic {A} (m : string) : M A := fun s => (Unwinds m, s).
Definition crashes {A} (c : crash) : M A := fun s => (Crashed c, s).
Definition bind {A B} (m : M A) (k : A -> M B) : M B := fun s =>
  match m s with
  | (Done a, s1) => k a s1
  | (Unwinds w, s1) => (Unwinds w, s1)
  | (Crashed c, s1) => (Crashed c, s1)
  end.
Notation "x <- m ;; k" := (bind m (fun x => k)) (at level 60, m at level 55, right associativity).
Notation "m ;;; k" := (bind m (fun _ => k)) (at level 60, right associativity).

Definition set_pend (x : option exc) : M unit := fun s =>
  (Done tt, ST x (frames s) (attached s) (cache s) (null_class s) (objs s) (clock s)).
Definition set_frames (n : nat) : M unit := fun s =>
  (Done tt, ST (pend s) n (attached s) (cache s) (null_class s) (objs s) (clock s)).
Definition set_attached (b : bool) : M unit := fun s =>
  (Done tt, ST (pend s) (frames s) b (cache s) (null_class s) (objs s) (clock s)).
Definition add_cache (k : key) : M unit := fun s =>
  (Done tt, ST (pend s) (frames s) (attached s) (k :: cache s) (null_class s) (objs s) (clock s)).
Definition set_null : M unit := fun s =>
  (Done tt, ST (pend s) (frames s) (attached s) (cache s) true (objs s) (clock s)).
Definition set_objs (l : list Z) : M unit := fun s =>
  (Done tt, ST (pend s) (frames s) (attached s) (cache s) (null_class s) l (clock s)).
Definition look {A} (f : st -> A) : M A := fun s => (Done (f s), s).

(** The first [h] is taken out of the list. *)
Fixpoint remove1 (h : Z) (l : list Z) : list Z :=
  match l with
  | nil => nil
  | x :: l' => if x =? h then l' else x :: remove1 h l'
  end.

(** An error of the Rust code, as in [Result<A>] of anyhow. *)
Inductive result (A : Type) := Okay (a : A) | Error (message : string).
Arguments Okay {A}. Arguments Error {A}.

(** The question mark of Rust. *)
Definition try_ {A B} (m : M (result A)) (k : A -> M (result B)) : M (result B) :=
  r <- m ;; match r with Okay a => k a | Error e => ret (Error e) end.
Notation "x <-? m ;; k" := (try_ m (fun x => k)) (at level 60, m at level 55, right associativity).

(** What goes wrong in the VM when a function is called for the n-th time: it returns null or an error code,
    or raises an exception as well. *)
Inductive fault := Works | GivesNull | Raises (x : exc).

Section vm.
Variable faults : nat -> jni_fn -> fault.
(** What [getMessage] returns for an exception that is not an InternalException. *)
Variable message_of : exc -> option string.

(** One JNI function is called; the answer is whether it did its work. *)
Definition jni (f : jni_fn) : M bool := fun s =>
  match pend s, while_pending f with
  | Some _, false => (Crashed (Misuse f), s)
  | _, _ =>
      let s1 := ST (pend s) (frames s) (attached s) (cache s) (null_class s) (objs s) (S (clock s)) in
      match faults (clock s) f with
      | Works => (Done true, s1)
      | GivesNull => (Done false, s1)
      | Raises x => (Done false, ST (Some x) (frames s1) (attached s1) (cache s1) (null_class s1) (objs s1) (clock s1))
      end
  end.

Definition is_cached (k : key) : M bool := look (fun s => existsb (key_eqb k) (cache s)).

(** caching.rs:36-47 CachedClass::get. A null global reference is kept. *)
Definition class_get (k : key) : M unit :=
  c <- is_cached k ;;
  if c then ret tt else
  ok <- jni (FindClass k) ;;
  if ok then
    g <- jni (NewGlobalRef k) ;;
    (if g then ret tt else set_null) ;;; add_cache k
  else panic "Class not found".

(** caching.rs:77-109 CachedMethod::get and l.337-369 CachedStaticMethod::get. *)
Definition method_get (k : key) : M unit :=
  c <- is_cached k ;;
  if c then ret tt else
  ok <- jni (FindClass k) ;;
  if ok then
    m <- jni (GetMethodID k) ;;
    if m then
      g <- jni (NewGlobalRef k) ;;
      if g then add_cache k else panic "Failed to create global ref"
    else panic "Method not found"
  else panic "Class not found".

(** caching.rs:111-307 and 371-571: the method is called, which runs [body] in Kotlin, and the exception that
    is pending afterwards is the error. *)
Definition call_method {A} (k : key) (body : M (A + exc)) : M (A + exc) :=
  method_get k ;;;
  ok <- jni (CallMethodA k) ;;
  r <- (if ok then body else x <- look pend ;; ret (inr (match x with Some x => x | None => Other 0 end))) ;;
  match r with
  | inl a => jni ExceptionOccurred ;;; ret (inl a)
  | inr x => set_pend (Some x) ;;; jni ExceptionOccurred ;;; ret (inr x)
  end.

(** strings.rs:15-30 decode_jni_string. *)
Definition string_chars : M bool :=
  jni GetStringUTFLength ;;;
  d <- jni GetStringUTFChars ;;
  if d then jni ReleaseStringUTFChars ;;; ret true else ret false.

(** errors.rs:28-48 throwable_get_message. The message is null if [getMessage] throws, and it is not looked
    whether it did. *)
Definition get_message (x : exc) : M string :=
  method_get KMessage ;;;
  ok <- jni (CallMethodA KMessage) ;;
  if ok then
    match (match x with Internal m => Some m | _ => message_of x end) with
    | None => ret "NULL"
    | Some m =>
        d <- string_chars ;;
        ret (if d then m else "Error decoding Throwable message: UniFFI internal error in decode_jni_string: GetStringUTFChars returned NULL")
    end
  else ret "NULL".

(** errors.rs:14-22 throw_internal_exception. *)
Definition throw_internal (m : string) : M unit :=
  class_get KInternal ;;;
  n <- look null_class ;;
  if n then crashes NullClass else
  ok <- jni ThrowNew ;;
  if ok then set_pend (Some (Internal m)) else ret tt.

(** attach.rs:19-44. Nothing detaches the thread, and the frame stays if the closure panics. *)
Definition attach {A} (f : M A) : M A :=
  ok <- jni AttachCurrentThread ;;
  if ok then
    set_attached true ;;;
    p <- jni PushLocalFrame ;;
    if p then
      n <- look frames ;;
      set_frames (S n) ;;;
      a <- f ;;
      jni PopLocalFrame ;;;
      n <- look frames ;;
      set_frames (pred n) ;;;
      ret a
    else panic "Out of memory: PushLocalFrame failed"
  else panic "AttachCurrentThread failed".

(** ** Values *)

(** The values a value is made of when it is passed: a primitive value, a string, a buffer, an array of
    primitive values, or the handle of an object implemented in Kotlin. *)
Inductive leaf := LPrim | LString | LBuffer | LArray | LObject (h : Z).

(** How the conversion of a part ends: it may be refused, and the code of a custom type may panic
    (templates/custom.rs:10, 27). *)
Inductive conv := Fine | Refused (message : string) | Panics (message : string).

(** A value that goes from Kotlin to Rust. *)
Record passed := Passed { p_val : Z; p_parts : list (leaf * conv) }.

(** A value that goes from Rust to Kotlin; [b_fails] is the exception that the Kotlin code which lifts it
    throws. *)
Record built := Built { b_val : Z; b_parts : list (leaf * conv); b_fails : option exc }.

Definition finish (c : conv) : M (result unit) :=
  match c with
  | Fine => ret (Okay tt)
  | Refused e => ret (Error e)
  | Panics e => panic e
  end.

(** lift_lower.rs:20-30 (primitive), 46-48 and 14-30 of strings.rs (string), 60-64 (buffer), 180-195 and the
    other functions for arrays; an object is its handle (callback_interface.rs:206-213). *)
Definition lift_part (p : leaf * conv) : M (result unit) :=
  match fst p with
  | LPrim | LObject _ => finish (snd p)
  | LString =>
      d <- string_chars ;;
      if d then finish (snd p)
      else ret (Error "UniFFI internal error in decode_jni_string: GetStringUTFChars returned NULL")
  | LBuffer => jni GetDirectBufferAddress ;;; jni GetDirectBufferCapacity ;;; finish (snd p)
  | LArray =>
      jni GetArrayLength ;;;
      d <- jni GetPrimitiveArrayCritical ;;
      if d then jni ReleasePrimitiveArrayCritical ;;; finish (snd p)
      else ret (Error "GetPrimitiveArrayCritical failed")
  end.

(** lift_lower.rs:54-56 (string), 70-76 (buffer), 201-211 and the other functions for arrays. None of them
    looks whether the VM gave an object. The conversion of the Rust value comes first (custom.rs:10-11). *)
Definition lower_part (p : leaf * conv) : M (result unit) :=
  u <-? finish (snd p) ;;
  match fst p with
  | LPrim | LObject _ => ret (Okay tt)
  | LString => jni NewStringUTF ;;; ret (Okay tt)
  | LBuffer => jni NewDirectByteBuffer ;;; ret (Okay tt)
  | LArray => jni NewArray ;;; jni SetArrayRegion ;;; ret (Okay tt)
  end.

Fixpoint lower_parts (l : list (leaf * conv)) : M (result unit) :=
  match l with
  | nil => ret (Okay tt)
  | p :: l' => u <-? lower_part p ;; lower_parts l'
  end.

(** ** Objects implemented in Kotlin *)

(** shared/CallbackInterfaceFfi.kt:142-144 and shared/CallbackInterfaces.kt:44-46. *)
Definition free_kt (h : Z) : M (unit + exc) :=
  l <- look objs ;;
  if existsb (Z.eqb h) l then set_objs (remove1 h l) ;;; ret (inl tt)
  else ret (inr (Internal "HandleMap: Invalid handle")).

(** callback_interface.rs:178-202 Drop. *)
Definition drop_object (h : Z) : M unit :=
  attach (
    r <- call_method KFree (free_kt h) ;;
    match r with
    | inl _ => ret tt
    | inr _ => jni ExceptionClear ;;; set_pend None
    end).

Fixpoint drop_all (l : list Z) : M unit :=
  match l with
  | nil => ret tt
  | h :: l' => drop_object h ;;; drop_all l'
  end.

(** A panic unwinds the stack: the objects that its frames own are dropped, and a panic while this is done
    ends the program. *)
Definition unwind {A} (m : string) (held : list Z) : M A := fun s =>
  match drop_all held s with
  | (Done _, s1) => (Unwinds m, s1)
  | (Unwinds _, s1) => (Crashed PanicInDrop, s1)
  | (Crashed c, s1) => (Crashed c, s1)
  end.

(** The parts of a value are lifted one after the other; when one fails, the objects lifted before are
    dropped, the last one first. [done] are those lifted already. *)
Fixpoint lift_parts (l : list (leaf * conv)) (done : list Z) : M (result (list Z)) :=
  match l with
  | nil => ret (Okay done)
  | p :: l' => fun s =>
      match lift_part p s with
      | (Done (Okay _), s1) => lift_parts l' (match fst p with LObject h => h :: done | _ => done end) s1
      | (Done (Error e), s1) => (drop_all done ;;; ret (Error e)) s1
      | (Unwinds w, s1) => unwind w done s1
      | (Crashed c, s1) => (Crashed c, s1)
      end
  end.

(** jni_method.rs:19-26: the arguments, one after the other. *)
Definition lift_args (args : list passed) : M (result (list Z)) := lift_parts (flat_map p_parts args) nil.

(** ** The native method of a function *)

(** callables.rs:95-106 ReturnFfi, with the name of the Kotlin function that lifts the type. *)
Inductive returns := RVoid | RPrim | RParts (lift : string).

(** A Rust function that Kotlin calls: its result, the Kotlin function that lifts its error, and its name. *)
Record func := Func { f_ret : returns; f_throws : option string; f_name : string }.

(** How the Rust function ends, other than by a panic. *)
Inductive rust_end := Returned (r : built) | Failed (e : built).

(** calls.rs:15-37 rust_call. *)
Definition rust_call {A} (f : M (result A)) : M (result A) := fun s =>
  match f s with
  | (Unwinds m, s1) => (Done (Error ("Rust panic: " ++ m)%string), s1)
  | r => r
  end.

(** calls.rs:46-67 rust_call_with_env. [None] is the default value. What panics after the panic was caught
    leaves the function. *)
Definition rust_call_with_env {A} (f : M (result (option A))) : M (option A) := fun s =>
  match rust_call f s with
  | (Done (Okay v), s1) => (Done v, s1)
  | (Done (Error e), s1) =>
      match throw_internal e s1 with
      | (Done _, s2) => (Done None, s2)
      | (Unwinds _, s2) => (Crashed UnwindsOut, s2)
      | (Crashed c, s2) => (Crashed c, s2)
      end
  | (Unwinds _, s1) => (Crashed UnwindsOut, s1)
  | (Crashed c, s1) => (Crashed c, s1)
  end.

(** The Kotlin function that lifts a value, called from Rust. *)
Definition lift_kt (b : built) : M (Z + exc) :=
  match b_fails b with None => ret (inl (b_val b)) | Some x => ret (inr x) end.

(** errors.rs:74-86 to_anyhow_result. *)
Definition to_anyhow {A} (what : string) (r : A + exc) : M (result A) :=
  match r with
  | inl a => ret (Okay a)
  | inr x =>
      jni ExceptionClear ;;; set_pend None ;;;
      m <- get_message x ;;
      ret (Error ("Exception calling " ++ what ++ ": " ++ m)%string)
  end.

(** jni_method.rs:69-111: what happens to the result. *)
Definition send_result (f : func) (r : rust_end) : M (result (option Z)) :=
  match r, f_throws f with
  | Failed e, Some lift =>
      u <-? lower_parts (b_parts e) ;;
      r <- call_method (KLift lift) (lift_kt e) ;;
      x <-? to_anyhow lift r ;;
      ok <- jni Throw ;;
      if ok then set_pend (Some (Declared x)) ;;; ret (Okay None)
      else ret (Error ("Failed to throw exception for " ++ f_name f)%string)
  | Returned v, _ | Failed v, None =>
      match f_ret f with
      | RVoid => ret (Okay (Some 0))
      | RPrim => u <-? lower_parts (b_parts v) ;; ret (Okay (Some (b_val v)))
      | RParts lift =>
          u <-? lower_parts (b_parts v) ;;
          r <- call_method (KLift lift) (lift_kt v) ;;
          x <-? to_anyhow lift r ;;
          ret (Okay (Some x))
      end
  end.

(** CallableBody.kt:20-27: a primitive value is lifted when the native method has returned it. [None] is the
    default value: zero or null. *)
Definition lift_result (f : func) (r : option rust_end) (v : option Z) : Z + exc :=
  match f_ret f, r with
  | RPrim, Some (Returned b) => match b_fails b with None => inl (b_val b) | Some x => inr x end
  | RPrim, _ | RVoid, _ => match v with Some z => inl z | None => inl 0 end
  | RParts _, _ => match v with Some z => inl z | None => inr (Other 0) end
  end.

(** The handles of an argument are put into the handle maps when Kotlin lowers it
    (CallbackInterfaceFfi.kt:147-153). *)
Definition handles (l : list (leaf * conv)) : list Z :=
  flat_map (fun p => match fst p with LObject h => [h] | _ => [] end) l.

(** jni_method.rs:1-114 and CallableBody.kt:1-28. [body] is the Rust function. When the native method
    returns, the VM releases the local references of the call, and raises the pending exception. *)
Definition native (f : func) (args : list passed) (body : M rust_end) : M (Z + exc) :=
  l <- look objs ;;
  set_objs (handles (flat_map p_parts args) ++ l) ;;;
  n <- look frames ;;
  r <- rust_call_with_env (
    h <-? lift_args args ;;
    e <- body ;;
    v <-? send_result f e ;;
    ret (Okay (Some (Some e, v)))) ;;
  set_frames n ;;;
  x <- look pend ;;
  match x with
  | Some x => set_pend None ;;; ret (inr x)
  | None => ret (match r with Some (e, v) => lift_result f e v | None => lift_result f None None end)
  end.

(** ** The call of a method implemented in Kotlin *)

(** A method of a trait: its result, whether it throws errors, whether the error type is made from
    unexpected errors (pipeline/callbacks.rs), and its name. *)
Record meth := Meth { m_ret : returns; m_throws : bool; m_unexpected : bool; m_name : string }.

(** What the Kotlin implementation does in the end: it returns a value, throws an error of the interface, or
    something else. *)
Inductive kotlin_end := KotlinReturned (p : passed) | KotlinFailed (p : passed) | KotlinRaised (x : exc).

(** What is in the return pointer: nothing, a value or an error (callback_interface.rs:70, 97-105). *)
Inductive slot := Empty | HasValue (v : Z) | HasError (e : Z).

(** callback_interface_shared.rs:4-32 and 36-64: the native methods that put a value or an error there; they
    catch no panics. When they return, the VM raises the pending exception. *)
Definition set_callback (name : string) (p : passed) (s0 : slot) : M (slot + exc) := fun s =>
  match (r <- lift_parts (p_parts p) nil ;;
         match r with
         | Okay _ => ret s0
         | Error e => throw_internal (name ++ " failed: " ++ e)%string ;;; ret Empty
         end) s with
  | (Done sl, s1) =>
      match pend s1 with
      | Some x => (x <- look (fun _ => x) ;; set_pend None ;;; ret (inr x)) s1
      | None => (Done (inl sl), s1)
      end
  | (Unwinds _, s1) => (Crashed UnwindsOut, s1)
  | (Crashed c, s1) => (Crashed c, s1)
  end.

(** CallbackInterfaceFfi.kt:7-70: the object is looked up, the arguments are lifted, the method is called, and
    its result is returned if it is primitive, otherwise put into the return pointer. The value that is
    returned beside the slot is the primitive one. *)
Definition dispatch_kt (m : meth) (h : Z) (args : list built) (impl : M kotlin_end)
  : M ((slot * option passed) + exc) :=
  l <- look objs ;;
  if existsb (Z.eqb h) l then
    match find (fun b => match b_fails b with Some _ => true | None => false end) args with
    | Some b => ret (inr (match b_fails b with Some x => x | None => Other 0 end))
    | None =>
        e <- impl ;;
        match e with
        | KotlinRaised x => ret (inr x)
        | KotlinFailed p =>
            if m_throws m then
              r <- set_callback "uniffiSetCallbackReturn" p (HasError (p_val p)) ;;
              ret (match r with inl s => inl (s, None) | inr x => inr x end)
            else ret (inr (Declared (p_val p)))
        | KotlinReturned p =>
            match m_ret m with
            | RVoid => ret (inl (Empty, None))
            | RPrim => ret (inl (Empty, Some p))
            | RParts _ =>
                r <- set_callback "uniffiSetCallbackReturn" p (HasValue (p_val p)) ;;
                ret (match r with inl s => inl (s, None) | inr x => inr x end)
            end
        end
    end
  else ret (inr (Internal "HandleMap.get: Invalid handle")).

Fixpoint lower_args (l : list built) : M (result unit) :=
  match l with
  | nil => ret (Okay tt)
  | b :: l' => u <-? lower_parts (b_parts b) ;; lower_args l'
  end.

(** The result of the method: a value or an error of the interface. *)
Inductive answer := Value (v : Z) | Err (e : Z).

(** callback_interface.rs:56-135. *)
Definition dispatch (m : meth) (h : Z) (args : list built) (impl : M kotlin_end) : M (result answer) :=
  attach (
    u <-? lower_args args ;;
    r <- call_method (KDispatch (m_name m)) (dispatch_kt m h args impl) ;;
    match r with
    | inl (HasValue v, _) => ret (Okay (Value v))
    | inl (HasError e, _) => ret (Okay (Err e))
    | inl (Empty, p) =>
        match m_ret m, p with
        | RVoid, _ => ret (Okay (Value 0))
        | RPrim, Some p =>
            d <-? lift_parts (p_parts p) nil ;;
            ret (Okay (Value (p_val p)))
        | _, _ => ret (Error ("UniFFI internal error in " ++ m_name m ++ ": no return value set")%string)
        end
    | inr x =>
        jni ExceptionClear ;;; set_pend None ;;;
        w <- get_message x ;;
        ret (Error w)
    end).

(** The error that an unexpected error of a callback becomes. *)
Variable unexpected : string -> Z.

(** callback_interface.rs:9-51: the method of the generated struct. *)
Definition callback (m : meth) (h : Z) (args : list built) (impl : M kotlin_end) : M answer :=
  r <- dispatch m h args impl ;;
  match r with
  | Okay a => ret a
  | Error e =>
      if andb (m_throws m) (m_unexpected m) then ret (Err (unexpected e))
      else panic ("Error calling UniFFI callback method: " ++ e)%string
  end.

(** ** Programs *)

(** What a Rust function does, as far as Kotlin is concerned: it ends, panics while it owns objects, drops an
    object, or calls a method of an object, which Kotlin code implements, while it owns others. *)
Inductive rust :=
| REnd (e : rust_end)
| RPanic (m : string) (held : list Z)
| RDrop (h : Z) (k : rust)
| RCall (m : meth) (h : Z) (args : list built) (impl : kotlin) (held : list Z) (k : answer -> rust)
(** What Kotlin code does: it ends, or calls a Rust function. *)
with kotlin :=
| KEnd (e : kotlin_end)
| KCall (f : func) (args : list passed) (body : rust) (k : Z + exc -> kotlin).

(** The calls that Rust and Kotlin make to each other, to any depth. *)
Fixpoint run_rust (r : rust) : M rust_end :=
  match r with
  | REnd e => ret e
  | RPanic m held => unwind m held
  | RDrop h k => drop_object h ;;; run_rust k
  | RCall m h args impl held k => fun s =>
      match callback m h args (run_kotlin impl) s with
      | (Done a, s1) => run_rust (k a) s1
      | (Unwinds w, s1) => unwind w held s1
      | (Crashed c, s1) => (Crashed c, s1)
      end
  end
with run_kotlin (k : kotlin) : M kotlin_end :=
  match k with
  | KEnd e => ret e
  | KCall f args body k => r <- native f args (run_rust body) ;; run_kotlin (k r)
  end.

(** Kotlin calls a Rust function. *)
Definition call (f : func) (args : list passed) (body : rust) : M (Z + exc) := native f args (run_rust body).

End vm.

(** ** The JNI functions that call methods *)

(** The return types of methods in JNI. *)
Inductive jtype := JVoid | JBoolean | JByte | JShort | JInt | JLong | JFloat | JDouble | JObject.

(** The FFI types of the result of a method that Kotlin implements: none for no result, one for a primitive
    one, several otherwise (pipeline/ffi_types.rs:218-236). *)
Inductive ffi_type := FInt8 | FInt16 | FInt32 | FInt64 | FFloat32 | FFloat64 | FBoolean | FReference.

(** ffi_types.rs:218-236 jni_signature. *)
Definition jtype_of (t : ffi_type) : jtype :=
  match t with
  | FInt8 => JByte | FInt16 => JShort | FInt32 => JInt | FInt64 => JLong | FFloat32 => JFloat
  | FFloat64 => JDouble | FBoolean => JBoolean | FReference => JObject
  end.

(** callbacks.rs:118-145 jni_signature: the return type in the signature of the Kotlin function. *)
Definition signature_type (is_async : bool) (result : option (list ffi_type)) : jtype :=
  if is_async then JVoid else
  match result with
  | Some [t] => jtype_of t
  | _ => JVoid
  end.

(** callbacks.rs:158-179 jni_method_call_name: the return type of the JNI function that calls it; it does not
    depend on whether the method is async. *)
Definition called_as (is_async : bool) (result : option (list ffi_type)) : jtype :=
  match result with
  | Some [FInt8] | Some [FBoolean] => JByte
  | Some [FInt16] => JShort
  | Some [FInt32] => JInt
  | Some [FInt64] => JLong
  | Some [FFloat32] => JFloat
  | Some [FFloat64] => JDouble
  | Some [FReference] => JObject
  | _ => JVoid
  end.
