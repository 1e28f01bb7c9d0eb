(** What calls between Kotlin and Rust should do, without the JNI: a call ends with the value, with the
    declared error, or with an InternalException that says what went wrong; the objects that Kotlin passes
    live until Rust drops them. *)
From Verif Require Import Jcall_Model.
From Coq Require Import List ZArith String Bool.
Import ListNotations.
Open Scope string_scope.
Open Scope list_scope.
Open Scope Z_scope.

Section spec.
Variable message_of : exc -> option string.
Variable unexpected : string -> Z.

(** The message of an exception. *)
Definition message (x : exc) : string :=
  match x with
  | Internal m => m
  | _ => match message_of x with Some m => m | None => "NULL" end
  end.

(** The first part of a value that cannot be converted, and the objects that come before it. *)
Fixpoint first_bad (l : list (leaf * conv)) : option conv :=
  match l with
  | nil => None
  | (_, Fine) :: l' => first_bad l'
  | (_, c) :: _ => Some c
  end.
Fixpoint before_bad (l : list (leaf * conv)) : list Z :=
  match l with
  | (LObject h, Fine) :: l' => h :: before_bad l'
  | (_, Fine) :: l' => before_bad l'
  | _ => nil
  end.

(** One reference to an object is released: the first one in the list, the others stay. *)
Fixpoint take_out (h : Z) (before after : list Z) : list Z :=
  match after with
  | nil => rev before
  | x :: l => if Z.eq_dec x h then rev_append before l else take_out h (x :: before) l
  end.
Definition release_one (h : Z) (objs : list Z) : list Z := take_out h nil objs.
(** Objects are released, the last one first. *)
Definition release (l objs : list Z) : list Z := fold_left (fun o h => release_one h o) l objs.

(** What is said of a conversion that fails. *)
Definition refusal (c : conv) : string :=
  match c with
  | Fine => ""
  | Refused m => m
  | Panics m => ("Rust panic: " ++ m)%string
  end.

(** What the caller of a Rust function sees of its result. *)
Definition seen (f : func) (e : rust_end) : Z + exc :=
  match e, f_throws f with
  | Failed b, Some lift =>
      match first_bad (b_parts b), b_fails b with
      | Some c, _ => inr (Internal (refusal c))
      | None, Some x => inr (Internal ("Exception calling " ++ lift ++ ": " ++ message x))
      | None, None => inr (Declared (b_val b))
      end
  | Returned b, _ | Failed b, None =>
      match f_ret f with
      | RVoid => inl 0
      | RPrim =>
          match first_bad (b_parts b), e, b_fails b with
          | Some c, _, _ => inr (Internal (refusal c))
          | None, Returned _, Some x => inr x
          | None, _, _ => inl (b_val b)
          end
      | RParts lift =>
          match first_bad (b_parts b), b_fails b with
          | Some c, _ => inr (Internal (refusal c))
          | None, Some x => inr (Internal ("Exception calling " ++ lift ++ ": " ++ message x))
          | None, None => inl (b_val b)
          end
      end
  end.

(** A Rust function either ends or panics. *)
Definition rust_out := (rust_end + string)%type.

(** A call from Kotlin, given what the Rust function does with the objects that exist. *)
Definition call_spec (f : func) (args : list passed) (body : list Z -> rust_out * list Z) (objs : list Z)
  : (Z + exc) * list Z :=
  let parts := flat_map p_parts args in
  let objs1 := handles parts ++ objs in
  match first_bad parts with
  | Some c => (inr (Internal (refusal c)), release (rev (before_bad parts)) objs1)
  | None =>
      match body objs1 with
      | (inr m, o) => (inr (Internal ("Rust panic: " ++ m)), o)
      | (inl e, o) => (seen f e, o)
      end
  end.

(** A call from Rust that did not end as declared. *)
Definition unexpected_end (m : meth) (w : string) : answer + string :=
  if m_throws m && m_unexpected m then inl (Err (unexpected w))
  else inr ("Error calling UniFFI callback method: " ++ w)%string.

(** What Rust sees of the result of a Kotlin implementation. *)
Definition answered (m : meth) (e : kotlin_end) (o : list Z) : (answer + string) * list Z :=
  let handed (p : passed) (a : answer) (prefix : string) :=
    match first_bad (p_parts p) with
    | Some c => (unexpected_end m (prefix ++ refusal c)%string, release (rev (before_bad (p_parts p))) o)
    | None => (inl a, o)
    end in
  match e with
  | KotlinRaised x => (unexpected_end m (message x), o)
  | KotlinFailed p =>
      if m_throws m then handed p (Err (p_val p)) "uniffiSetCallbackReturn failed: "
      else (unexpected_end m (message (Declared (p_val p))), o)
  | KotlinReturned p =>
      match m_ret m with
      | RVoid => (inl (Value 0), o)
      | RPrim => handed p (Value (p_val p)) ""
      | RParts _ => handed p (Value (p_val p)) "uniffiSetCallbackReturn failed: "
      end
  end.

(** The first argument that Kotlin cannot lift. *)
Fixpoint first_failing (l : list built) : option exc :=
  match l with
  | nil => None
  | b :: l' => match b_fails b with Some x => Some x | None => first_failing l' end
  end.

(** A call from Rust, given what the Kotlin implementation does. *)
Definition callback_spec (m : meth) (h : Z) (args : list built) (impl : list Z -> kotlin_end * list Z)
  (objs : list Z) : (answer + string) * list Z :=
  match first_bad (flat_map b_parts args) with
  | Some c => (unexpected_end m (refusal c), objs)
  | None =>
      if existsb (Z.eqb h) objs then
        match first_failing args with
        | Some x => (unexpected_end m (message x), objs)
        | None => let '(e, o) := impl objs in answered m e o
        end
      else (unexpected_end m "HandleMap.get: Invalid handle", objs)
  end.

(** What the programs should do. *)
Fixpoint rust_spec (r : rust) (objs : list Z) : rust_out * list Z :=
  match r with
  | REnd e => (inl e, objs)
  | RPanic m held => (inr m, release held objs)
  | RDrop h k => rust_spec k (release_one h objs)
  | RCall m h args impl held k =>
      match callback_spec m h args (kotlin_spec impl) objs with
      | (inl a, o) => rust_spec (k a) o
      | (inr w, o) => (inr w, release held o)
      end
  end
with kotlin_spec (k : kotlin) (objs : list Z) : kotlin_end * list Z :=
  match k with
  | KEnd e => (e, objs)
  | KCall f args body k => let '(r, o) := call_spec f args (rust_spec body) objs in kotlin_spec (k r) o
  end.

End spec.

(** No conversion panics while a method implemented in Kotlin is called: neither that of its arguments nor
    that of its result. *)
Definition quiet (l : list (leaf * conv)) : Prop :=
  forall p, In p l -> match snd p with Panics _ => False | _ => True end.
Fixpoint calm_rust (r : rust) : Prop :=
  match r with
  | REnd _ | RPanic _ _ => True
  | RDrop _ k => calm_rust k
  | RCall m h args impl held k =>
      (forall b, In b args -> quiet (b_parts b)) /\ calm_kotlin impl /\ forall a, calm_rust (k a)
  end
with calm_kotlin (k : kotlin) : Prop :=
  match k with
  | KEnd (KotlinReturned p) | KEnd (KotlinFailed p) => quiet (p_parts p)
  | KEnd (KotlinRaised _) => True
  | KCall f args body k => calm_rust body /\ forall r, calm_kotlin (k r)
  end.

(** The VM does what it is asked for. *)
Definition healthy (faults : nat -> jni_fn -> fault) : Prop := forall n f, faults n f = Works.

(** A thread on which no exception is pending, with a class of InternalException that is not null. *)
Definition ready (s : st) : Prop := pend s = None /\ null_class s = false.

(** The code has run: no exception is pending, the local frames are those there were, and these objects are
    left. *)
Definition ran {A} (m : M A) (s : st) (o : out A) (l : list Z) : Prop :=
  exists s', m s = (o, s') /\ ready s' /\ frames s' = frames s /\ objs s' = l.

(** A call from Kotlin does what it should. *)
Definition calls_right : Prop :=
  forall faults message_of unexpected f args body s,
    healthy faults -> ready s -> calm_rust body ->
    let '(r, o) := call_spec message_of f args (rust_spec message_of unexpected body) (objs s) in
    ran (call faults message_of unexpected f args body) s (Done r) o.

(** So does Rust code on any thread: [inr] is a panic. *)
Definition rust_right : Prop :=
  forall faults message_of unexpected body s,
    healthy faults -> ready s -> calm_rust body ->
    let '(r, o) := rust_spec message_of unexpected body (objs s) in
    ran (run_rust faults message_of unexpected body) s
      (match r with inl e => Done e | inr w => Unwinds w end) o.

(** ** For the users *)

(** All the parts of a value are converted. *)
Definition converts (l : list (leaf * conv)) : Prop := forall p, In p l -> snd p = Fine.

(** What a call gives to Kotlin, and the objects that are left. *)
Definition gives {A} (m : M A) (s : st) (a : A) (l : list Z) : Prop :=
  exists s', m s = (Done a, s') /\ objs s' = l.

(** The objects there are when the Rust function starts: those that Kotlin passes have been added. *)
Definition start (args : list passed) (s : st) : list Z := handles (flat_map p_parts args) ++ objs s.

(** Rust code that returns what a method implemented in Kotlin answered. *)
Definition got (a : answer) : rust :=
  REnd (match a with Value v => Returned (Built v nil None) | Err e => Failed (Built e nil None) end).

(** Only these functions fail. *)
Definition only (p : jni_fn -> Prop) (faults : nat -> jni_fn -> fault) : Prop := forall n f, faults n f <> Works -> p f.

(** Exceptions without messages; one error for everything that is unexpected. *)
Definition none : exc -> option string := fun _ => None.
Definition same : string -> Z := fun _ => 7.

(** While only these functions fail, a call does not end the program, nor does something that JNI leaves undefined. *)
Definition survives (p : jni_fn -> Prop) : Prop :=
  forall faults f args body s, only p faults -> ready s -> calm_rust body ->
  forall c, fst (call faults none same f args body s) <> Crashed c.

(** The lookup of the Kotlin function that lifts a value. *)
Definition is_lookup (f : jni_fn) : Prop := match f with FindClass (KLift _) | GetMethodID (KLift _) => True | _ => False end.

(** A VM in which nothing fails. *)
Definition fine_vm (n : nat) (f : jni_fn) : fault := Works.
