(** What asynchronous calls in the JNI bindings should do. *)
From Verif Require Import Jasync_Model.

(** ** Kotlin awaits a Rust future *)

(** What the user sees of the end of the future. A function without result gives [Unit], which is [None] here. *)
Definition shown (has_result : bool) (r : fut_end) : call_end :=
  match r with Ready v => Gives (if has_result then v else None) | Failed e => Throws e | Broken m => ThrowsInternal m end.

(** Some thread holds a pointer to the future: Kotlin until it is freed, wakers, threads that wake. *)
Definition points (s : st) : Prop :=
  (forall e, at_ s <> Finished e) \/ (0 < wakers s)%nat \/ (0 < waiting s)%nat \/ exists w, lock s = ByWaker w.

(** A thread is about to resume this continuation. *)
Definition resumes (s : st) (k : nat) : Prop := lock s = ByWaker (Resume k) \/ at_ s = Resuming k.

(** The coroutine can be resumed with this continuation: it belongs to the current poll and was not resumed. *)
Definition resumable (s : st) (k : nat) : Prop :=
  k = cur s /\ (saf s = Undecided \/ saf s = Asleep /\ at_ s = Sleeping).

(** Nothing moves unless other code does something. *)
Definition still inline has_result (s : st) : Prop := forall k s', k <> Env -> ~ step inline has_result k s s'.

Definition finished (s : st) : Prop := exists e, at_ s = Finished e.

(** Any number of steps of the program, without a new poll. *)
Inductive steps inline has_result : st -> st -> Prop :=
| no_steps : forall s, steps inline has_result s s
| more_steps : forall s1 s2 s3, steps inline has_result s1 s2 -> step inline has_result Sys s2 s3 -> steps inline has_result s1 s3.

Inductive counted inline has_result : nat -> st -> st -> Prop :=
| none_counted : forall s, counted inline has_result 0 s s
| one_counted : forall k s1 s2 s3, counted inline has_result k s1 s2 -> step inline has_result Sys s2 s3 ->
    counted inline has_result (S k) s1 s3.

(** From now on, whatever happens. *)
Inductive later inline has_result : st -> st -> Prop :=
| now : forall s, later inline has_result s s
| then_ : forall k s1 s2 s3, later inline has_result s1 s2 -> step inline has_result k s2 s3 -> later inline has_result s1 s3.

(** How often the future was polled, and how often it was woken, on the way to a state. *)
Inductive tallied inline has_result : nat -> nat -> st -> Prop :=
| tally_start : tallied inline has_result 0 0 init
| tally_poll : forall p w s s', tallied inline has_result p w s -> step inline has_result Begin s s' -> tallied inline has_result (S p) w s'
| tally_wake : forall p w s s', tallied inline has_result p w s -> step inline has_result Env s s' -> waiting s' = S (waiting s) ->
    tallied inline has_result p (S w) s'
| tally_other : forall k p w s s', tallied inline has_result p w s -> step inline has_result k s s' -> k = Sys \/ k = Env /\ waiting s' = waiting s ->
    tallied inline has_result p w s'.

(** ** Rust awaits a coroutine *)

(** What the Rust caller should get. *)
Definition answer (throws : bool) (a : async_call) : sent :=
  match a_lower a, a_method a with
  | Fails m, _ => SUnexpected m
  | Fine, Fails m => SUnexpected ("Exception calling call_void: " ++ m)%string
  | Fine, Fine =>
      let c := a_run a in
      if c_there c then
        match c_args c, c_impl c with
        | Fine, Returns v Fine Fine _ => SValue v
        | Fine, Returns _ Fine (Fails m) _ => SUnexpected m
        | Fine, ThrowsDeclared e lower lift _ =>
            match throws, lower, lift with
            | true, Fine, Fine => SError e
            | true, Fine, Fails m => SUnexpected m
            | _, _, _ => SUnexpected "Unexpected callback error"
            end
        | _, _ => SUnexpected "Unexpected callback error"
        end
      else SUnexpected "Unexpected callback error"
  end.
(** No exception stays pending in the native methods. *)
Definition clean (a : async_call) : Prop :=
  match c_impl (a_run a) with Returns _ _ _ stays | ThrowsDeclared _ _ _ stays => stays = false | ThrowsOther _ => True end.
