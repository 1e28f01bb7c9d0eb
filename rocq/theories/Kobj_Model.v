(** * One Kotlin object used and destroyed by many threads

    kotlin/templates/ObjectTemplate.kt l.153-267: the [wasDestroyed] flag, the
    call counter, [destroy], [callWithHandle], [uniffiCloneHandle], the cleaner
    and [FfiConverter.lower], at the granularity of atomic operations.

    Simplifications: the Rust object has no other references than those of this
    Kotlin object (the strong count starts at 1); each FFI function ([clone],
    [free]) and the method's Rust body are single steps; [Cleanable.clean] runs
    its action at most once, as the JDK documents; the garbage collector runs it
    when no thread uses the object and nobody can reach it any more. *)

From Verif Require Import Base.

Inductive request :=
| Method      (* obj.method() *)
| Pass        (* f(obj): obj is lowered as an argument *)
| Destroy.    (* obj.destroy() or obj.close() *)

Inductive event :=
| ECall (t : nat) (r : request)
| EReject (t : nat)         (* IllegalStateException: already destroyed *)
| EClone (t : nat)          (* Rust cloned the Arc behind the handle *)
| EUse (t : nat)            (* the Rust function ran with the clone *)
| ERelease (t : nat)        (* and released it *)
| EFree                     (* the wrapper's own reference was released *)
| EDrop                     (* Rust's destructor ran *)
| EBad (t : nat)            (* the handle was used after the object was dropped *)
| EReturn (t : nat).

Inductive pc :=
| Idle
| C0                (* l.188 callCounter.get() *)
| C1 (c : Z)        (* l.195 compareAndSet(c, c + 1) *)
| C2                (* l.198 uniffiCloneHandle() *)
| C3                (* running in Rust with the clone *)
| C4                (* Rust is about to release the clone *)
| C5                (* l.201 decrementAndGet() *)
| Clean             (* l.171, l.202 cleanable.clean() *)
| P1                (* l.265-267 lower: uniffiCloneHandle() *)
| P2 | P3           (* running in Rust; releasing *)
| D0                (* l.168 wasDestroyed.compareAndSet(false, true) *)
| D1.               (* l.170 decrementAndGet() *)

Record st := mk {
  destroyed : bool; counter : Z; cleaned : bool;   (* Kotlin *)
  rc : nat;                                        (* Rust's strong count *)
  gone : bool;                                     (* unreachable for Kotlin code *)
  ths : list pc; log : list event }.

(** [n] threads share a new object: l.155-156. *)
Definition init (n : nat) : st := mk false 1 false 1 false (repeat Idle n) [].

Fixpoint set_nth (t : nat) (p : pc) (l : list pc) : list pc :=
  match l, t with
  | [], _ => []
  | _ :: l', O => p :: l'
  | q :: l', S t' => q :: set_nth t' p l'
  end.

Definition goto (t : nat) (p : pc) (s : st) : st :=
  mk (destroyed s) (counter s) (cleaned s) (rc s) (gone s) (set_nth t p (ths s)) (log s).
Definition say (e : event) (s : st) : st :=
  mk (destroyed s) (counter s) (cleaned s) (rc s) (gone s) (ths s) (e :: log s).
Definition set_counter (c : Z) (s : st) : st :=
  mk (destroyed s) c (cleaned s) (rc s) (gone s) (ths s) (log s).
Definition set_destroyed (s : st) : st :=
  mk true (counter s) (cleaned s) (rc s) (gone s) (ths s) (log s).
Definition set_cleaned (s : st) : st :=
  mk (destroyed s) (counter s) true (rc s) (gone s) (ths s) (log s).
Definition set_gone (s : st) : st :=
  mk (destroyed s) (counter s) (cleaned s) (rc s) true (ths s) (log s).
Definition set_rc (n : nat) (s : st) : st :=
  mk (destroyed s) (counter s) (cleaned s) n (gone s) (ths s) (log s).

(** uniffi_core handle.rs l.92-96 *)
Definition rust_clone (t : nat) (s : st) : st :=
  match rc s with
  | O => say (EBad t) s
  | n => say (EClone t) (set_rc (S n) s)
  end.

(** Releasing one reference. *)
Definition rust_release (e bad : event) (s : st) : st :=
  match rc s with
  | O => say bad s
  | S O => say EDrop (say e (set_rc O s))
  | S n => say e (set_rc n s)
  end.

(** l.208-218; [Cleanable.clean] runs the action once. *)
Definition clean (t : nat) (s : st) : st :=
  if cleaned s then s else rust_release EFree (EBad t) (set_cleaned s).

Definition max_value : Z := 9223372036854775807.

Inductive op := Call (t : nat) (r : request) | Go (t : nat) | Gc.

Definition is_idle (p : pc) : bool := match p with Idle => true | _ => false end.

Definition step (s : st) (x : op) : option st :=
  match x with
  | Call t r =>
      if gone s then None else
      match nth_error (ths s) t with
      | Some Idle =>
          Some (goto t (match r with Method => C0 | Pass => P1 | Destroy => D0 end) (say (ECall t r) s))
      | _ => None
      end
  | Gc =>
      (* the last Kotlin reference disappears and the cleaner thread runs the action *)
      if gone s then None else
      if forallb is_idle (ths s) then Some (clean 0 (set_gone s)) else None
  | Go t =>
      match nth_error (ths s) t with
      | None | Some Idle => None
      | Some C0 =>
          let c := counter s in
          if Z.eqb c 0 then Some (goto t Idle (say (EReject t) s))
          else if Z.eqb c max_value then Some (goto t Idle (say (EReject t) s))
          else Some (goto t (C1 c) s)
      | Some (C1 c) =>
          if Z.eqb (counter s) c then Some (goto t C2 (set_counter (c + 1) s))
          else Some (goto t C0 s)
      | Some C2 => Some (goto t C3 (rust_clone t s))
      | Some C3 => Some (goto t C4 (say (EUse t) s))
      | Some C4 => Some (goto t C5 (rust_release (ERelease t) (EBad t) s))
      | Some C5 =>
          let c := (counter s - 1)%Z in
          if Z.eqb c 0 then Some (goto t Clean (set_counter c s))
          else Some (goto t Idle (say (EReturn t) (set_counter c s)))
      | Some Clean => Some (goto t Idle (say (EReturn t) (clean t s)))
      | Some P1 => Some (goto t P2 (rust_clone t s))
      | Some P2 => Some (goto t P3 (say (EUse t) s))
      | Some P3 => Some (goto t Idle (say (EReturn t) (rust_release (ERelease t) (EBad t) s)))
      | Some D0 =>
          if destroyed s then Some (goto t Idle (say (EReturn t) s))
          else Some (goto t D1 (set_destroyed s))
      | Some D1 =>
          let c := (counter s - 1)%Z in
          if Z.eqb c 0 then Some (goto t Clean (set_counter c s))
          else Some (goto t Idle (say (EReturn t) (set_counter c s)))
      end
  end.

Fixpoint run (s : st) (xs : list op) : option st :=
  match xs with
  | [] => Some s
  | x :: xs' => match step s x with Some s' => run s' xs' | None => None end
  end.
