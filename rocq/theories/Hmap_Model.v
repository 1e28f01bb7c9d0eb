(** * The foreign handle maps, at the granularity of atomic steps

    Two implementations:
    - [Locked]: a plain map and counter, every operation inside a lock
      (python/templates/HandleMap.py l.6-51, swift/templates/HandleMap.swift
      l.6-59, ruby/templates/HandleMap.rb l.12-59);
    - [Kotlin]: a concurrent map and an atomic counter
      (kotlin/templates/HandleMap.kt l.9-39).

    Any number of threads, named by natural numbers, call operations in any
    order; each [Go t] is one atomic step of thread [t].

    Simplifications: inside the lock every read and write of a shared variable
    is a step of its own; [ConcurrentHashMap.get/put/remove/size] and
    [dict.pop/len] are single atomic steps.  Objects are numbers. *)

From Verif Require Import Base.

Inductive lang := Locked | Kotlin.

Definition obj := Z.

Inductive request :=
| Insert (o : obj) | Get (h : Z) | Clone (h : Z) | Remove (h : Z) | Size.

(** What can be observed, newest first in the log. *)
Inductive event :=
| ECall (t : nat) (r : request)
| EPut (t : nat) (h : Z) (o : obj)          (* the entry appears *)
| ENew (t : nat) (h : Z)                    (* insert or clone returns handle h *)
| ERead (t : nat) (h : Z) (r : option obj)  (* clone looks handle h up *)
| EGot (t : nat) (h : Z) (r : option obj)   (* get returns; [None]: "invalid handle" *)
| ERem (t : nat) (h : Z) (r : option obj)   (* remove takes the entry *)
| EFail (t : nat)                           (* clone raises "invalid handle" *)
| ESize (t : nat) (n : nat).

(** Program counters. *)
Inductive pc :=
| Idle
| Want (r : request)            (* called; [Locked]: waiting for the lock *)
| Inside (r : request)          (* [Locked]: inside the lock *)
| Ins1 (o : obj)                (* about to read the counter *)
| Ins2 (o : obj) (c : Z)        (* [Locked]: has read it *)
| Ins3 (o : obj) (c : Z)        (* has advanced it *)
| Ins4 (c : Z)                  (* has stored the entry *)
| Leave                         (* [Locked]: about to release the lock *)
| LeaveFail.                    (* ... and raise *)

Record st := mk {
  map_ : list (Z * obj); counter : Z; lock : option nat;
  pcs : nat -> pc; log : list event }.

(** HandleMap.py l.3-4, l.11-15; HandleMap.kt l.3-4, l.10-12 *)
Definition init : st := mk [] 1 None (fun _ => Idle) [].

Fixpoint lookup (h : Z) (l : list (Z * obj)) : option obj :=
  match l with
  | [] => None
  | (k, o) :: l' => if Z.eqb h k then Some o else lookup h l'
  end.

Fixpoint del (h : Z) (l : list (Z * obj)) : list (Z * obj) :=
  match l with
  | [] => []
  | (k, o) :: l' => if Z.eqb h k then del h l' else (k, o) :: del h l'
  end.

(** [map[h] = o] replaces an existing entry. *)
Definition put (h : Z) (o : obj) (l : list (Z * obj)) : list (Z * obj) := (h, o) :: del h l.

Definition upd (f : nat -> pc) (t : nat) (p : pc) : nat -> pc := fun u => if Nat.eqb u t then p else f u.

(** Two's complement 64-bit wrap-around of Kotlin's [Long]; Python and Ruby
    integers are unbounded (Swift traps instead of wrapping). *)
Definition wrap (k : lang) (z : Z) : Z :=
  match k with
  | Locked => z
  | Kotlin => (z + 9223372036854775808) mod 18446744073709551616 - 9223372036854775808
  end.

Definition goto (t : nat) (p : pc) (s : st) : st := mk (map_ s) (counter s) (lock s) (upd (pcs s) t p) (log s).
Definition say (e : event) (s : st) : st := mk (map_ s) (counter s) (lock s) (pcs s) (e :: log s).
Definition set_map (m : list (Z * obj)) (s : st) : st := mk m (counter s) (lock s) (pcs s) (log s).
Definition set_counter (c : Z) (s : st) : st := mk (map_ s) c (lock s) (pcs s) (log s).
Definition set_lock (l : option nat) (s : st) : st := mk (map_ s) (counter s) l (pcs s) (log s).

(** The lock is taken by everything but [len] (HandleMap.py l.50-51,
    HandleMap.swift l.54-58; Ruby's [size] takes it, which makes no difference
    for an atomic read). *)
Definition needs_lock (r : request) : bool := match r with Size => false | _ => true end.

(** The body of an operation up to the point where it needs a handle. *)
Definition body (t : nat) (r : request) (after fail : pc) (s : st) : st :=
  match r with
  | Insert o => goto t (Ins1 o) s
  | Get h => goto t after (say (EGot t h (lookup h (map_ s))) s)
  | Clone h =>
      match lookup h (map_ s) with
      | Some o => goto t (Ins1 o) (say (ERead t h (Some o)) s)
      | None => goto t fail (say (ERead t h None) s)
      end
  | Remove h => goto t after (set_map (del h (map_ s)) (say (ERem t h (lookup h (map_ s))) s))
  | Size => goto t Idle (say (ESize t (length (map_ s))) s)
  end.

Inductive op := Call (t : nat) (r : request) | Go (t : nat).

Definition step (k : lang) (s : st) (x : op) : option st :=
  match x with
  | Call t r =>
      match pcs s t with
      | Idle => Some (goto t (Want r) (say (ECall t r) s))
      | _ => None
      end
  | Go t =>
      match pcs s t with
      | Idle => None
      | Want r =>
          match k with
          | Kotlin => Some (body t r Idle LeaveFail s)
          | Locked =>
              if needs_lock r then
                match lock s with
                | None => Some (goto t (Inside r) (set_lock (Some t) s))
                | Some _ => None
                end
              else Some (body t r Idle Idle s)
          end
      | Inside r => Some (body t r Leave LeaveFail s)
      | Ins1 o =>
          match k with
          | Kotlin => (* getAndAdd *)
              Some (goto t (Ins3 o (counter s)) (set_counter (wrap k (counter s + 2)) s))
          | Locked => Some (goto t (Ins2 o (counter s)) s)
          end
      | Ins2 o c => Some (goto t (Ins3 o c) (set_counter (wrap k (c + 2)) s))
      | Ins3 o c => Some (goto t (Ins4 c) (set_map (put c o (map_ s)) (say (EPut t c o) s)))
      | Ins4 c =>
          match k with
          | Kotlin => Some (goto t Idle (say (ENew t c) s))
          | Locked => Some (goto t Idle (set_lock None (say (ENew t c) s)))
          end
      | Leave => Some (goto t Idle (set_lock None s))
      | LeaveFail =>
          match k with
          | Kotlin => Some (goto t Idle (say (EFail t) s))
          | Locked => Some (goto t Idle (set_lock None (say (EFail t) s)))
          end
      end
  end.

Fixpoint run (k : lang) (s : st) (xs : list op) : option st :=
  match xs with
  | [] => Some s
  | x :: xs' => match step k s x with Some s' => run k s' xs' | None => None end
  end.
