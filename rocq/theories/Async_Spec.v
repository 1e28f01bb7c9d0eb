(** * What the properties of Rust futures talk about: events only *)

From Verif Require Import Base Async_Model.

(** A state some schedule reaches. *)
Definition reachable (s : st) : Prop := exists os, run init os = Some s.

(** Nothing is in progress: every call and every wake has returned. *)
Definition quiescent (s : st) : Prop := acts s = [].

Definition is_poll_of (cb : cbid) (e : event) : bool :=
  match e with EPoll c => Nat.eqb c cb | _ => false end.
Definition is_invoke_of (cb : cbid) (e : event) : bool :=
  match e with EInvoke c _ => Nat.eqb c cb | _ => false end.

Definition count (p : event -> bool) (l : list event) : nat := length (filter p l).

(** How often [cb] was handed to poll, and how often it was called back. *)
Definition polled (cb : cbid) (s : st) : nat := count (is_poll_of cb) (log s).
Definition invoked (cb : cbid) (s : st) : nat := count (is_invoke_of cb) (log s).

(** Any callback at all. *)
Definition polls (s : st) : nat :=
  count (fun e => match e with EPoll _ => true | _ => false end) (log s).
Definition invokes (s : st) : nat :=
  count (fun e => match e with EInvoke _ _ => true | _ => false end) (log s).

Definition deallocs (s : st) : nat :=
  count (fun e => match e with EDealloc => true | _ => false end) (log s).
Definition results (s : st) : nat :=
  count (fun e => match e with EComplete (Some _) => true | _ => false end) (log s).
Definition dones (s : st) : nat :=
  count (fun e => match e with EInnerDone _ => true | _ => false end) (log s).

(** A wake happened after the last time the user's future started being polled.
    Logs are newest first. *)
Fixpoint woken (l : list event) : bool :=
  match l with
  | [] => false
  | EInner _ :: _ => false
  | EWake :: _ => true
  | _ :: l' => woken l'
  end.

(** A continuation was called back after the last time the user's future
    started being polled. *)
Fixpoint signalled (l : list event) : bool :=
  match l with
  | [] => false
  | EInner _ :: _ => false
  | EInvoke _ _ :: _ => true
  | _ :: l' => signalled l'
  end.

(** The future was cancelled (by cancel or by free). *)
Fixpoint cancelled (l : list event) : bool :=
  match l with
  | [] => false
  | ECancel :: _ => true
  | _ :: l' => cancelled l'
  end.

(** [cb] was handed to poll at a time the future had not been cancelled yet. *)
Fixpoint polled_early (cb : cbid) (l : list event) : bool :=
  match l with
  | [] => false
  | EPoll c :: l' => (Nat.eqb c cb && negb (cancelled l')) || polled_early cb l'
  | _ :: l' => polled_early cb l'
  end.

(** The result a complete call has to deliver: what the user's future
    finished with, unless it was already delivered or thrown away. *)
Fixpoint available (l : list event) : option outcome :=
  match l with
  | [] => None
  | EInnerDone o :: _ => Some o
  | EComplete _ :: _ => None
  | EFree :: _ => None
  | _ :: l' => available l'
  end.

(** Every complete call delivered exactly that. *)
Fixpoint results_right (l : list event) : Prop :=
  match l with
  | [] => True
  | EComplete o :: l' => o = available l' /\ results_right l'
  | _ :: l' => results_right l'
  end.

(** The user's future exists and has not finished. *)
Fixpoint usable (l : list event) : bool :=
  match l with
  | [] => true
  | EInnerDone _ :: _ => false
  | EComplete _ :: _ => false
  | EFree :: _ => false
  | _ :: l' => usable l'
  end.

(** The user's future is being polled right now. *)
Fixpoint busy (l : list event) : bool :=
  match l with
  | [] => false
  | EInner _ :: _ => true
  | EInnerPending :: _ => false
  | EInnerDone _ :: _ => false
  | _ :: l' => busy l'
  end.

(** The executor contract of [Future]: polls start only on a future that still
    exists and has not finished, never while another poll is running, and the
    future is never dropped during a poll. *)
Fixpoint polls_right (l : list event) : Prop :=
  match l with
  | [] => True
  | EInner _ :: l' => usable l' = true /\ busy l' = false /\ polls_right l'
  | EInnerPending :: l' => busy l' = true /\ usable l' = true /\ polls_right l'
  | EInnerDone _ :: l' => busy l' = true /\ usable l' = true /\ polls_right l'
  | EComplete _ :: l' => busy l' = false /\ polls_right l'
  | EFree :: l' => busy l' = false /\ polls_right l'
  | _ :: l' => polls_right l'
  end.

(** The foreign side polls one continuation at a time: it calls poll only when
    every continuation it handed over before has been called back. *)
Fixpoint one_at_a_time (s : st) (os : list op) : Prop :=
  match os with
  | [] => True
  | o :: os' =>
      match o with Poll _ => polls s = invokes s | _ => True end
      /\ match step s o with Some s' => one_at_a_time s' os' | None => True end
  end.

(** The step advances something already in progress, rather than starting a
    new call or using a waker. *)
Definition is_go (o : op) : bool := match o with Go _ _ => true | _ => false end.

Definition is_ready_of (cb : cbid) (e : event) : bool :=
  match e with EInvoke c CReady => Nat.eqb c cb | _ => false end.

(** How often the foreign side was told to poll again, and how often the future was woken. *)
Definition told_again (s : st) : nat :=
  count (fun e => match e with EInvoke _ CWake => true | _ => false end) (log s).
Definition wakes (s : st) : nat :=
  count (fun e => match e with EWake => true | _ => false end) (log s).
