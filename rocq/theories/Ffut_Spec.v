(** * What the properties about foreign futures talk about: events only (newest first) *)

From Verif Require Import Base Ffut_Model.

Definition reachable (s : st) : Prop := exists os, run init os = Some s.

Definition count (p : event -> bool) (l : list event) : nat := length (filter p l).
(** How often the foreign method was called, a completion stored its result, a poll returned
    Ready, the dropped-callback ran, and the channel was deallocated. *)
Definition calls (s : st) : nat := count (fun e => match e with ECall => true | _ => false end) (log s).
Definition sents (s : st) : nat := count (fun e => match e with ESent _ => true | _ => false end) (log s).
Definition readies (s : st) : nat := count (fun e => match e with EReady _ => true | _ => false end) (log s).
Definition drops (s : st) : nat := count (fun e => match e with EDropped => true | _ => false end) (log s).
Definition frees (s : st) : nat := count (fun e => match e with EFreed _ => true | _ => false end) (log s).
(** Results thrown away with the channel, never seen by Rust. *)
Definition discards (s : st) : nat := count (fun e => match e with EFreed (Some _) => true | _ => false end) (log s).

(** The waker of the last poll that returned Pending ... *)
Fixpoint last_pending (l : list event) : option wid :=
  match l with
  | [] => None
  | EPending w :: _ => Some w
  | _ :: l' => last_pending l'
  end.
(** ... and whether [w] was woken after it. *)
Fixpoint woken_since (w : wid) (l : list event) : Prop :=
  match l with
  | [] | EPending _ :: _ => False
  | EWoke w' :: l' => w' = w \/ woken_since w l'
  | _ :: l' => woken_since w l'
  end.
Definition wake_arrived (s : st) : Prop :=
  exists w, last_pending (log s) = Some w /\ woken_since w (log s).

(** The foreign code has completed and its completion call has returned. *)
Definition completed (s : st) : Prop := sends s = [] /\ 0 < sents s.

(** The future is over: it returned Ready, or was dropped. *)
Definition over (s : st) : Prop := fut s = RFin \/ fut s = RGone.

(** The Rust side advancing by itself, without the foreign code. *)
Definition rust_side (o : op) : Prop := o = GoRust \/ exists w, o = Poll w.

(** ** The foreign side *)

(** What the method's outcome should become. *)
Definition expected_plain (r : result) : completion :=
  match r with Returns v => Success v | _ => UnexpectedError end.
Definition expected_with_error (r : result) : completion :=
  match r with Returns v => Success v | Throws e => DeclaredError e | _ => UnexpectedError end.

(** Nothing goes wrong while lowering the outcome. *)
Definition lowers (lower lower_e : Z -> bool) (r : result) : Prop :=
  match r with Returns v => lower v = true | Throws e => lower_e e = true | _ => True end.
