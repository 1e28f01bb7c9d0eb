(** Calls in both directions, to some depth. *)
From Verif Require Import Jcall_Model Jcall_Spec.
From Coq Require Import List ZArith String Bool.
Import ListNotations.
Open Scope string_scope.
Open Scope list_scope.
Open Scope Z_scope.

Definition at_rest (l : list Z) : st := ST None 0 true nil false l 0.
Lemma at_rest_ready : forall l, ready (at_rest l).
Proof. intros l. split; reflexivity. Qed.

Definition adds : func := Func RPrim (Some "liftMyError") "adds".
Definition names : func := Func (RParts "liftString") (Some "liftMyError") "names".
Definition notify : meth := Meth RPrim true true "notify".
Definition describe : meth := Meth (RParts "describe") true false "describe".

(** Kotlin passes an object; Rust calls it, its implementation calls Rust, which panics; the implementation
    catches that and throws an error of the interface; Rust drops the object and returns the error as a value. *)
Definition inner : rust := RPanic "inner" nil.
Definition implementation : kotlin :=
  KCall names [Passed 1 [(LString, Fine)]] inner (fun r =>
    KEnd (match r with inl v => KotlinReturned (Passed v nil) | inr _ => KotlinFailed (Passed 33 [(LBuffer, Fine)]) end)).
Definition outer : rust :=
  RCall notify 12 [Built 4 [(LString, Fine)] None] implementation [12] (fun a =>
    RDrop 12 (REnd (match a with Value v => Returned (Built v nil None) | Err e => Returned (Built (e + 1) nil None) end))).
Lemma outer_calm : calm_rust outer.
Proof.
  cbn. split; [| split].
  - intros b [<- | []] p [<- | []]. exact I.
  - split; [exact I | intros [v | x] p; [intros [] | intros [<- | []]; exact I]].
  - intros a. destruct a; exact I.
Qed.
Lemma outer_result : call_spec none adds [Passed 12 [(LObject 12, Fine)]] (rust_spec none same outer) [5] = (inl 34, [5]).
Proof. vm_compute. reflexivity. Qed.
Lemma outer_ran : fst (call fine_vm none same adds [Passed 12 [(LObject 12, Fine)]] outer (at_rest [5])) = Done (inl 34).
Proof. vm_compute. reflexivity. Qed.
(** What it comes to when the object is not there. *)
Lemma outer_gone : fst (rust_spec none same outer [5]) = inl (Returned (Built 8 nil None)).
Proof. vm_compute. reflexivity. Qed.

Definition fails : rust := REnd (Failed (Built 9 [(LString, Fine)] None)).
Lemma fails_result : call_spec none names [Passed 1 [(LString, Fine)]] (rust_spec none same fails) nil = (inr (Declared 9), nil).
Proof. vm_compute. reflexivity. Qed.
Definition succeeds : rust := REnd (Returned (Built 9 [(LString, Fine)] None)).
Definition two : list passed := [Passed 1 [(LString, Fine)]; Passed 2 [(LObject 2, Fine); (LArray, Refused "bad")]].
Lemma two_result : call_spec none names two (rust_spec none same succeeds) [6] = (inr (Internal "bad"), [6]).
Proof. vm_compute. reflexivity. Qed.
