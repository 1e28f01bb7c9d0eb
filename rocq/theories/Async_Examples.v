(** * Concrete schedules: the hypotheses of the async theorems can be met *)

From Verif Require Import Base Async_Model Async_Spec.

Notation G i := (Go i RPending).

(** A future that is polled twice: the first poll hands a waker to another
    thread and is pending; the wake arrives between the poll of the future and
    the storing of the continuation; the second poll finishes with 42; the
    foreign side completes and frees. *)
Definition ex_sched : list op :=
  [Poll 7; G 0; G 0; HandOut; Stash; Wake true; G 1; G 0; G 0; G 0;
   Poll 8; G 0; G 0; Go 0 (RDone (ORet 42)); G 0;
   Complete; G 0; Free; G 0; G 0].

Definition ex_log : list event :=
  [EDealloc; EFree; ECancel; EComplete (Some (ORet 42)); EInvoke 8 CReady; EInnerDone (ORet 42); EInner 8; EPoll 8;
   EInvoke 7 CWake; EWake; EInnerPending; EInner 7; EPoll 7].

Example ex_run : exists s, run init ex_sched = Some s /\ log s = ex_log /\ quiescent s
  /\ deallocs s = 1 /\ cancelled (log s) = true.
Proof. eexists. vm_compute. repeat split. Qed.

Example ex_one : one_at_a_time init ex_sched.
Proof. vm_compute. tauto. Qed.

(** The state just after the first continuation fired: quiescent and woken. *)
Example ex_woken : exists s, run init (firstn 10 ex_sched) = Some s /\ quiescent s /\ woken (log s) = true.
Proof. eexists. vm_compute. repeat split. Qed.

(** Two concurrent polls, both pending: the displaced continuation is called
    back, and one keeps waiting. *)
Definition ex_two : list op :=
  [Poll 1; Poll 2; G 0; G 0; HandOut; G 0; G 0; G 0; G 0; G 0; G 0; G 0].

Example ex_two_run : exists s, run init ex_two = Some s /\ quiescent s /\ polls s = 2 /\ invokes s = 1
  /\ log s = [EInvoke 2 CWake; EInnerPending; EInner 1; EInnerPending; EInner 2; EPoll 2; EPoll 1].
Proof. eexists. vm_compute. repeat split. Qed.

(** A waiting continuation, and a cancellation. *)
Definition ex_wait : list op := [Poll 3; G 0; G 0; G 0; G 0].

Example ex_wait_run : exists s s1 s2, run init ex_wait = Some s /\ quiescent s /\ polled 3 s = invoked 3 s + 1
  /\ step s Cancel = Some s1 /\ run s1 [G 0; G 0] = Some s2 /\ quiescent s2 /\ log s2 = EInvoke 3 CReady :: ECancel :: log s.
Proof. do 3 eexists. vm_compute. repeat split. Qed.

(** Then a poll after the cancellation. *)
Example ex_late_run : exists s, run init (ex_wait ++ [Cancel; G 0; G 0; Poll 4; G 0; G 0; Complete; G 0]) = Some s
  /\ polled_early 4 (log s) = false /\ polled 4 s = 1
  /\ log s = [EComplete None; EInvoke 4 CReady; EPoll 4; EInvoke 3 CReady; ECancel; EInnerPending; EInner 3; EPoll 3].
Proof. eexists. vm_compute. repeat split. Qed.
