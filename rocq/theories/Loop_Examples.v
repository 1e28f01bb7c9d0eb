(** * Runs of the foreign loop *)

From Verif Require Import Base Async_Model Async_Spec Loop_Model Loop_Spec.

(** The future is pending at first and hands its waker out; the wake comes; the loop is
    resumed, polls again, gets "ready", completes and frees. *)
Definition normal : list fop :=
  [Task; Rust (Go 0 RPending); Rust (Go 0 RPending); Rust HandOut; Rust (Go 0 RPending); Rust (Go 0 RPending);
   Rust (Wake true); Rust (Go 0 RPending); Rust (Go 0 RPending); Deliver 0; Task;
   Task; Rust (Go 0 RPending); Rust (Go 0 RPending); Rust (Go 0 (RDone (ORet 7))); Rust (Go 0 RPending); Deliver 0; Task;
   Task; Rust (Go 0 RPending); Task; Task; Rust (Go 0 RPending); Rust (Go 0 RPending)].

Example normal_runs : exists s, frun finit normal = Some s /\ pc s = TEnd /\ settled s /\ ext (rust s) = 0 /\
  rev (flog s) = [FPoll 0; FResume 0 CWake; FPoll 1; FResume 1 CReady; FComplete; FFree] /\
  In (EComplete (Some (ORet 7))) (log (rust s)).
Proof. eexists. split; [vm_compute; reflexivity|]. vm_compute. intuition. Qed.

(** The task is cancelled while the continuation waits in Rust: free calls it back and
    empties the map. *)
Definition cancelled_run : list fop :=
  [Task; Rust (Go 0 RPending); Rust (Go 0 RPending); Rust HandOut; Rust (Go 0 RPending); Rust (Go 0 RPending);
   CancelTask; Task; Rust (Go 0 RPending); Rust (Go 0 RPending); Rust (Go 0 RPending); Deliver 0; Rust DropWaker].

Example cancelled_runs : exists s, frun finit cancelled_run = Some s /\ pc s = TEnd /\ settled s /\ ext (rust s) = 0 /\
  rev (flog s) = [FPoll 0; FCancelled; FFree] /\ In (EInvoke 0 CReady) (log (rust s)) /\ conts s = [].
Proof. eexists. split; [vm_compute; reflexivity|]. vm_compute. intuition. Qed.

(** A task that rightly waits. *)
Example waiting : exists s,
  frun finit [Task; Rust (Go 0 RPending); Rust (Go 0 RPending); Rust HandOut; Rust (Go 0 RPending); Rust (Go 0 RPending)] = Some s /\
  settled s /\ pc s = TAwait 0 /\ fstep s Task = None.
Proof. eexists. split; [vm_compute; reflexivity|]. vm_compute. intuition. Qed.
