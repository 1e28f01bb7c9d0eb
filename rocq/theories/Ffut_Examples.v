(** * Runs of a foreign future *)

From Verif Require Import Base Ffut_Model Ffut_Spec.

(** The result arrives after the first poll: pending, woken, ready. *)
Definition late : list op :=
  [Poll 1; Setup true; GoRust; Complete 42; GoSend 0; GoSend 0; GoSend 0; Poll 2; GoRust; GoRust; GoRust].

Example late_runs : exists s, run init late = Some s /\ over s /\ completed s /\
  rev (log s) = [ECall; ESetup true; EPending 1; ESent 42; EWoke 1; EFreed None; EDropped; EReady 42].
Proof. eexists. split; [vm_compute; reflexivity|]. vm_compute. intuition. Qed.

(** The result arrives while the foreign function is still being called. *)
Definition early : list op :=
  [Poll 1; Complete 42; GoSend 0; Setup true; GoSend 0; GoRust; GoRust; GoRust].

Example early_runs : exists s, run init early = Some s /\ over s /\ completed s /\
  rev (log s) = [ECall; ESent 42; ESetup true; EFreed None; EDropped; EReady 42].
Proof. eexists. split; [vm_compute; reflexivity|]. vm_compute. intuition. Qed.

(** The wake is still to come while the task already took the value. *)
Example overlapping : exists s,
  run init [Poll 1; Setup true; GoRust; Complete 42; GoSend 0; Poll 2; GoRust; GoSend 0; GoRust; GoSend 0; GoRust] = Some s /\
  In (EReady 42) (log s) /\ In (EWoke 1) (log s) /\ completed s /\ over s.
Proof. eexists. split; [vm_compute; reflexivity|]. vm_compute. intuition. Qed.

(** Waiting, with the result sent: the hypotheses of the wake-up theorem. *)
Example woken_waiting : exists s,
  run init [Poll 1; Setup true; GoRust; Complete 42; GoSend 0; GoSend 0; GoSend 0] = Some s /\
  completed s /\ fut s = RWait /\ wake_arrived s /\ In (ESent 42) (log s).
Proof. eexists. split; [vm_compute; reflexivity|]. vm_compute. intuition. exists 1. auto. Qed.

(** Dropped early, then completed. *)
Definition dropped_early : list op :=
  [Poll 1; Setup true; GoRust; DropFuture; GoRust; GoRust; Complete 42; GoSend 0; GoSend 0; GoSend 0].

Example dropped_early_runs : exists s, run init dropped_early = Some s /\ over s /\ completed s /\
  rev (log s) = [ECall; ESetup true; EPending 1; EDropped; ESent 42; EWoke 1; EFreed (Some 42%Z)].
Proof. eexists. split; [vm_compute; reflexivity|]. vm_compute. intuition. Qed.

(** Dropped before it was ever polled: the foreign method is never called. *)
Example never_polled : exists s, run init [DropFuture] = Some s /\ over s /\ calls s = 0.
Proof. eexists. split; [vm_compute; reflexivity|]. vm_compute. intuition. Qed.

(** A method that has been called and has not completed. *)
Example not_completing : exists s,
  run init [Poll 1; Setup true; GoRust] = Some s /\ calls s = 1 /\ right s = true /\
  exists s', run s [Poll 2; GoRust; Poll 3; GoRust] = Some s' /\ readies s' = 0.
Proof.
  eexists. split; [vm_compute; reflexivity|]. split; [reflexivity|]. split; [reflexivity|].
  eexists. split; [vm_compute; reflexivity|]. reflexivity.
Qed.

(** The helpers on outcomes that lower. *)
Example lowering_outcomes :
  lowers (fun v => (v <? 256)%Z) (fun _ => true) (Returns 7) /\
  lowers (fun v => (v <? 256)%Z) (fun _ => true) (Throws 3) /\ Returns 7 <> IsCancelled.
Proof. vm_compute. intuition discriminate. Qed.
