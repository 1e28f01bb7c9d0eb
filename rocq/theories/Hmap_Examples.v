(** * Histories that meet the hypotheses of the handle map theorems *)

From Verif Require Import Base Hmap_Model Hmap_Spec.

Definition final (k : lang) (xs : list op) : st := match run k init xs with Some s => s | None => init end.

(** Two Kotlin threads insert at the same time and store in the opposite order;
    one clones the other's handle, which is removed in between. *)
Definition ex_kotlin : list op :=
  [ Call 0 (Insert 10%Z); Call 1 (Insert 20%Z); Go 0; Go 1; Go 0; Go 1; Go 1; Go 0; Go 1; Go 0;
    Call 0 (Clone 3%Z); Go 0; Call 1 (Remove 3%Z); Go 1; Call 1 (Get 3%Z); Go 1; Go 0; Go 0; Go 0;
    Call 1 (Get 5%Z); Go 1; Call 2 (Clone 3%Z); Go 2; Go 2; Call 2 Size; Go 2 ].

Example ex_kotlin_reachable : reachable Kotlin (final Kotlin ex_kotlin).
Proof. exists ex_kotlin. split; [vm_compute; reflexivity|]. intros _. vm_compute. reflexivity. Qed.

Example ex_kotlin_log : rev (log (final Kotlin ex_kotlin)) =
  [ ECall 0 (Insert 10); ECall 1 (Insert 20); EPut 1 3 20; EPut 0 1 10; ENew 1 3; ENew 0 1;
    ECall 0 (Clone 3); ERead 0 3 (Some 20%Z); ECall 1 (Remove 3); ERem 1 3 (Some 20%Z); ECall 1 (Get 3); EGot 1 3 None;
    EPut 0 5 20; ENew 0 5; ECall 1 (Get 5); EGot 1 5 (Some 20%Z); ECall 2 (Clone 3); ERead 2 3 None; EFail 2;
    ECall 2 Size; ESize 2 2 ]%Z.
Proof. vm_compute. reflexivity. Qed.

(** The same with a lock: thread 1 has to wait. *)
Definition ex_locked : list op :=
  [ Call 0 (Insert 10%Z); Call 1 (Insert 20%Z); Go 0; Go 0; Go 0; Go 0; Go 0; Go 0; Go 1; Go 1; Go 1; Go 1; Go 1; Go 1;
    Call 0 (Clone 3%Z); Call 1 (Remove 3%Z); Go 0; Go 0; Go 0; Go 0; Go 0; Go 0; Go 1; Go 1; Go 1;
    Call 2 (Clone 3%Z); Go 2; Go 2 ].

Example ex_locked_reachable : reachable Locked (final Locked ex_locked).
Proof. exists ex_locked. split; [vm_compute; reflexivity | discriminate]. Qed.

Example ex_locked_removed : removals 3%Z (log (final Locked ex_locked)) = 1 /\ lock (final Locked ex_locked) = Some 2.
Proof. vm_compute. auto. Qed.
