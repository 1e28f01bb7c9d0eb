(** Cases that meet the hypotheses of the theorems about asynchronous calls in the JNI bindings. *)
From Verif Require Import Jasync_Model Jasync_Spec Jasync_Proofs Jasync_Main Jasync_Refute.

(** A future that is pending once, is woken by another thread and then gives 7; a waker is dropped last. *)
Lemma example_run : exists s, reach false true s /\ at_ s = Finished (Gives (Some 7%Z)) /\ ended s = Some (Ready (Some 7%Z)) /\ ~ points s.
Proof.
  pose proof (asleep_reached false true) as R. unfold asleep in R.
  go R wake. go R wake_lock. go R wake_take. go R wake_asleep. go R dispatched. go R wake_delete. go R again. go R begin_.
  go R wake_unlock. go R check. eapply reach_step in R; [| eapply (ready false true) with (r := Ready (Some 7%Z))]. cbn in R.
  go R returning_complete. go R block_resumed. go R over. go R freeing.
  eexists. split; [exact R |]. split; [reflexivity |]. split; [reflexivity |].
  intros [P | [P | [P | [w P]]]]; cbn in P; [exact (P _ eq_refl) | lia | lia | discriminate P].
Qed.
(** A thread is about to resume a coroutine that sleeps, and one that does not sleep yet. *)
Lemma example_resume : exists s, reach false true s /\ resumes s 1 /\ saf s = Asleep.
Proof.
  pose proof (asleep_reached false true) as R. unfold asleep in R. go R wake. go R wake_lock. go R wake_take.
  eexists. split; [exact R |]. split; [left; reflexivity | reflexivity].
Qed.
Lemma example_early : exists s, reach false true s /\ resumes s 1 /\ saf s = Undecided.
Proof.
  pose proof (reach_init false true) as R. unfold init in R.
  go R begin_. go R check. go R hand_out. go R wake. go R pending. go R wake_lock. go R wake_take. go R wake_unlock. go R store. go R holding.
  eexists. split; [exact R |]. split; [right; reflexivity | reflexivity].
Qed.
(** The future ended and a waker is still there. *)
Lemma example_late : exists s, reach false true s /\ finished s /\ points s.
Proof.
  pose proof (reach_init false true) as R. unfold init in R.
  go R begin_. go R check. go R hand_out. eapply reach_step in R; [| eapply (ready false true) with (r := Failed 3%Z)]. cbn in R.
  go R returning_raised. go R freeing. eexists. split; [exact R |]. split; [eexists; reflexivity |]. right. left. cbn. lia.
Qed.
(** A woken call that goes on to the next poll. *)
Lemma example_again : exists s s', reach false true s /\ woken s = true /\ at_ s = Sleeping /\ steps false true s s' /\ at_ s' = Top.
Proof.
  pose proof (asleep_reached false true) as R. unfold asleep in R. go R wake.
  match type of R with reach _ _ ?s => pose proof (no_steps false true s) as T end.
  Ltac on T c := eapply more_steps in T; [| eapply c]; cbn in T.
  on T wake_lock. on T wake_take. on T wake_asleep. on T dispatched. on T again.
  eexists. eexists. split; [exact R |]. split; [reflexivity |]. split; [reflexivity |]. split; [exact T | reflexivity].
Qed.
(** Rust awaits a coroutine that throws an error of its interface. *)
Definition example_call : async_call := Call Fine Fine (Coroutine true Fine (ThrowsDeclared 4 Fine Fine false)).
Lemma example_answer : answer true example_call = SError 4 /\ clean example_call.
Proof. split; reflexivity. Qed.
