(** Where asynchronous calls in the JNI bindings go wrong. *)
From Verif Require Import Jasync_Model Jasync_Spec Jasync_Proofs Jasync_Main.

Ltac go R c := eapply reach_step in R; [| eapply c]; cbn in R.

(** The first poll finds the future pending and the coroutine sleeps. *)
Definition asleep (ca : bool) : st := ST (Set_ 1) Free 1 Asleep Sleeping 1 0 2 1 None false 0 ca.
Lemma asleep_reached : forall inl hr, reach inl hr (asleep false).
Proof.
  intros inl hr. pose proof (reach_init inl hr) as R. unfold init in R.
  go R begin_. go R check. go R hand_out. go R pending. go R store. go R holding. go R unlocking.
  go R returning_pending. go R block_suspended. exact R.
Qed.
(** It is woken, runs on in the thread of the waker, and wants the lock of the scheduler. *)
Definition locked : st := ST Empty (ByWaker Inside) 2 Undecided Check 0 0 3 1 None false 0 false.
Lemma locked_reached : forall hr, reach true hr locked.
Proof.
  intros hr. pose proof (asleep_reached true hr) as R. unfold asleep in R.
  go R wake. go R wake_lock. go R wake_take. go R wake_asleep. go R begin_. exact R.
Qed.
Lemma locked_stays : forall hr s, later true hr locked s -> at_ s = Check /\ lock s = ByWaker Inside.
Proof.
  intros hr s L. remember locked as s0 eqn:E. induction L as [s | k s1 s2 s3 L IH T]; [subst; split; reflexivity |].
  destruct (IH E) as [A B]. clear -A B T. destruct T; cbn [at_ lock] in *; subst; try discriminate; auto.
  destruct H as [H | [e H]]; discriminate H.
Qed.
Lemma locked_still : forall hr s, later true hr locked s -> still true hr s.
Proof.
  intros hr s L k s' K T. destruct (locked_stays hr s L) as [A B]. clear L.
  destruct T; cbn [at_ lock] in *; subst; try discriminate; try (exfalso; apply K; reflexivity).
  destruct H as [H | [e H]]; discriminate H.
Qed.
Lemma deadlocks : forall hr, exists s, reach true hr s /\ woken s = false /\ frees s = 0
  /\ forall s', later true hr s s' -> still true hr s' /\ ~ finished s'.
Proof.
  intros hr. exists locked. split; [apply locked_reached | split; [reflexivity | split; [reflexivity |]]]. intros s' L.
  split; [exact (locked_still hr s' L) |]. intros [e F]. destruct (locked_stays hr s' L) as [A _]. rewrite A in F. discriminate F.
Qed.

(** The coroutine is cancelled and nothing happens. *)
Lemma cancel_ignored : forall inl hr, exists s, reach inl hr s /\ cancelled s = true /\ still inl hr s /\ ~ finished s.
Proof.
  intros inl hr. exists (asleep true). pose proof (asleep_reached inl hr) as R. unfold asleep in *. go R cancel.
  split; [exact R | split; [reflexivity | split]].
  - intros k s' K T. inversion T; subst; try discriminate; apply K; reflexivity.
  - intros [e F]. discriminate F.
Qed.

(** The result [null] is not delivered. *)
Lemma null_lost : forall inl, exists s, reach inl true s /\ ended s = Some (Ready None) /\ at_ s = Finished NullPointer.
Proof.
  intros inl. pose proof (reach_init inl true) as R. unfold init in R.
  go R begin_. go R check. eapply reach_step in R; [| eapply (ready inl true) with (r := Ready None)]. cbn in R.
  go R returning_complete. go R block_resumed. go R over. go R freeing.
  eexists. split; [exact R | split; reflexivity].
Qed.

(** The sender is used twice, or never freed. *)
Lemma used_twice : exists throws a, uses (snd (start_call throws a)) = 2.
Proof. exists false, (Call Fine Fine (Coroutine true Fine (Returns 1 Fine (Fails "bad value") true))). reflexivity. Qed.
Lemma leaked : exists throws a, clean a /\ In Leaked (snd (start_call throws a)).
Proof. exists false, (Call Fine (Fails "no memory") (Coroutine true Fine (Returns 1 Fine Fine false))). split; [reflexivity | now left]. Qed.
Lemma message_lost : forall throws m1 m2,
  awaited throws (Call Fine Fine (Coroutine true Fine (ThrowsOther m1))) = awaited throws (Call Fine Fine (Coroutine true Fine (ThrowsOther m2))).
Proof. reflexivity. Qed.
