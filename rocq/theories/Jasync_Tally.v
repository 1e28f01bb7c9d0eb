(** The future is not polled without a wake. *)
From Verif Require Import Jasync_Model Jasync_Spec Jasync_Proofs Jasync_Main.

Section mode.
Variable inline has_result : bool.

(** The polls that are still owed for a wake, or for the start. *)
Definition of_lock (l : holder) : nat := match l with ByWaker Take | ByWaker (Resume _) => 1 | _ => 0 end.
Definition of_sched (s : sched) : nat := match s with Waked => 1 | _ => 0 end.
Definition of_safe (f : safe) : nat := match f with Resumed false => 1 | _ => 0 end.
Definition of_pc (p : pc) (f : safe) : nat :=
  match p with
  | Top | Runnable | After false | Resuming _ => 1
  | Unlocking | Returning Pending | BlockEnds => of_safe f
  | _ => 0
  end.
Definition owed (s : st) : nat := waiting s + of_lock (lock s) + of_sched (sch s) + of_pc (at_ s) (saf s).

Lemma tallied_reach : forall p w s, tallied inline has_result p w s -> reach inline has_result s.
Proof. induction 1; [apply reach_init | | |]; eapply reach_step; eassumption. Qed.
Lemma owed_poll : forall s s', step inline has_result Begin s s' -> S (owed s') = owed s.
Proof. intros s s' T. inversion T; subst; unfold owed; cbn; lia. Qed.
Lemma owed_env : forall s s', step inline has_result Env s s' -> owed s' + waiting s = owed s + waiting s'.
Proof. intros s s' T. inversion T; subst; unfold owed; cbn; lia. Qed.
Lemma owed_sys : forall s s', reach inline has_result s -> step inline has_result Sys s s' -> owed s' <= owed s.
Proof.
  intros s s' R T. pose proof (inv_reach _ _ s R) as [Sh Sc _ _ _]. unfold shape in Sh.
  inversion T; subst; cbn [at_ sch saf] in *; unfold owed; cbn [waiting lock sch at_ saf of_lock of_sched of_pc of_safe]; try lia.
  all: try solve [destruct s1; cbn; lia].
  all: try solve [destruct r; cbn; lia].
  all: try solve [destruct b; cbn; lia].
  all: try solve [destruct inline; cbn; lia].
  all: try solve [destruct p as [| | | | | k | | [| v | e] | | | | [|] | e | e]; cbn; lia].
  - cbn [shape_of] in Sh. destruct Sh as ((K & _) & F & _). subst f. destruct s1; cbn in *; try lia; try discriminate K. now destruct Sc.
Qed.
Lemma tally : forall p w s, tallied inline has_result p w s -> p + owed s <= S w.
Proof.
  induction 1 as [| p w s s' A IH T | p w s s' A IH T E | k p w s s' A IH T E].
  - unfold owed. cbn. lia.
  - pose proof (owed_poll _ _ T). lia.
  - pose proof (owed_env _ _ T). lia.
  - destruct E as [-> | [-> E]]; [pose proof (owed_sys _ _ (tallied_reach _ _ _ A) T) | pose proof (owed_env _ _ T)]; lia.
Qed.
Lemma not_in_vain : forall p w s, tallied inline has_result p w s -> p <= S w.
Proof. intros p w s T. pose proof (tally _ _ _ T). lia. Qed.
End mode.

(** A future that is polled twice, after one wake. *)
Lemma example_tally : exists s, tallied false true 2 1 s.
Proof.
  pose proof (tally_start false true) as R. unfold init in R.
  Ltac sys R c := eapply (tally_other false true Sys) in R; [| eapply c | now left]; cbn in R.
  Ltac poll R := eapply tally_poll in R; [| eapply begin_]; cbn in R.
  poll R. sys R check. eapply (tally_other false true Env) in R; [| eapply hand_out | right; split; reflexivity]. cbn in R.
  eapply tally_wake in R; [| eapply wake | reflexivity]. cbn in R.
  sys R pending. sys R wake_lock. sys R wake_take. sys R wake_unlock. sys R store. sys R holding. sys R resuming. sys R unlocking.
  sys R returning_pending. sys R block_resumed. sys R again. poll R. eexists. exact R.
Qed.
