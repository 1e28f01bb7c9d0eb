(** * The foreign side is not told to poll again without a wake *)

From Verif Require Import Base Async_Model Async_Spec Async_Proofs Async_Proofs2 Async_Proofs3.

(** The activity is about to tell the foreign side to poll again. *)
Definition telling (a : act) : nat := match a with AInvoke _ CWake _ => 1 | _ => 0 end.
Arguments telling !a /.
Definition waked (x : sched) : nat := match x with SWaked => 1 | _ => 0 end.
Arguments waked !x /.

Definition inv_told (s : st) : Prop := told_again s + sum telling (acts s) + waked (sch s) <= wakes s.

Ltac calc5 := cbn [telling waked holding set_now b1 some is_kdrop is_kkeep is_kfree Nat.mul Nat.add] in *.

Lemma inv_told_step s o s' : inv_one s -> inv_told s -> step s o = Some s' -> inv_told s'.
Proof.
  intros O I H. pose proof (o_one _ O) as O2. unfold inv_told, told_again, wakes in *. destr_step H.
  1-10: injection H as <-; fields; rewrite ?sum_cons; counts; calc5; lia.
  pose proof (sum_remove telling _ _ _ Heqo) as R1.
  pose proof (sum_remove holding _ _ _ Heqo) as R2.
  go_cases H a; calc5; fields; rewrite ?sum_cons; counts; calc5; try rewrite Heqs0 in *; calc5; try lia.
  all: try (destruct c; calc5; lia).
Qed.

Lemma run_told : forall os s s', inv_ref s -> inv_log s -> inv_wake s -> inv_one s -> inv_told s ->
  one_at_a_time s os -> run s os = Some s' -> inv_told s'.
Proof.
  induction os as [|o os IH]; intros s s' R L W O I HO H; cbn [run one_at_a_time] in *.
  - injection H as <-. auto.
  - destruct HO as [HO1 HO2]. destruct (step s o) as [s1|] eqn:E; [|discriminate].
    eapply (IH s1); eauto using inv_ref_step, inv_log_step, inv_wake_step, inv_one_step, inv_told_step.
Qed.

Lemma not_told_in_vain os s : run init os = Some s -> one_at_a_time init os -> told_again s <= wakes s.
Proof.
  intros H O. assert (K : inv_told s); [|unfold inv_told in K; lia].
  eapply run_told; eauto using inv_ref_init, inv_log_init, inv_wake_init, inv_one_init. unfold inv_told. cbn. lia.
Qed.
