(** * Properties of the event log of the async machine *)

From Verif Require Import Base Async_Model Async_Spec Async_Proofs.

(** Functions of the log which do not look at memory events. *)
Class skips {A} (f : list event -> A) : Prop := {
  skip_bad : forall l, f (EBad :: l) = f l;
  skip_dealloc : forall l, f (EDealloc :: l) = f l }.

Section Skips.
  Context {A : Type} (f : list event -> A) {F : skips f}.
  Lemma dec_f s : f (log (dec s)) = f (log s).
  Proof. unfold dec. destruct (strong s) as [|[|n]]; cbn; rewrite ?skip_bad, ?skip_dealloc; auto. Qed.
  Lemma inc_f s : f (log (inc s)) = f (log s).
  Proof. unfold inc. destruct (strong s) as [|n]; cbn; rewrite ?skip_bad; auto. Qed.
  Lemma touch_f s : f (log (touch s)) = f (log s).
  Proof. unfold touch. destruct (strong s) as [|n]; cbn; rewrite ?skip_bad; auto. Qed.
  Lemma df_f s : f (log (drop_future s)) = f (log s).
  Proof. apply (iter_dec (fun s => f (log s)) dec_f). Qed.
End Skips.

#[global] Instance skips_woken : skips woken. Proof. split; reflexivity. Qed.
#[global] Instance skips_signalled : skips signalled. Proof. split; reflexivity. Qed.
#[global] Instance skips_cancelled : skips cancelled. Proof. split; reflexivity. Qed.
#[global] Instance skips_early cb : skips (polled_early cb). Proof. split; reflexivity. Qed.
#[global] Instance skips_available : skips available. Proof. split; reflexivity. Qed.
#[global] Instance skips_results : skips results_right. Proof. split; reflexivity. Qed.
#[global] Instance skips_usable : skips usable. Proof. split; reflexivity. Qed.
#[global] Instance skips_busy : skips busy. Proof. split; reflexivity. Qed.
#[global] Instance skips_polls : skips polls_right. Proof. split; reflexivity. Qed.

(** [lg f] computes [f] of the log of a new state. *)
Ltac lg f := repeat (progress (rewrite ?(dec_f f), ?(inc_f f), ?(touch_f f), ?(df_f f); rec_simp)).

(** ** The log determines the future's state *)

Record inv_log (s : st) : Prop := {
  l_res : res s = available (log s);
  l_fut : fut s = usable (log s);
  l_locked : locked s = busy (log s);
  l_cancel : is_cancelled (sch s) = cancelled (log s);
  l_results : results_right (log s);
  l_polls : polls_right (log s) }.

Lemma inv_log_init : inv_log init. Proof. split; cbn; auto. Qed.

Ltac lgs := repeat (progress (lg available; lg usable; lg busy; lg cancelled; lg results_right; lg polls_right;
  cbn [available usable busy cancelled results_right polls_right])).

Lemma inv_log_step s o s' : inv_ref s -> inv_log s -> step s o = Some s' -> inv_log s'.
Proof.
  intros R [L1 L2 L3 L4 L5 L6] H. destr_step H.
  1-10: injection H as <-; constructor; fields; lgs; cbn [available usable busy cancelled results_right polls_right]; auto.
  assert (Hp : polling a <= sum polling (acts s)) by (apply sum_in; eapply nth_in; eauto).
  rewrite (r_lock _ R) in Hp.
  assert (Hr : locked s = true -> fut s = true /\ res s = None) by apply R.
  go_cases H a; cbn [polling] in Hp.
  all: try (destruct (locked s) eqn:Hl; cbn [b1] in Hp; [destruct (Hr eq_refl) as [Hf Hn]|lia]).
  all: constructor; fields; lgs; cbn [available usable busy cancelled results_right polls_right is_cancelled]; 
    cbn [is_cancelled] in *; repeat split; auto; try congruence.
Qed.

Lemma reach_log s : reachable s -> inv_log s.
Proof. apply reach_inv; [apply inv_log_init | intros; eapply inv_log_step; eauto]. Qed.
