(** * The async properties in final form *)

From Verif Require Import Base Async_Model Async_Spec Async_Proofs Async_Proofs2 Async_Proofs3.

(** ** Total counts *)

Definition inv_all (s : st) : Prop := polls s = invokes s + sum holding (acts s) + set_now (sch s).

Lemma inv_all_step s o s' : inv_ref s -> inv_all s -> step s o = Some s' -> inv_all s'.
Proof.
  intros _ I H. unfold inv_all, polls, invokes in *. destr_step H.
  1-10: injection H as <-; fields; rewrite ?sum_cons; counts; calc4; lia.
  pose proof (sum_remove holding _ _ _ Heqo) as R1.
  go_cases H a; calc4; fields; rewrite ?sum_cons; counts; calc4; try rewrite Heqs0 in *; calc4; lia.
Qed.

Lemma reach_all s : reachable s -> inv_all s.
Proof. apply reach_inv; [reflexivity | intros; eapply inv_all_step; eauto]. Qed.

Lemma sum_nil f s : quiescent s -> sum f (acts s) = 0.
Proof. intros ->. reflexivity. Qed.

(** ** C21 *)

Lemma at_most_once s cb : reachable s -> invoked cb s <= polled cb s.
Proof. intros H. rewrite (reach_cb s H cb). lia. Qed.

Lemma quiet_one_waiting s : reachable s -> quiescent s -> polls s <= invokes s + 1.
Proof.
  intros H Q. rewrite (reach_all s H), (sum_nil _ _ Q). destruct (sch s); cbn [set_now]; lia.
Qed.

Lemma quiet_cancelled s cb : reachable s -> quiescent s -> cancelled (log s) = true -> invoked cb s = polled cb s.
Proof.
  intros H Q C. rewrite (reach_cb s H cb), (sum_nil _ _ Q).
  rewrite <- (l_cancel _ (reach_log s H)) in C. destruct (sch s); try discriminate. cbn [stored]. lia.
Qed.

Lemma quiet_unset s cb : reachable s -> quiescent s -> set_now (sch s) = 0 -> invoked cb s = polled cb s.
Proof.
  intros H Q C. rewrite (reach_cb s H cb), (sum_nil _ _ Q).
  destruct (sch s); cbn [set_now stored] in *; lia.
Qed.

Lemma quiet_one s os cb : run init os = Some s -> one_at_a_time init os -> quiescent s ->
  woken (log s) = true \/ 0 < dones s \/ cancelled (log s) = true -> invoked cb s = polled cb s.
Proof.
  intros H O Q [W|[W|W]].
  - apply quiet_unset; auto; [exists os; auto|].
    eapply o_woken; eauto. eapply run_one; eauto using inv_ref_init, inv_log_init, inv_wake_init, inv_one_init.
  - apply quiet_unset; auto; [exists os; auto|].
    eapply o_done; eauto. eapply run_one; eauto using inv_ref_init, inv_log_init, inv_wake_init, inv_one_init.
  - apply quiet_cancelled; auto. exists os; auto.
Qed.

Lemma run_app : forall a b s, run s (a ++ b) = match run s a with Some s' => run s' b | None => None end.
Proof. induction a as [|o a IH]; intros b s; cbn; auto. destruct (step s o); auto. Qed.

Lemma reachable_run s os s' : reachable s -> run s os = Some s' -> reachable s'.
Proof. intros (p & H) H'. exists (p ++ os). rewrite run_app, H. auto. Qed.

Lemma gos_bounded : forall os s s', forallb is_go os = true -> run s os = Some s' ->
  length os + sum weight (acts s') <= sum weight (acts s).
Proof.
  induction os as [|o os IH]; intros s s' G H; cbn [run forallb length] in *; [injection H as <-; lia|].
  apply andb_true_iff in G as [G1 G2]. destruct (step s o) eqn:E; [|discriminate].
  destruct o; try discriminate. apply go_decreases in E. specialize (IH _ _ G2 H). lia.
Qed.

Lemma settles : forall n s, inv_ref s -> sum weight (acts s) <= n ->
  exists os s', forallb is_go os = true /\ run s os = Some s' /\ quiescent s'.
Proof.
  induction n as [|n IH]; intros s R H.
  - exists [], s. repeat split. unfold quiescent. destruct (acts s) as [|a l]; auto.
    rewrite sum_cons in H. destruct a as [| | | | ? ? []| [] | [] | |]; cbn in H; lia.
  - destruct (acts s) as [|a l] eqn:E; [exists [], s; auto|].
    destruct (go_possible s R) as (i & r & s1 & H1); [rewrite E; discriminate|].
    destruct (IH s1) as (os & s2 & G & H2 & Q).
    + eapply inv_ref_step; eauto.
    + apply go_decreases in H1. rewrite E in H1. lia.
    + exists (Go i r :: os), s2. cbn [forallb is_go run]. rewrite H1. auto.
Qed.

Lemma settles_bound s : reachable s ->
  (~ quiescent s -> exists i r s', step s (Go i r) = Some s') /\
  (exists n, forall os s', forallb is_go os = true -> run s os = Some s' -> length os <= n).
Proof.
  intros H. split.
  - apply go_possible, reach_ref; auto.
  - exists (sum weight (acts s)). intros os s' G R. apply gos_bounded in R; auto. lia.
Qed.

(** ** C22 *)

Lemma no_lost_wakeup s : reachable s -> quiescent s -> woken (log s) = true ->
  invokes s = polls s \/ signalled (log s) = true.
Proof.
  intros H Q W. destruct (reach_wake s H W) as [E|[E|[E|E]]]; auto.
  - left. rewrite (reach_all s H), (sum_nil _ _ Q), E. cbn. lia.
  - left. rewrite (reach_all s H), (sum_nil _ _ Q), E. cbn. lia.
  - rewrite (sum_nil _ _ Q) in E. lia.
Qed.

Lemma no_lost_wakeup_one os s : run init os = Some s -> one_at_a_time init os -> quiescent s ->
  woken (log s) = true -> invokes s = polls s.
Proof.
  intros H O Q W.
  assert (I : inv_one s) by (eapply run_one; eauto using inv_ref_init, inv_log_init, inv_wake_init, inv_one_init).
  rewrite (o_count _ I), (sum_nil _ _ Q), (o_woken _ I W). lia.
Qed.

(** ** C23 *)

Lemma late_polls s cb : reachable s -> polled_early cb (log s) = false ->
  ~ In (EInner cb) (log s) /\ ~ In (EInvoke cb CWake) (log s).
Proof.
  intros H E. pose proof (reach_late s H cb E) as I.
  assert (G : forall p e l, p e = true -> In e l -> 0 < count p l).
  { intros p e l Hp. induction l as [|x l IH]; cbn [In]; [easy|]. rewrite count_cons.
    intros [->|X]; [rewrite Hp; cbn; lia | apply IH in X; lia]. }
  split; intros X.
  - apply (G (is_inner_of cb)) in X; [lia|]. cbn. apply Nat.eqb_refl.
  - apply (G (is_wake_of cb)) in X; [lia|]. cbn. apply Nat.eqb_refl.
Qed.

Definition readying (cb : cbid) (a : act) : nat :=
  match a with AInvoke c CReady _ => b1 (Nat.eqb c cb) | _ => 0 end.
Arguments readying cb !a /.

Lemma ready_mono s o s' cb : step s o = Some s' ->
  count (is_ready_of cb) (log s) + sum (readying cb) (acts s)
  <= count (is_ready_of cb) (log s') + sum (readying cb) (acts s').
Proof.
  intros H. destr_step H.
  1-10: injection H as <-; fields; rewrite ?sum_cons; counts; cbn [is_ready_of b1]; lia.
  pose proof (sum_remove (readying cb) _ _ _ Heqo) as R1.
  go_cases H a; cbn [readying] in R1; fields; rewrite ?sum_cons; counts; cbn [is_ready_of b1 readying]; try lia.
  all: destruct c; cbn [b1] in *; lia.
Qed.

Lemma ready_mono_run cb : forall os s s', run s os = Some s' ->
  count (is_ready_of cb) (log s) + sum (readying cb) (acts s)
  <= count (is_ready_of cb) (log s') + sum (readying cb) (acts s').
Proof.
  induction os as [|o os IH]; intros s s' H; cbn [run] in H; [injection H as <-; lia|].
  destruct (step s o) eqn:E; [|discriminate]. apply (ready_mono _ _ _ cb) in E. apply IH in H. lia.
Qed.

Lemma invoked_le cb l : count (is_ready_of cb) l <= count (is_invoke_of cb) l.
Proof.
  induction l as [|e l IH]; [reflexivity|]. rewrite !count_cons.
  destruct e as [| | | |? []| | | | | |]; cbn [is_ready_of is_invoke_of b1]; lia.
Qed.

Lemma waiting_called s c os s1 s2 cb : reachable s -> quiescent s -> polled cb s = invoked cb s + 1 ->
  c = Cancel \/ c = Free -> step s c = Some s1 -> forallb is_go os = true -> run s1 os = Some s2 ->
  quiescent s2 -> count (is_ready_of cb) (log s) < count (is_ready_of cb) (log s2).
Proof.
  intros H Q W Hc H1 G H2 Q2.
  assert (S : stored cb (sch s) = 1).
  { pose proof (reach_cb s H cb) as C. rewrite (sum_nil _ _ Q) in C. lia. }
  assert (Hs : sch s = SSet cb).
  { destruct (sch s); cbn in S; try lia. destruct (Nat.eqb_spec cb0 cb); cbn in S; [congruence|lia]. }
  assert (A : exists k, acts s1 = [ACancel k] /\ sch s1 = SSet cb /\ count (is_ready_of cb) (log s1) = count (is_ready_of cb) (log s)).
  { destruct Hc as [-> | ->]; cbn [step] in H1; destruct (handle s); try discriminate; injection H1 as <-.
    - exists KDrop. fields. rewrite Q. counts. auto.
    - exists KFree. fields. rewrite Q. counts. auto. }
  destruct A as (k & A1 & A2 & A3).
  destruct os as [|o os]; cbn [run forallb] in *.
  - injection H2 as <-. unfold quiescent in Q2. rewrite A1 in Q2. discriminate.
  - destruct o; try discriminate. destruct (step s1 (Go i r)) as [s3|] eqn:E; [|discriminate].
    apply (ready_mono_run cb) in H2. rewrite (sum_nil _ _ Q2) in H2. rewrite <- A3.
    cbn [step] in E. rewrite A1 in E. destruct i as [|i]; [|destruct i; discriminate].
    cbn [nth_error remove_nth advance] in E. injection E as <-.
    revert H2. fields. rewrite A2. cbn [sched_cancel apply_sched snd fst]. counts. fields. rewrite ?sum_cons. counts.
    cbn [readying is_ready_of b1 Nat.add]. rewrite Nat.eqb_refl. cbn [b1 sum fold_right]. lia.
Qed.

(** ** C24 *)

Lemma log_results l : polls_right l -> results_right l ->
  let d := count (fun e => match e with EInnerDone _ => true | _ => false end) l in
  let r := count (fun e => match e with EComplete (Some _) => true | _ => false end) l in
  d <= 1 /\ (usable l = true -> d = 0) /\ r + b1 (some (available l)) <= d.
Proof.
  induction l as [|e l IH]; [cbn; lia|]. cbn zeta in *. rewrite !count_cons. intros P R.
  destruct e; cbn [polls_right results_right b1 available usable some] in *; try (apply IH; tauto).
  - destruct IH as (I1 & I2 & I3); try tauto. destruct P as (P1 & P2 & P3). rewrite (I2 P2) in *. repeat split; try lia.
  - destruct IH as (I1 & I2 & I3); try tauto. destruct R as [-> R]. repeat split; [lia | discriminate |].
    destruct (available l); cbn [b1 some] in *; lia.
  - destruct IH as (I1 & I2 & I3); try tauto. repeat split; try lia.
Qed.

Lemma delivered_once s : reachable s -> dones s <= 1 /\ results s <= 1.
Proof.
  intros H. destruct (reach_log s H) as [_ _ _ _ R P]. destruct (log_results _ P R) as (A & _ & B).
  unfold dones, results. lia.
Qed.

Lemma available_in l o : available l = Some o -> In (EInnerDone o) l.
Proof.
  induction l as [|e l IH]; [discriminate|]. destruct e; cbn [available]; intros H; try discriminate; try (right; apply IH; auto; fail).
  left. congruence.
Qed.

Lemma results_split l : results_right l -> forall l1 o l2, l = l1 ++ EComplete o :: l2 -> o = available l2.
Proof.
  induction l as [|e l IH]; intros R l1 o l2 E; [destruct l1; discriminate|].
  destruct l1 as [|x l1]; cbn in E.
  - injection E as -> ->. apply R.
  - injection E as -> ->. eapply IH; eauto. destruct x; cbn in R; tauto.
Qed.

Lemma result_from_future s o l1 l2 : reachable s -> log s = l1 ++ EComplete (Some o) :: l2 -> In (EInnerDone o) l2.
Proof.
  intros H E. apply available_in. symmetry. eapply results_split; [|exact E]. apply (reach_log s H).
Qed.

(** ** C45 *)

Lemma released s : reachable s ->
  ~ In EBad (log s) /\ deallocs s <= 1 /\
  (deallocs s = 1 <-> handle s = false /\ quiescent s /\ ext s = 0).
Proof.
  intros H. pose proof (reach_ref s H) as R. pose proof (reach_mem s H) as [M1 M2].
  pose proof (reach_free s H) as F. repeat split.
  - intros X. assert (0 < bads s); [|lia]. clear -X. unfold bads. induction (log s) as [|e l IH]; [easy|].
    rewrite count_cons. destruct X as [->|X]; [cbn; lia | apply IH in X; lia].
  - rewrite M2. destruct (Nat.eqb (strong s) 0); cbn; lia.
  - rewrite M2 in H0. destruct (Nat.eqb_spec (strong s) 0); [|discriminate]. rewrite (r_strong _ R) in e.
    destruct (handle s); auto. cbn in e. lia.
  - rewrite M2 in H0. destruct (Nat.eqb_spec (strong s) 0); [|discriminate]. rewrite (r_strong _ R) in e.
    unfold quiescent. destruct (acts s); auto. rewrite sum_cons in e. pose proof (refs_pos a). lia.
  - rewrite M2 in H0. destruct (Nat.eqb_spec (strong s) 0); [|discriminate]. rewrite (r_strong _ R) in e. lia.
  - intros (Hh & Q & X). rewrite M2. pose proof (r_strong _ R) as E.
    pose proof (f_tok _ F) as T. rewrite Hh, (sum_nil _ _ Q) in *. cbn [b1 negb] in *.
    destruct (f_gone _ F) as (_ & _ & O); [lia|]. rewrite O, X, (sum_nil _ _ Q) in E. cbn in E. rewrite E. reflexivity.
Qed.
