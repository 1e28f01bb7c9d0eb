(** * Cancellation, wakeups, progress and reclamation *)

From Verif Require Import Base Async_Model Async_Spec Async_Proofs Async_Proofs2.

(** ** Polls made after cancellation *)

Definition is_inner_of (cb : cbid) (e : event) : bool :=
  match e with EInner c => Nat.eqb c cb | _ => false end.
Definition is_wake_of (cb : cbid) (e : event) : bool :=
  match e with EInvoke c CWake => Nat.eqb c cb | _ => false end.

(** Activities which would poll the user's future or call back with "wake". *)
Definition lively (cb : cbid) (a : act) : nat :=
  match a with
  | ALock c | APolling c | AStore c | AInvoke c CWake _ => b1 (Nat.eqb c cb)
  | _ => 0
  end.
Arguments lively cb !a /.

Definition inv_late (s : st) : Prop := forall cb, polled_early cb (log s) = false ->
  sum (lively cb) (acts s) + stored cb (sch s)
  + count (is_inner_of cb) (log s) + count (is_wake_of cb) (log s) = 0.

Lemma late_cancelled cb l : polled_early cb l = false -> 0 < count (is_poll_of cb) l -> cancelled l = true.
Proof.
  induction l as [|e l IH]; [cbn; lia|]. rewrite count_cons.
  destruct e; cbn [polled_early is_poll_of b1 cancelled]; auto.
  destruct (Nat.eqb cb0 cb); cbn [andb orb b1].
  - destruct (cancelled l); auto.
  - intros. apply IH; auto.
Qed.

Ltac lg3 := repeat (progress (lg cancelled; cbn [cancelled];
   repeat match goal with |- context [polled_early ?cb (log _)] =>
     progress rewrite ?(dec_f (polled_early cb)), ?(inc_f (polled_early cb)), ?(touch_f (polled_early cb)), ?(df_f (polled_early cb)) end;
   rec_simp; cbn [polled_early])).

Ltac calc3 := cbn [lively holds stored is_poll_of is_invoke_of is_inner_of is_wake_of b1 some is_kdrop is_kkeep is_kfree Nat.mul Nat.add] in *.

Lemma inv_late_step s o s' : inv_cb s -> inv_log s -> inv_late s -> step s o = Some s' -> inv_late s'.
Proof.
  intros C L I H cb E. specialize (C cb). specialize (I cb). unfold polled, invoked in C.
  destr_step H.
  1-10: injection H as <-; revert E; fields; lg3; intros E;
    try (apply orb_false_iff in E as [E1 E]); specialize (I E); rewrite ?sum_cons; counts; calc3; lia.
  pose proof (sum_remove (lively cb) _ _ _ Heqo) as R1.
  pose proof (sum_remove (holds cb) _ _ _ Heqo) as R2.
  assert (E' : polled_early cb (log s) = false).
  { revert E. go_cases H a; lg3; auto. }
  clear E. specialize (I E').
  pose proof (late_cancelled cb (log s) E') as Hc. rewrite <- (l_cancel _ L) in Hc.
  go_cases H a; calc3; fields; rewrite ?sum_cons; counts; calc3;
    try (rewrite Heqs0 in * ); calc3; try lia.
  - destruct c; calc3; lia.
  - destruct c; calc3; lia.
  - destruct c; calc3; lia.
Qed.

Lemma reach_late s : reachable s -> inv_late s.
Proof.
  intros H. cut (inv_cb s /\ inv_log s /\ inv_late s); [tauto|]. revert s H.
  apply reach_inv.
  - split; [apply inv_cb_init|]. split; [apply inv_log_init|]. intros cb _. reflexivity.
  - intros s o s' R (C & L & I) H.
    eauto 6 using inv_cb_step, inv_log_step, inv_late_step.
Qed.

(** ** Wakeups *)

Definition invoking (a : act) : nat := match a with AInvoke _ _ _ => 1 | _ => 0 end.
Arguments invoking !a /.

Definition set_now (x : sched) : nat := match x with SSet _ => 1 | _ => 0 end.
Arguments set_now !x /.

Definition inv_wake (s : st) : Prop := woken (log s) = true ->
  sch s = SWaked \/ sch s = SCancelled \/ 0 < sum invoking (acts s) \/ signalled (log s) = true.

Ltac lgw := repeat (progress (lg woken; lg signalled; cbn [woken signalled])).

Lemma inv_wake_init : inv_wake init. Proof. discriminate. Qed.

Lemma inv_wake_step s o s' : inv_ref s -> inv_wake s -> step s o = Some s' -> inv_wake s'.
Proof.
  intros _ I H W. destr_step H.
  1-10: injection H as <-; revert W; fields; lgw; intros W; specialize (I W); rewrite ?sum_cons; cbn [invoking Nat.add]; auto.
  pose proof (sum_remove invoking _ _ _ Heqo) as R1.
  go_cases H a; revert W; fields; lgw; intros W; try discriminate;
    rewrite ?sum_cons; cbn [invoking Nat.add Nat.mul b1 is_kfree] in *; auto; try (right; right; left; lia);
    specialize (I W); try (rewrite Heqs0 in I); try (destruct I as [I|[I|[I|I]]]; auto; try discriminate; right; right; left; lia).
Qed.

Lemma reach_wake s : reachable s -> inv_wake s.
Proof. apply reach_inv; [apply inv_wake_init | intros; eapply inv_wake_step; eauto]. Qed.

(** ** One poll at a time *)

Definition holding (a : act) : nat :=
  match a with ACheck _ | ALock _ | APolling _ | AStore _ | AInvoke _ _ _ => 1 | _ => 0 end.
Arguments holding !a /.
Definition storing (a : act) : nat := match a with AStore _ => 1 | _ => 0 end.
Arguments storing !a /.
Definition midpoll (a : act) : nat := match a with APolling _ | AStore _ => 1 | _ => 0 end.
Arguments midpoll !a /.

Record inv_one (s : st) : Prop := {
  o_count : polls s = invokes s + sum holding (acts s) + set_now (sch s);
  o_one : sum holding (acts s) + set_now (sch s) <= 1;
  o_mid : 0 < sum midpoll (acts s) -> signalled (log s) = false;
  o_woken : woken (log s) = true -> set_now (sch s) = 0;
  o_done : 0 < dones s -> sum storing (acts s) = 0 /\ set_now (sch s) = 0 }.

Lemma inv_one_init : inv_one init. Proof. constructor; cbn; auto; lia. Qed.

Lemma mid_le l : sum midpoll l <= sum holding l.
Proof. apply sum_le. intros []; cbn; lia. Qed.
Lemma storing_le l : sum storing l <= sum midpoll l.
Proof. apply sum_le. intros []; cbn; lia. Qed.
Lemma invoking_le l : sum invoking l + sum midpoll l <= sum holding l.
Proof. induction l as [|[] l IH]; rewrite ?sum_cons; cbn [invoking midpoll holding]; cbn; lia. Qed.
Lemma polling_le l : sum polling l <= sum midpoll l.
Proof. apply sum_le. intros []; cbn; lia. Qed.

Ltac calc4 := cbn [holding storing midpoll invoking polling set_now b1 some is_kdrop is_kkeep is_kfree Nat.mul Nat.add] in *.

Lemma usable_dones l : usable l = true ->
  count (fun e => match e with EInnerDone _ => true | _ => false end) l = 0.
Proof.
  induction l as [|e l IH]; [reflexivity|]. rewrite count_cons.
  destruct e; cbn [usable b1]; auto; discriminate.
Qed.

Lemma inv_one_step s o s' : inv_ref s -> inv_log s -> inv_wake s ->
  match o with Poll _ => polls s = invokes s | _ => True end ->
  inv_one s -> step s o = Some s' -> inv_one s'.
Proof.
  intros R L W Ho [O1 O2 O3 O4 O5] H. unfold polls, invokes, dones in *.
  pose proof (invoking_le (acts s)) as Hle.
  pose proof (storing_le (acts s)) as Hst.
  destr_step H.
  1-10: injection H as <-; constructor; unfold polls, invokes, dones; fields; lgw; rewrite ?sum_cons; counts; calc4;
    try lia; auto.
  pose proof (sum_remove holding _ _ _ Heqo) as R1.
  pose proof (sum_remove midpoll _ _ _ Heqo) as R2.
  pose proof (sum_remove storing _ _ _ Heqo) as R3.
  pose proof (sum_remove invoking _ _ _ Heqo) as R4.
  pose proof (mid_le (remove_nth i (acts s))) as Hm.
  pose proof (storing_le (remove_nth i (acts s))) as Hs.
  red in W.
  go_cases H a; calc4; try (rewrite Heqs0 in * ); calc4.
  all: constructor; unfold polls, invokes, dones; fields; lgw; rewrite ?sum_cons; counts; calc4; try lia; auto.
  all: try (intros X; apply O3; lia).
  all: try (intros X; apply O5 in X; lia).
  all: try (intros X; specialize (O5 X); lia).
  - intros X. exfalso.
    assert (P : 1 <= sum polling (acts s)) by (change 1 with (polling (APolling cb)); apply sum_in; eapply nth_in; eauto).
    rewrite (r_lock _ R) in P. destruct (locked s) eqn:Hl; [|cbn in P; lia].
    destruct (r_fut _ R Hl) as [Hf _]. rewrite (l_fut _ L) in Hf. apply usable_dones in Hf. lia.
  - intros X. destruct (W X) as [Y|[Y|[Y|Y]]]; try discriminate; try lia.
Qed.

Lemma run_one : forall os s s', inv_ref s -> inv_log s -> inv_wake s -> inv_one s ->
  one_at_a_time s os -> run s os = Some s' -> inv_one s'.
Proof.
  induction os as [|o os IH]; intros s s' R L W I HO H; cbn [run one_at_a_time] in *.
  - injection H as <-. auto.
  - destruct HO as [HO1 HO2]. destruct (step s o) as [s1|] eqn:E; [|discriminate].
    eapply (IH s1); eauto using inv_ref_step, inv_log_step, inv_wake_step, inv_one_step.
Qed.

(** ** Progress: activities always finish *)

Definition kont_weight (k : kont) : nat := match k with KFree => 2 | _ => 1 end.
Definition weight (a : act) : nat :=
  match a with
  | ACheck _ => 5 | ALock _ => 4 | APolling _ => 3 | AStore _ => 2
  | AInvoke _ _ k => kont_weight k
  | AWake k | ACancel k => S (kont_weight k)
  | AComplete | AFree => 1
  end.
Arguments weight !a /.

Lemma go_decreases s i r s' : step s (Go i r) = Some s' -> sum weight (acts s') < sum weight (acts s).
Proof.
  intros H. cbn [step] in H. destruct (nth_error (acts s) i) as [a|] eqn:E; [|discriminate].
  pose proof (sum_remove weight _ _ _ E) as R1.
  go_cases H a; cbn [weight kont_weight] in *; fields; rewrite ?sum_cons; cbn [weight kont_weight is_kfree b1]; lia.
Qed.

Lemma nth_remove_ok s a i r : nth_error (acts s) i = Some a -> polling a = 1 ->
  exists s', step s (Go i r) = Some s'.
Proof. intros H P. cbn [step]. rewrite H. destruct a; try discriminate. destruct r; cbn; eauto. Qed.

Lemma go_possible s : inv_ref s -> acts s <> [] -> exists i r s', step s (Go i r) = Some s'.
Proof.
  intros R H. destruct (locked s) eqn:Hl.
  - pose proof (r_lock _ R) as P. rewrite Hl in P. cbn [b1] in P.
    destruct (sum_pos_in polling (acts s) ltac:(lia)) as (a & Ha & Hp).
    apply In_nth_error in Ha as (i & Hi). exists i, RPending. eapply nth_remove_ok; eauto.
    destruct a; cbn in *; lia.
  - destruct (acts s) as [|a l] eqn:E; [congruence|]. exists 0, RPending.
    cbn [step]. rewrite E. cbn [nth_error].
    destruct a; cbn [advance]; rec_simp; rewrite ?Hl; eauto.
    + destruct (is_cancelled (sch s)); eauto.
    + destruct (res s); eauto. destruct (fut s); eauto.
Qed.

(** ** Free and reclamation *)

Definition freeing (a : act) : nat :=
  match a with ACancel KFree | AInvoke _ _ KFree | AFree => 1 | _ => 0 end.
Arguments freeing !a /.
Definition aftercancel (a : act) : nat :=
  match a with AInvoke _ _ KFree | AFree => 1 | _ => 0 end.
Arguments aftercancel !a /.
Definition frees (s : st) : nat := count (fun e => match e with EFree => true | _ => false end) (log s).

Definition wakefree (a : act) : nat := match a with AWake KFree => 1 | _ => 0 end.
Arguments wakefree !a /.

Record inv_free (s : st) : Prop := {
  f_wf : sum wakefree (acts s) = 0;
  f_tok : sum freeing (acts s) + frees s = b1 (negb (handle s));
  f_cancel : 0 < sum aftercancel (acts s) + frees s -> sch s = SCancelled;
  f_gone : 0 < frees s -> fut s = false /\ res s = None /\ own s = 0 }.

Lemma inv_free_init : inv_free init. Proof. constructor; cbn; auto; lia. Qed.

Ltac calc5 := cbn [wakefree freeing aftercancel b1 some negb is_kdrop is_kkeep is_kfree Nat.mul Nat.add] in *.

Lemma aftercancel_le l : sum aftercancel l <= sum freeing l.
Proof. apply sum_le. intros [| | | | ? ? []| | [] | |]; cbn; lia. Qed.

Lemma inv_free_step s o s' : inv_ref s -> inv_free s -> step s o = Some s' -> inv_free s'.
Proof.
  intros R [F0 F1 F2 F3] H. unfold frees in *. destr_step H.
  1-10: try match goal with b : bool |- _ => destruct b end.
  1-11: injection H as <-; try (rewrite Heqb in * ); constructor; unfold frees; fields; rewrite ?sum_cons; counts; try (rewrite Heqb in * ); calc5; try lia; auto.
  all: try (intros X; exfalso; rewrite existsb_polling in Heqb;
    assert (Hl : locked s = true) by (pose proof (r_lock _ R) as P; destruct (locked s); [reflexivity | rewrite P in Heqb; discriminate]);
    destruct (r_fut _ R Hl); destruct (F3 X); congruence).
  pose proof (sum_remove freeing _ _ _ Heqo) as R1.
  pose proof (sum_remove wakefree _ _ _ Heqo) as R0.
  pose proof (sum_remove aftercancel _ _ _ Heqo) as R2.
  assert (P : locked s = true -> fut s = true) by (intros X; apply (r_fut _ R X)).
  assert (P2 : polling a = 1 -> fut s = true).
  { intros X. apply P. pose proof (r_lock _ R). assert (Y : polling a <= sum polling (acts s)) by (apply sum_in; eapply nth_in; eauto).
    destruct (locked s); auto. cbn in *. lia. }
  go_cases H a; calc5; cbn [polling] in P2; constructor; unfold frees; fields; rewrite ?sum_cons; counts; calc5; try lia; auto.
  all: try (intros X; try (rewrite Heqs0 in F2); try (specialize (F2 ltac:(lia)); try discriminate; auto; fail)).
  all: try (destruct (F3 X) as (Y & _); rewrite P2 in Y by reflexivity; discriminate).
  all: try (destruct (F3 X) as (Y & Z & V); auto; fail).
Qed.

Lemma reach_free s : reachable s -> inv_free s.
Proof. apply reach_inv; [apply inv_free_init | intros; eapply inv_free_step; eauto]. Qed.
