(** * Proofs about foreign futures *)

From Verif Require Import Base Ffut_Model Ffut_Spec.

Inductive fphase := F1 | F2 (v : Z) | F3 (w : wid) | F4 | F5.

Definition f_right f := match f with F1 => true | _ => false end.
Definition f_sends f := match f with F1 | F5 => [] | F2 v => [SLock v] | F3 w => [SWake w] | F4 => [SDrop] end.
Definition f_held f := match f with F5 => 0 | _ => 1 end.
Definition f_sent f := match f with F1 | F2 _ => 0 | _ => 1 end.
Definition r_held r := match r with RCalling _ | RPolling _ | RWait | RTaken _ | RDrop1 => 1 | _ => 0 end.
Definition r_ready r := match r with RFin => 1 | _ => 0 end.
Definition r_over r := match r with RFin | RGone => true | _ => false end.
Definition r_took r := match r with RTaken _ | RLift _ | RFin => true | _ => false end.

Definition val_ok (f : fphase) (s : st) : Prop :=
  match f with
  | F1 | F2 _ => value s = None /\ r_took (fut s) = false
  | _ => exists v, (forall v', In (ESent v') (log s) <-> v' = v) /\
      match fut s with
      | RTaken v' | RLift v' => v' = v /\ value s = None
      | RFin => In (EReady v) (log s) /\ value s = None
      | _ => value s = (if strong s =? 0 then None else Some v)
      end
  end.

Definition wake_ok (f : fphase) (s : st) : Prop :=
  match fut s with
  | RWait => exists w, last_pending (log s) = Some w /\
      match f with
      | F1 | F2 _ => waker s = Some w
      | F3 w' => w' = w
      | _ => woken_since w (log s)
      end
  | _ => True
  end.

Definition setup_ok (s : st) : Prop :=
  (armed s = true <-> In (ESetup true) (log s)) /\
  match fut s with RCalling _ => armed s = false /\ ~ In (ESetup false) (log s) | _ => True end.

Definition live (f : fphase) (s : st) : Prop :=
  right s = f_right f /\ sends s = f_sends f /\ strong s = f_held f + r_held (fut s) /\
  fut s <> RInit /\ calls s = 1 /\ ~ In EBad (log s) /\ sents s = f_sent f /\
  readies s = r_ready (fut s) /\ drops s = (if armed s && r_over (fut s) then 1 else 0) /\
  frees s = (if strong s =? 0 then 1 else 0) /\
  (discards s = if (strong s =? 0) && negb (r_took (fut s)) then 1 else 0) /\
  val_ok f s /\ wake_ok f s /\ setup_ok s.

Definition pristine (s : st) : Prop :=
  s = init \/ s = set_fut RGone init.

Definition inv (s : st) : Prop := pristine s \/ exists f, live f s.

Ltac spl := repeat match goal with |- _ /\ _ => split end.

Ltac cs := repeat match goal with
  | H : _ /\ _ |- _ => destruct H
  | H : exists _, _ |- _ => destruct H
  end.

Ltac fin :=
  cbn in *; cs; subst; rewrite ?andb_false_r in *; cbn in *; spl; auto; try discriminate; try lia;
  try (intuition (discriminate || congruence || auto); fail);
  try match goal with
  | H : forall v', In (ESent v') _ <-> v' = ?x |- exists v, _ =>
      exists x; spl; auto; try (intros v'; specialize (H v'); intuition (discriminate || congruence || auto); fail);
      try match goal with H : In _ _ |- _ => right; exact H end
  end;
  try (eexists; spl; eauto; fail).

Ltac pre := cbn in *; cs; subst; cbn in *; try discriminate.

Lemma live_step s f o s' : live f s -> step s o = Some s' -> exists f', live f' s'.
Proof.
  destruct s as [va wa sg fu ri ar se lo].
  unfold live, val_ok, wake_ok, setup_ok, calls, sents, readies, drops, frees, discards, count; cbn [value waker strong fut right armed sends log].
  intros (Hr & Hs & Hg & Hi & Hc & Hb & Hse & Hre & Hd & Hf & Hdi & Hv & Hw & Hst) H.
  subst ri se sg.
  destruct o as [w|b| |v| |i].
  - (* Poll *)
    cbn in H. destruct fu; try discriminate; [congruence|].
    injection H as <-. exists f. destruct f; fin.
  - (* Setup *)
    cbn in H. destruct fu; try discriminate. injection H as <-. exists f.
    destruct f, b; fin.
  - (* DropFuture *)
    cbn in H. destruct fu; try discriminate; [congruence|].
    injection H as <-. exists f. destruct f; fin.
  - (* Complete *)
    cbn in H. destruct f; cbn in H; try discriminate. injection H as <-. exists (F2 v). fin.
  - (* GoRust *)
    cbn in H. destruct fu; try discriminate; unfold touch, dec, drop_callback in H; cbn in H.
    + (* RPolling *)
      exists f. destruct f; pre; injection H as <-; fin.
    + (* RTaken *)
      exists f. destruct f; pre; injection H as <-; fin.
    + (* RLift *)
      exists f. destruct f, ar; pre; injection H as <-; fin.
    + (* RDrop1 *)
      exists f. destruct f; pre; injection H as <-; fin.
    + (* RDrop2 *)
      exists f. destruct f, ar; pre; injection H as <-; fin.
  - (* GoSend *)
    cbn in H. destruct i as [|i]; [|destruct f; cbn in H; destruct i; discriminate].
    destruct f; cbn in H; try discriminate; unfold go_send, touch, dec in H; cbn in H; injection H as <-; cbn in *.
    + (* SLock *)
      destruct Hv as [-> Ht].
      assert (N: forall v', ~ In (ESent v') lo).
      { intros v' E. apply (in_split (ESent v')) in E. destruct E as (l1 & l2 & ->).
        rewrite filter_app, app_length in Hse. cbn in Hse. lia. }
      exists (match wa with Some w => F3 w | None => F4 end).
      assert (V: forall v', In (ESent v') (ESent v :: lo) <-> v' = v).
      { intros v'. cbn. split; [intros [E|E]; [congruence|exfalso; eapply N; eauto]|intros ->; auto]. }
      destruct wa as [w|], fu; fin.
      exists x. split; congruence.
    + (* SWake *)
      exists F4. destruct fu; fin.
    + (* SDrop *)
      exists F5. destruct fu; fin.
Qed.

Lemma pristine_step s o s' : pristine s -> step s o = Some s' -> inv s'.
Proof.
  intros [-> | ->] H; destruct o; cbn in H; try discriminate;
  try (destruct i; discriminate); injection H as <-.
  - right. exists F1. unfold live, val_ok, wake_ok, setup_ok, calls, sents, readies, drops, frees, discards, count.
    cbn. spl; auto; try discriminate; intuition discriminate.
  - left. right. reflexivity.
Qed.

Lemma inv_step s o s' : inv s -> step s o = Some s' -> inv s'.
Proof.
  intros [H|[f H]] E; [eapply pristine_step; eauto|]. right. eapply live_step; eauto.
Qed.

Lemma run_inv os : forall s s', inv s -> run s os = Some s' -> inv s'.
Proof.
  induction os as [|o os IH]; intros s s' H E; cbn in E.
  - injection E as <-; auto.
  - destruct (step s o) as [s1|] eqn:E1; [|discriminate]. eapply IH; [eapply inv_step; eauto|auto].
Qed.

Lemma reachable_inv s : reachable s -> inv s.
Proof. intros [os H]. eapply run_inv; [|eauto]. left. left. reflexivity. Qed.

Lemma run_app os1 : forall s os2,
  run s (os1 ++ os2) = match run s os1 with Some s' => run s' os2 | None => None end.
Proof. induction os1 as [|o os IH]; intros; cbn; auto. destruct (step s o); auto. Qed.

(** Only what was sent is received, once. *)
Lemma received_once s : reachable s ->
  sents s <= 1 /\ readies s <= 1 /\ (forall v, In (EReady v) (log s) -> In (ESent v) (log s)).
Proof.
  intros [os H].
  assert (R: reachable s) by (exists os; auto).
  split; [|split].
  - destruct (reachable_inv _ R) as [[-> | ->]|[f L]]; cbn; auto.
    unfold live in L. destruct f; cbn in L; cs; lia.
  - destruct (reachable_inv _ R) as [[-> | ->]|[f L]]; cbn; auto.
    unfold live in L. destruct (fut s); cbn in L; cs; lia.
  - clear R. revert s H.
    enough (G: forall s s', inv s -> run s os = Some s' ->
      (forall v, In (EReady v) (log s) -> In (ESent v) (log s)) ->
      forall v, In (EReady v) (log s') -> In (ESent v) (log s')).
    { intros s H v. eapply G; [left; left; reflexivity|exact H|cbn; tauto]. }
    induction os as [|o os IH]; intros s s' I E P; cbn in E; [injection E as <-; auto|].
    destruct (step s o) as [s1|] eqn:E1; [|discriminate].
    eapply IH; [eapply inv_step; eauto|eauto|].
    assert (T: forall v, fut s = RLift v -> In (ESent v) (log s)).
    { intros v E2. destruct I as [[-> | ->]|[f L]]; cbn in E2; try discriminate.
      unfold live, val_ok in L. rewrite E2 in L. destruct f; cbn in L; cs; try discriminate; subst; match goal with V : forall v', In _ _ <-> _ |- _ => apply V; auto end. }
    clear - P E1 T. intros v Hv.
    destruct o; cbn in E1; unfold touch, dec, drop_callback in E1;
    repeat match type of E1 with
    | context [match ?x with _ => _ end] => let q := fresh "Q" in destruct x eqn:q; try discriminate
    end; injection E1 as <-; cbn in *;
    try (unfold go_send, touch, dec in *; cbn in *);
    repeat match goal with
    | H : context [match ?x with _ => _ end] |- _ => let q := fresh "Q" in destruct x eqn:q; cbn in *
    | |- context [match ?x with _ => _ end] => let q := fresh "Q" in destruct x eqn:q; cbn in *
    end;
    repeat match goal with H : _ \/ _ |- _ => destruct H end; try discriminate; auto;
    try match goal with H : EReady _ = EReady _ |- _ => injection H as <- end; auto.
Qed.

(** ** Order of the log *)

Fixpoint ordered (l : list event) : Prop :=
  match l with
  | [] => True
  | EPending _ :: l' => (forall v, ~ In (ESent v) l') /\ ordered l'
  | _ :: l' => ordered l'
  end.

Lemma ordered_spec l1 v l2 w : ordered (l1 ++ ESent v :: l2) -> ~ In (EPending w) l1.
Proof.
  induction l1 as [|e l1 IH]; intros H E; [destruct E|].
  destruct E as [-> | E].
  - cbn in H. destruct H as [H _]. apply (H v). apply in_or_app. right. left. reflexivity.
  - destruct e; cbn in H; cs; auto; apply IH; auto.
Qed.

Lemma ordered_step s o s' : inv s -> step s o = Some s' -> ordered (log s) -> ordered (log s').
Proof.
  intros I E P.
  assert (T: forall w, fut s = RPolling w -> value s = None -> forall v, ~ In (ESent v) (log s)).
  { intros w E2 V v N. destruct I as [[-> | ->]|[f L]]; cbn in E2; try discriminate.
    unfold live, val_ok in L. rewrite E2, V in L. destruct f; cbn in L; cs; try discriminate;
      try (match goal with G : strong s = _, V : None = _ |- _ => rewrite G in V; discriminate V end).
    all: apply in_split in N; destruct N as (l1 & l2 & N); unfold sents, count in *; rewrite N, filter_app, app_length in *; cbn in *; lia. }
  assert (G: forall w, fut s = RPolling w -> strong s <> 0).
  { intros w E2. destruct I as [[-> | ->]|[f L]]; cbn in E2; try discriminate.
    unfold live in L. rewrite E2 in L. cs. cbn in *. lia. }
  clear I.
  destruct o; cbn in E; unfold touch, dec, drop_callback in E;
  repeat match type of E with
  | context [match ?x with _ => _ end] => let q := fresh "Q" in destruct x eqn:q; try discriminate
  end; injection E as <-; cbn in *;
  try (unfold go_send, touch, dec in *; cbn in * );
  repeat match goal with
  | H : context [match ?x with _ => _ end] |- _ => let q := fresh "Q" in destruct x eqn:q; cbn in *
  | |- context [match ?x with _ => _ end] => let q := fresh "Q" in destruct x eqn:q; cbn in *
  end; eauto.
  all: try (exfalso; eapply G; eauto; fail).
Qed.

Lemma no_pending_after_sent s l1 v l2 w :
  reachable s -> log s = l1 ++ ESent v :: l2 -> ~ In (EPending w) l1.
Proof.
  intros [os H] E. apply (ordered_spec l1 v l2). rewrite <- E.
  assert (G: forall s s', inv s -> run s os = Some s' -> ordered (log s) -> ordered (log s')).
  { clear. induction os as [|o os IH]; intros s s' I E P; cbn in E; [injection E as <-; auto|].
    destruct (step s o) as [s1|] eqn:E1; [|discriminate].
    eapply IH; [eapply inv_step; eauto|eauto|eapply ordered_step; eauto]. }
  eapply G; [left; left; reflexivity|exact H|exact I].
Qed.

(** ** Progress *)

Lemma sent_value f s v : live f s -> In (ESent v) (log s) ->
  (forall v', In (ESent v') (log s) <-> v' = v) /\
  match fut s with
  | RTaken v' | RLift v' => v' = v /\ value s = None
  | RFin => In (EReady v) (log s) /\ value s = None
  | _ => value s = (if strong s =? 0 then None else Some v)
  end.
Proof.
  intros L H. unfold live, val_ok in L.
  assert (S: f_sent f = 1).
  { cs. apply in_split in H. destruct H as (l1 & l2 & E). unfold sents, count in *.
    rewrite E, filter_app, app_length in *. cbn in *. destruct f; cbn in *; lia. }
  destruct f; cbn in S; try discriminate; cs; match goal with V : forall v', In _ _ <-> v' = ?x |- _ => assert (v = x) by (apply V; auto) end; subst; auto.
Qed.

Ltac rs := repeat (apply Forall_cons; [first [left; reflexivity|right; eexists; reflexivity]|]); apply Forall_nil.

Lemma sent_then_ready s v :
  reachable s -> In (ESent v) (log s) ->
  match fut s with RCalling _ | RDrop1 | RDrop2 | RGone => False | _ => True end ->
  exists os s', Forall rust_side os /\ run s os = Some s' /\ In (EReady v) (log s').
Proof.
  intros R H F. destruct (reachable_inv _ R) as [[-> | ->]|[f L]]; [destruct H|destruct H|].
  destruct (sent_value f s v L H) as [_ V].
  assert (G: strong s = f_held f + r_held (fut s) /\ fut s <> RInit) by (unfold live in L; cs; auto).
  destruct G as [G NI].
  destruct s as [va wa sg fu ri ar se lo]. cbn in *.
  destruct fu; try contradiction; try congruence; cbn in *.
  - replace sg with (S (f_held f)) in * by lia. cbn in V. subst va.
    exists [GoRust; GoRust; GoRust].
    destruct (f_held f); (eexists; split; [rs|]; split; [cbn; reflexivity|cbn; auto]).
  - replace sg with (S (f_held f)) in * by lia. cbn in V. subst va.
    exists [Poll 0; GoRust; GoRust; GoRust].
    destruct (f_held f); (eexists; split; [rs|]; split; [cbn; reflexivity|cbn; auto]).
  - destruct V as [-> V]. exists [GoRust; GoRust].
    eexists.
    split; [rs|].
    split; [cbn; reflexivity|]. cbn. auto.
  - destruct V as [-> V]. exists [GoRust]. eexists.
    split; [rs|].
    split; [cbn; reflexivity|]. cbn. auto.
  - exists []. eexists. split; [constructor|]. split; [reflexivity|]. cbn. tauto.
Qed.

Lemma no_lost_wake s : reachable s -> completed s -> fut s = RWait -> wake_arrived s.
Proof.
  intros R [S0 S1] E. destruct (reachable_inv _ R) as [[-> | ->]|[f L]]; try discriminate.
  unfold live, wake_ok in L. rewrite E in L. cs.
  destruct f; cbn in *; try congruence; try lia. eexists; eauto.
Qed.

Lemma sent_in s : 0 < sents s -> exists v, In (ESent v) (log s).
Proof.
  unfold sents, count. induction (log s) as [|e l IH]; cbn; [lia|].
  destruct e; cbn; intros H; try (destruct (IH H) as [v' Hv]; eauto). eauto.
Qed.

Lemma dropped_once s : reachable s ->
  (over s -> In (ESetup true) (log s) -> drops s = 1) /\
  (~ over s \/ ~ In (ESetup true) (log s) -> drops s = 0).
Proof.
  intros R. unfold over. destruct (reachable_inv _ R) as [[-> | ->]|[f L]].
  - split; intros; cbn in *; tauto.
  - split; intros; cbn in *; tauto.
  - unfold live, setup_ok in L. destruct L as (_ & _ & _ & _ & _ & _ & _ & _ & D & _ & _ & _ & _ & (A & _)).
    rewrite D. split.
    + intros [E|E] H; rewrite E; apply A in H; rewrite H; reflexivity.
    + intros [H|H].
      * destruct (armed s), (fut s); cbn; auto; exfalso; apply H; auto.
      * destruct (armed s); [|reflexivity]. exfalso. apply H, A. reflexivity.
Qed.

Lemma never_started s : reachable s -> calls s = 0 -> log s = [].
Proof.
  intros R H. destruct (reachable_inv _ R) as [[-> | ->]|[f L]]; auto.
  unfold live in L. cs. lia.
Qed.

Lemma called_once s : reachable s -> calls s <= 1.
Proof.
  intros R. destruct (reachable_inv _ R) as [[-> | ->]|[f L]]; cbn; auto.
  unfold live in L. cs. lia.
Qed.

Lemma channel_freed s : reachable s ->
  ~ In EBad (log s) /\ frees s <= 1 /\ (completed s -> over s -> frees s = 1) /\
  (fut s = RWait -> frees s = 0).
Proof.
  intros R. destruct (reachable_inv _ R) as [[-> | ->]|[f L]].
  - cbn. split; [tauto|]. split; [auto|]. split; auto. intros [_ H]. cbn in H. lia.
  - cbn. split; [tauto|]. split; [auto|]. split; auto. intros [_ H]. cbn in H. lia.
  - unfold live in L. destruct L as (L1 & L2 & L3 & L4 & L5 & L6 & L7 & L8 & L9 & L10 & _).
    split; [auto|]. split; [rewrite L10; destruct (strong s =? 0); auto|]. split.
    + intros [C1 C2] O. rewrite L10, L3. rewrite L2 in C1. rewrite L7 in C2.
      destruct f; cbn in *; try discriminate; try lia. destruct O as [-> | ->]; reflexivity.
    + intros E. rewrite L10, L3, E. destruct f; reflexivity.
Qed.

Lemma accounted s : reachable s -> completed s -> over s -> readies s + discards s = 1.
Proof.
  intros R C O. destruct (reachable_inv _ R) as [[-> | ->]|[f L]].
  - destruct C as [_ C]. cbn in C. lia.
  - destruct C as [_ C]. cbn in C. lia.
  - unfold live in L. destruct L as (L1 & L2 & L3 & L4 & L5 & L6 & L7 & L8 & L9 & L10 & L11 & _).
    destruct C as [C1 C2]. rewrite L2 in C1. rewrite L7 in C2. rewrite L8, L11, L3.
    destruct f; cbn in *; try discriminate; try lia. destruct O as [-> | ->]; reflexivity.
Qed.

(** ** A method that never completes *)

Lemma idle_step s o s' : live F1 s -> (forall v, o <> Complete v) -> step s o = Some s' -> live F1 s'.
Proof.
  intros L N E. destruct (live_step _ _ _ _ L E) as [f L'].
  assert (X: right s' = true).
  { unfold live in L. cbn in L. destruct L as (L1 & L2 & _). clear L'.
    destruct o; cbn in E; unfold touch, dec, drop_callback in E; rewrite ?L1, ?L2 in E; cbn in E;
    try (exfalso; eapply N; reflexivity); try (destruct i; discriminate);
    repeat match type of E with
    | context [match ?x with _ => _ end] => let q := fresh "Q" in destruct x eqn:q; try discriminate
    end; injection E as <-; cbn in *; auto. }
  assert (Y: f = F1); [|subst; auto].
  unfold live in L'. destruct L' as (L1 & _). rewrite X in L1. destruct f; cbn in L1; congruence.
Qed.

Lemma no_completion_no_result s os s' :
  reachable s -> calls s = 1 -> right s = true ->
  (forall v, ~ In (Complete v) os) -> run s os = Some s' -> readies s' = 0.
Proof.
  intros R C Rt N E. destruct (reachable_inv _ R) as [[-> | ->]|[f L]]; try discriminate.
  assert (f = F1). { unfold live in L. destruct L as (L1 & _). rewrite Rt in L1. destruct f; cbn in L1; congruence. }
  subst f. clear R C Rt. revert s L E N. induction os as [|o os IH]; intros s L E N; cbn in E.
  - injection E as <-. unfold live, val_ok in L. cs. destruct (fut s); cbn in *; try lia; discriminate.
  - destruct (step s o) as [s1|] eqn:E1; [|discriminate].
    eapply IH; [|exact E|].
    + eapply idle_step; eauto. intros v ->. apply (N v). left; reflexivity.
    + intros v Hv. apply (N v). right; auto.
Qed.

(** ** The foreign helpers *)

Lemma at_most_once lower lower_e r :
  length (python_plain lower r) <= 1 /\ length (python_with_error lower lower_e r) <= 1 /\
  length (kotlin_plain lower r) <= 1 /\ length (kotlin_with_error lower lower_e r) <= 1 /\
  length (swift_plain r) <= 1 /\ length (swift_with_error r) <= 1.
Proof.
  destruct r; cbn; try destruct (lower v); try destruct (lower_e e); cbn; lia.
Qed.

Lemma exactly_once lower lower_e r :
  lowers lower lower_e r -> r <> IsCancelled ->
  python_plain lower r = [expected_plain r] /\
  python_with_error lower lower_e r = [expected_with_error r] /\
  kotlin_plain lower r = [expected_plain r] /\
  kotlin_with_error lower lower_e r = [expected_with_error r] /\
  swift_plain r = [expected_plain r] /\ swift_with_error r = [expected_with_error r].
Proof.
  destruct r; cbn; intros H N; try rewrite H; repeat split; auto; congruence.
Qed.

Lemma not_completed :
  (exists lower v, python_plain lower (Returns v) = [] /\ kotlin_plain lower (Returns v) = [] /\
     forall lower_e, kotlin_with_error lower lower_e (Returns v) = []) /\
  (exists lower_e e, forall lower, kotlin_with_error lower lower_e (Throws e) = []) /\
  (forall lower lower_e, python_plain lower IsCancelled = [] /\ python_with_error lower lower_e IsCancelled = []).
Proof.
  split; [|split].
  - exists (fun v => (v <? 256)%Z), 300%Z. repeat split.
  - exists (fun v => (v <? 256)%Z), 300%Z. reflexivity.
  - intros. split; reflexivity.
Qed.

Lemma discarded : exists s, reachable s /\ completed s /\ over s /\ In (EFreed (Some 42%Z)) (log s).
Proof.
  eexists. split.
  - exists [Poll 1; Setup true; GoRust; DropFuture; GoRust; GoRust; Complete 42; GoSend 0; GoSend 0; GoSend 0].
    vm_compute; reflexivity.
  - vm_compute. intuition.
Qed.
