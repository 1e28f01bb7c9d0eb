(** The theorems about asynchronous calls in the JNI bindings. *)
From Verif Require Import Jasync_Model Jasync_Spec Jasync_Proofs.

Section mode.
Variable inline has_result : bool.

(** Memory: whoever has a pointer may use it. *)
Lemma alive : forall s, reach inline has_result s -> points s -> 0 < strong s.
Proof.
  intros s R P. destruct (i_counts _ _ _ (inv_reach _ _ s R)) as (C & _). rewrite C.
  destruct P as [P | [P | [P | [w P]]]]; [| lia | lia | rewrite P; cbn; lia].
  destruct (at_ s); cbn [is_finished negb n]; try lia. exfalso. exact (P e eq_refl).
Qed.
(** And when nobody has one, it is gone, with all global references. *)
Lemma gone : forall s, reach inline has_result s -> ~ points s -> strong s = 0 /\ refs s = 0 /\ frees s = 1.
Proof.
  intros s R P. destruct (inv_reach _ _ s R) as [Sh _ L (C & D & E) _].
  assert (F : exists e, at_ s = Finished e).
  { destruct (at_ s) eqn:A; try solve [exfalso; apply P; left; intros e0; rewrite A; discriminate]. eauto. }
  assert (W : wakers s = 0) by (destruct (wakers s) eqn:W; [reflexivity | exfalso; apply P; right; left; lia]).
  assert (T : waiting s = 0) by (destruct (waiting s) eqn:T; [reflexivity | exfalso; apply P; right; right; left; lia]).
  assert (B : by_waker (lock s) = false).
  { destruct (lock s) as [| | w] eqn:B; [reflexivity | reflexivity |]. exfalso. apply P. right. right. right. eauto. }
  destruct F as [e F]. unfold shape in Sh. rewrite F in *. cbn [shape_of] in Sh. destruct Sh as ((S1 & S2) & _).
  rewrite W, T, B in C. rewrite S1 in D. cbn in C, D, E.
  assert (R0 : has_ref (lock s) = false) by (destruct (lock s) as [| | w]; [reflexivity | reflexivity | discriminate B]).
  rewrite R0 in D. cbn in D. auto.
Qed.
Lemma freed_once : forall s, reach inline has_result s -> frees s <= 1.
Proof.
  intros s R. destruct (i_counts _ _ _ (inv_reach _ _ s R)) as (_ & _ & E). rewrite E. destruct (is_finished (at_ s)); cbn; lia.
Qed.

(** Continuations are resumed once. *)
Lemma resumed_once : forall s k, reach inline has_result s -> resumes s k -> resumable s k.
Proof.
  intros s k R K. destruct (inv_reach _ _ s R) as [Sh _ [L _] _ _]. unfold shape in Sh. unfold resumable.
  destruct K as [K | K].
  - unfold idle, armed in Sh. rewrite K in *. cbn [is_resume] in *.
    destruct (at_ s) as [| | | | | k1 | | [| v | e] | | | | [|] | e | e]; cbn [shape_of] in Sh.
    all: try solve [destruct Sh as [[_ K2] _]; discriminate K2].
    + destruct Sh as (_ & (_ & K2) & _). discriminate K2.
    + destruct Sh as (_ & [(F & [(_ & K2) | (K2 & _)]) | (_ & _ & K2)]); try discriminate K2. injection K2 as ->. auto.
    + destruct Sh as (_ & [(F & [(_ & K2) | (K2 & _)]) | (_ & _ & K2)]); try discriminate K2. injection K2 as ->. auto.
    + destruct Sh as [(_ & F & [(_ & K2) | (K2 & _)]) | [(_ & _ & _ & K2) | (_ & _ & _ & K2)]]; try discriminate K2. injection K2 as ->. auto.
    + destruct Sh as (_ & F & [(_ & K2) | (K2 & _)]); try discriminate K2. injection K2 as ->. auto.
  - rewrite K in Sh. cbn [shape_of] in Sh. destruct Sh as (-> & _ & F & _). auto.
Qed.

(** The result. *)
Lemma result_made : forall s e, reach inline has_result s -> at_ s = Finished e -> exists r, ended s = Some r /\ e = made has_result r.
Proof.
  intros s e R F. pose proof (i_shape _ _ _ (inv_reach _ _ s R)) as Sh. unfold shape in Sh. rewrite F in Sh. exact (proj2 Sh).
Qed.
Lemma result_shown : forall s e, reach inline has_result s -> at_ s = Finished e ->
  exists r, ended s = Some r /\ (e = shown has_result r \/ r = Ready None /\ has_result = true /\ e = NullPointer).
Proof.
  intros s e R F. destruct (result_made s e R F) as (r & E & ->). exists r. split; [exact E |].
  destruct r as [[z |] | x | m]; cbn; unfold deliver; destruct has_result; auto.
Qed.
Lemma not_polled_again : forall s, reach inline has_result s -> at_ s = Future_ -> ended s = None.
Proof.
  intros s R F. pose proof (i_shape _ _ _ (inv_reach _ _ s R)) as Sh. unfold shape in Sh. rewrite F in Sh. exact (proj2 (proj2 Sh)).
Qed.
(** The poll function never finds another continuation in the scheduler, and it does not find it cancelled. *)
Lemma not_replaced : forall s, reach inline has_result s -> at_ s = Holding -> sch s = Empty \/ sch s = Waked.
Proof.
  intros s R F. destruct (inv_reach _ _ s R) as [Sh Sc _ _ _]. unfold shape in Sh. rewrite F in Sh. cbn [shape_of] in Sh.
  unfold idle in Sh. destruct Sh as ((K & _) & _). destruct (sch s); auto; try discriminate K; try (exfalso; apply Sc; reflexivity).
Qed.
Lemma end_kept : forall k s s' r, step inline has_result k s s' -> reach inline has_result s -> ended s = Some r -> ended s' = Some r.
Proof.
  intros k s s' r T R E. destruct T; cbn [ended] in *; try exact E.
  pose proof (not_polled_again _ R eq_refl) as K. cbn in K. congruence.
Qed.
End mode.

(** Progress, when coroutines are dispatched. *)
Section dispatched.
Variable has_result : bool.
Notation reach := (reach false has_result).
Notation step := (step false has_result).

Lemma moves : forall s, reach s ->
  finished s \/ at_ s = Top \/ (exists s', step Sys s s') \/ at_ s = Sleeping /\ woken s = false.
Proof.
  intros s R. pose proof (inv_reach _ _ s R) as [Sh Sc [[L1 L1'] L2] (C & D & E) H].
  destruct s as [s1 l c f p w wt st_ rf en wo fr ca]. unfold shape in Sh. cbn [at_ lock waiting sch cur saf ended strong refs wakers woken] in *.
  unfold idle, armed, heard in *. cbn [at_ sch lock cur saf ended woken waiting] in *.
  (* the lock is held by a waker *)
  destruct l as [| | [| k | | |]].
  3: { right. right. left. eexists. apply wake_take. }
  3: { pose proof (resumed_once false has_result _ k R (or_introl eq_refl)) as (-> & [F | [F F2]]); cbn [saf at_ cur] in *; subst.
       - right. right. left. eexists. apply wake_undecided.
       - right. right. left. eexists. apply wake_asleep. }
  3: { destruct (L2 eq_refl) as [K _]. discriminate K. }
  3: { right. right. left. assert (X : exists x, rf = S x) by (destruct rf; [cbn in D; destruct (is_set s1); cbn in D; lia | eauto]).
       destruct X as [x ->]. eexists. apply wake_delete. }
  3: { right. right. left. assert (X : exists x, st_ = S x) by (destruct st_; [cbn in C; lia | eauto]).
       destruct X as [x ->]. eexists. apply wake_unlock. }
  - (* free *)
    destruct wt as [| wt]; [| right; right; left; eexists; apply wake_lock].
    destruct p as [| | | | | k | | [| v | e] | | | | [|] | e | e]; cbn [shape_of] in Sh.
    + auto.
    + right. right. left. eexists. apply check.
    + right. right. left. eexists. apply pending.
    + right. right. left. eexists. apply store.
    + discriminate (L1' (or_introl eq_refl)).
    + discriminate (L1' (or_intror (or_introl (ex_intro _ k eq_refl)))).
    + discriminate (L1' (or_intror (or_intror eq_refl))).
    + right. right. left. destruct st_; [cbn in C; lia |]. eexists. apply returning_pending.
    + right. right. left. destruct st_; [cbn in C; lia |]. destruct Sh as (_ & -> & _). eexists. apply returning_complete.
    + right. right. left. destruct st_; [cbn in C; lia |]. eexists. apply returning_raised.
    + right. right. left. destruct Sh as [(_ & -> & _) | [(_ & -> & _) | (_ & -> & _)]]; eexists; [apply block_suspended | apply block_resumed | apply block_resumed].
    + right. right. right. split; [reflexivity |]. destruct Sh as (-> & -> & A).
      destruct A as [[-> _] | [A _]]; [| discriminate A]. destruct wo; [| reflexivity]. exfalso.
      destruct (H eq_refl) as [K | [K | [K | [K | [[? K] | [[? K] | K]]]]]]; try discriminate K; try lia. now destruct K.
    + right. right. left. eexists. apply dispatched.
    + right. right. left. destruct Sh as (_ & v & ->). eexists. apply over.
    + right. right. left. eexists. apply again.
    + right. right. left. destruct st_; [cbn in C; lia |]. eexists. apply freeing.
    + left. exists e. reflexivity.
  - (* held by the poll function *)
    destruct (L1 eq_refl) as [-> | [[k ->] | ->]]; cbn [shape_of] in Sh.
    + right. right. left. eexists. apply holding.
    + destruct Sh as (-> & _ & -> & _). assert (X : exists x, rf = S x) by (destruct rf; [cbn in D; lia | eauto]).
      destruct X as [x ->]. right. right. left. eexists. apply resuming.
    + right. right. left. eexists. apply unlocking.
Qed.
Lemma stands_still : forall s, reach s -> still false has_result s -> finished s \/ at_ s = Sleeping /\ woken s = false.
Proof.
  intros s R S. destruct (moves s R) as [F | [T | [[s' T] | T]]]; [now left | | | now right].
  - exfalso. destruct s as [s1 l c f p w wt st_ rf en wo fr ca]. cbn in T. subst p. eapply (S Begin); [discriminate | apply begin_].
  - exfalso. eapply (S Sys); [discriminate | exact T].
Qed.

(** The steps between two polls come to an end. *)
Definition pc_rank (p : pc) : nat :=
  match p with
  | Check => 20 | Future_ => 19 | Store => 18 | Holding => 17 | Resuming _ => 16 | Unlocking => 15 | Returning _ => 14
  | BlockEnds => 13 | Sleeping => 12 | Runnable => 11 | After _ => 10 | Freeing _ => 9 | Top | Finished _ => 0
  end.
Definition lock_rank (l : holder) : nat :=
  match l with ByWaker Take => 5 | ByWaker (Resume _) => 4 | ByWaker Inside => 3 | ByWaker Delete => 2 | ByWaker Unlock => 1 | _ => 0 end.
Definition rank (s : st) : nat := pc_rank (at_ s) + lock_rank (lock s) + 6 * waiting s.
Lemma rank_step : forall s s', step Sys s s' -> rank s' < rank s.
Proof.
  intros s s' T. inversion T; subst; unfold rank; cbn [at_ lock waiting pc_rank lock_rank]; try lia.
  - destruct s1; cbn; lia.
  - destruct s1; cbn; lia.
  - destruct s1; cbn; lia.
Qed.
Lemma steps_end : forall s, exists bound, forall k s', counted false has_result k s s' -> k <= bound.
Proof.
  intros s. exists (rank s). assert (K : forall k s0 s', counted false has_result k s0 s' -> k + rank s' <= rank s0).
  { induction 1 as [s0 | k s1 s2 s3 A IH T]; [lia |]. pose proof (rank_step _ _ T). lia. }
  intros k s' C. specialize (K k s s' C). lia.
Qed.
Lemma steps_reach : forall s s', steps false has_result s s' -> reach s -> reach s'.
Proof. induction 1 as [s | s1 s2 s3 A IH T]; [auto |]. intros R. exact (reach_step _ _ _ _ _ (IH R) T). Qed.
Lemma woken_stays : forall s s', steps false has_result s s' -> woken s = true -> woken s' = true.
Proof.
  induction 1 as [s | s1 s2 s3 A IH T]; [auto |]. intros W. specialize (IH W). clear -IH T.
  inversion T; subst; cbn [woken] in *; exact IH.
Qed.
(** A future that was woken is polled again, or the call ends. *)
Lemma polled_again : forall s s', reach s -> woken s = true -> steps false has_result s s' -> (forall s2, ~ step Sys s' s2) ->
  at_ s' = Top \/ finished s'.
Proof.
  intros s s' R W T N. destruct (moves s' (steps_reach _ _ T R)) as [F | [A | [[s2 A] | [A B]]]]; [now right | now left | |].
  - exfalso. exact (N s2 A).
  - rewrite (woken_stays _ _ T W) in B. discriminate B.
Qed.
End dispatched.

(** ** Rust awaits a coroutine *)
Lemma answer_right : forall throws a, awaited throws a = Some (answer throws a).
Proof.
  intros throws [lo me [th ar im]]. unfold awaited, start_call, answer, run_coroutine. cbn [a_lower a_method a_run c_there c_args c_impl].
  destruct lo; [| reflexivity]. destruct me; [| reflexivity]. destruct th; [| reflexivity]. destruct ar; [| destruct im; reflexivity].
  destruct im as [v l1 l2 st | e l1 l2 st | m]; [| | reflexivity].
  - destruct l1; [| reflexivity]. destruct l2; reflexivity.
  - destruct throws; [| reflexivity]. destruct l1; [| reflexivity]. destruct l2; reflexivity.
Qed.
Lemma sender_used_once : forall throws a, clean a -> uses (snd (start_call throws a)) <= 1
  /\ (a_lower a = Fine -> a_method a = Fine -> uses (snd (start_call throws a)) = 1).
Proof.
  intros throws [lo me [th ar im]] C. unfold clean, start_call, run_coroutine in *. cbn [a_lower a_method a_run c_there c_args c_impl] in *.
  destruct lo; [| cbn; split; [lia | discriminate]]. destruct me; [| cbn; split; [lia | discriminate]].
  assert (U : forall l, uses l = 1 -> uses l <= 1 /\ (Fine = Fine -> Fine = Fine -> uses l = 1)) by (intros l ->; auto).
  destruct th; [| apply U; reflexivity]. destruct ar; [| apply U; reflexivity].
  destruct im as [v l1 l2 st | e l1 l2 st | m]; [| | apply U; reflexivity].
  - subst st. destruct l1; apply U; reflexivity.
  - subst st. destruct throws; [| apply U; reflexivity]. destruct l1; apply U; reflexivity.
Qed.
