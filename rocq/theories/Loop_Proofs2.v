From Verif Require Import Base Async_Model Async_Spec Async_Proofs Async_Proofs2 Async_Proofs3 Async_Proofs4 Loop_Model Loop_Spec Loop_Proofs.

Lemma in_invoked h c s : In (EInvoke h c) (log s) -> 1 <= invoked h s.
Proof.
  unfold invoked. induction (log s) as [|e l IH]; intros H; [destruct H|]. rewrite count_cons. destruct H as [->|H].
  - cbn. rewrite Nat.eqb_refl. cbn. lia.
  - apply IH in H. lia.
Qed.

Lemma in_readied h s : In (EInvoke h CReady) (log s) -> 1 <= count is_readied (log s).
Proof.
  induction (log s) as [|e l IH]; intros H; [destruct H|]. rewrite count_cons. destruct H as [->|H]; [cbn; lia|]. apply IH in H. lia.
Qed.

Lemma occ_len (l : list nat) x : count_occ Nat.eq_dec l x <= length l.
Proof. induction l; cbn; auto. destruct (Nat.eq_dec a x); lia. Qed.

(** A step of the rest of the world. *)
Lemma finv_rust s o s' : finv s -> fstep s (Rust o) = Some s' -> finv s'.
Proof.
  intros [F1 F2 F3 F4 F5 F6 F7 F8 F9 F10 F11 F12 F13] H. cbn [fstep] in H.
  destruct (is_call o) eqn:Ho; [discriminate|]. destruct (step (rust s) o) as [r|] eqn:S; [|discriminate].
  assert (H' : s' = match invokes_of o (rust s) with
    | Some (h, c) => callback h c (mkf r (pc s) (conts s) (queue s) (got s) (nexth s) (flog s))
    | None => mkf r (pc s) (conts s) (queue s) (got s) (nexth s) (flog s) end).
  { destruct o; try discriminate Ho; try (injection H as <-; reflexivity). cbn [invokes_of].
    destruct (nth_error (acts (rust s)) i) as [a|]; [destruct a|]; injection H as <-; reflexivity. }
  clear H. pose proof (path_reach s F1) as Re.
  assert (P1 : exists os, run init os = Some r /\ one_at_a_time init os).
  { destruct F1 as (os & R & O). exists (os ++ [o]). destruct (one_snoc os init _ o r O R); auto. destruct o; auto; discriminate. }
  assert (P2 : handle r = negb (ended (pc s))) by (rewrite (handle_step _ _ _ Ho S); auto).
  assert (P3 : phase (pc s) r).
  { destruct (pc s); cbn [phase] in *.
    - exact (early_step _ _ _ F3 (or_introl Ho) S).
    - exact (early_step _ _ _ F3 (or_introl Ho) S).
    - destruct F3 as [F3 N]. split; [exact (early_step _ _ _ F3 (or_introl Ho) S)|].
      (* the result stays: nothing but complete and free takes it *)
      destruct F3 as [E1 E2 E3 E4 E5 E6]. clear - E1 E2 E3 N S Ho. destr_step S; try discriminate Ho.
      1-6: injection S as <-; fields; auto.
      pose proof (sum_remove completing _ _ _ Heqo) as R1.
      pose proof (sum_remove ending _ _ _ Heqo) as R2.
      go_cases S a; calc7; try lia; fields; auto; discriminate.
    - destruct F3 as [F3|F3]; [eapply mid_step; eauto|right; eapply after_step; eauto; intros ->; discriminate].
    - eapply after_step; eauto; intros ->; discriminate.
    - eapply after_step; eauto; intros ->; discriminate. }
  assert (Tk : forall cb, tracks (is_invoke_of cb)) by (intros; constructor; reflexivity).
  assert (Ti : tracks (fun e => match e with EInvoke _ _ => true | _ => false end)) by (constructor; reflexivity).
  pose proof (fun cb => invoked_step _ (Tk cb) _ _ _ Ho S) as Inv. pose proof (invoked_step _ Ti _ _ _ Ho S) as Invs.
  pose proof (invoke_log _ _ _ Ho S) as Log. pose proof (fun cb => polled_step cb _ _ _ Ho S) as Pol. pose proof (polls_step _ _ _ Ho S) as Pols.
  destruct (invokes_of o (rust s)) as [[h c]|] eqn:Iv.
  - (* a continuation is called back *)
    assert (Occ : 1 <= count_occ Nat.eq_dec (conts s) h).
    { pose proof (reach_cb _ Re h) as C. rewrite F6 in C. cut (1 <= sum (holds h) (acts (rust s))); [lia|].
      destruct o; cbn [invokes_of] in Iv; try discriminate. destruct (nth_error (acts (rust s)) i) as [a|] eqn:N; [|discriminate].
      destruct a; try discriminate. injection Iv as <- <-. replace 1 with (holds cb (AInvoke cb c0 k)) by (cbn; rewrite Nat.eqb_refl; auto).
      apply sum_in. eapply nth_in; eauto. }
    unfold callback in H'; cbn [conts rust pc queue got nexth flog] in H'.
    destruct (remove_h h (conts s)) as [l|] eqn:Rm; [|apply remove_h_none in Rm; lia].
    destruct (remove_h_some _ _ _ Rm) as [L1 L2]. subst s'.
    constructor; cbn [conts rust pc queue got nexth flog]; auto.
    + destruct (pc s); cbn [phase_conts] in *; try (rewrite F4 in Rm; discriminate); try lia.
      destruct F4 as [F4 [F4'|F4']]; rewrite F4' in *; [|discriminate]. cbn in L1. destruct l; [auto|cbn in L1; lia].
    + rewrite Pols. unfold invokes in *. rewrite Invs. cbn [b1]. lia.
    + intros cb. rewrite Pol, F6. unfold invoked in *. rewrite Inv. cbn [is_invoke_of]. rewrite L2.
      destruct (Nat.eq_dec h cb), (Nat.eqb_spec h cb); try congruence; cbn [b1]; lia.
    + intros cb. rewrite Pol. auto.
    + intros h0 c0 X. rewrite Log. rewrite <- app_assoc in X. apply in_app_or in X. destruct X as [X|[X|X]].
      * left. apply F8. apply in_or_app. auto.
      * right. rewrite X. auto.
      * left. apply F8. apply in_or_app. auto.
    + intros h0 c0 X. apply Log in X. rewrite <- app_assoc. apply in_or_app. destruct X as [X|X].
      * apply F9 in X. apply in_app_or in X. destruct X; [auto|right; right; auto].
      * injection X as <- <-. right. left. auto.
    + intros h0 X. rewrite Pol. auto.
  - subst s'. constructor; cbn [conts rust pc queue got nexth flog]; auto.
    + rewrite Pols. unfold invokes in *. lia.
    + intros cb. rewrite Pol, F6. unfold invoked in *. rewrite Inv. lia.
    + intros cb. rewrite Pol. auto.
    + intros h c X. rewrite Log. auto.
    + intros h c X. apply Log in X. destruct X as [X|X]; [auto|discriminate].
    + intros h X. rewrite Pol. auto.
Qed.

Lemma finv_deliver s i s' : finv s -> fstep s (Deliver i) = Some s' -> finv s'.
Proof.
  intros [F1 F2 F3 F4 F5 F6 F7 F8 F9 F10 F11 F12 F13] H. cbn [fstep] in H. destruct (nth_error (queue s) i) as [x|] eqn:N; [|discriminate].
  injection H as <-. constructor; cbn [conts rust pc queue got nexth flog]; auto.
  - intros h c X. apply F8. apply in_or_app. apply in_app_or in X. destruct X as [X|[X|X]]; auto.
    + left. eapply in_remove; eauto.
    + left. subst. eapply nth_in; eauto.
  - intros h c X. apply F9 in X. apply in_app_or in X. apply in_or_app. destruct X as [X|X]; [|right; right; auto].
    clear - X N. revert i N. induction (queue s) as [|y q IH]; intros i N; destruct i; cbn in *; try contradiction; try discriminate.
    + injection N as ->. destruct X; auto.
    + destruct X as [X|X]; auto. destruct (IH X i N); auto.
Qed.

Lemma frees_cons e l : frees (e :: l) = (match e with FFree => 1 | _ => 0 end) + frees l.
Proof. destruct e; reflexivity. Qed.
Lemma completes_cons e l : completes (e :: l) = (match e with FComplete => 1 | _ => 0 end) + completes l.
Proof. destruct e; reflexivity. Qed.

Lemma finv_cancel s s' : finv s -> fstep s CancelTask = Some s' -> finv s'.
Proof.
  intros [F1 F2 F3 F4 F5 F6 F7 F8 F9 F10 F11 F12 F13] H. cbn [fstep] in H. destruct (pc s) eqn:P; try discriminate. injection H as <-.
  cbn in F2, F3, F4, F12. destruct F12 as (L1 & L2 & L3 & L4).
  constructor; cbn [conts rust pc queue got nexth flog phase phase_conts phase_log ended]; auto.
  - apply early_after; auto.
  - destruct F4 as [_ [-> | ->]]; cbn; lia.
  - intros h0 [X|X]; [discriminate|auto].
  - intros h0 c0 [X|X]; [discriminate|eauto].
  - rewrite frees_cons, completes_cons. split; [auto|right; split; [auto|left; eauto]].
  - cbn [orderly]. auto.
Qed.

Lemma finv_raise s s' : finv s -> fstep s Raise = Some s' -> finv s'.
Proof.
  intros [F1 F2 F3 F4 F5 F6 F7 F8 F9 F10 F11 F12 F13] H. cbn [fstep] in H. destruct (pc s) eqn:P; try discriminate. injection H as <-.
  cbn in F2, F3, F4, F12. destruct F12 as (L1 & L2).
  constructor; cbn [conts rust pc queue got nexth flog phase phase_conts phase_log ended]; auto.
  - apply early_after; auto.
  - rewrite F4; cbn; lia.
  - intros h0 [X|X]; [discriminate|auto].
  - intros h0 c0 [X|X]; [discriminate|eauto].
  - rewrite frees_cons, completes_cons. split; [auto|right; split; [auto|right; eauto]].
  - cbn [orderly]. auto.
Qed.

Lemma finv_task s s' : finv s -> fstep s Task = Some s' -> finv s'.
Proof.
  intros [F1 F2 F3 F4 F5 F6 F7 F8 F9 F10 F11 F12 F13] H. cbn [fstep] in H. pose proof (path_reach s F1) as Re.
  destruct (pc s) as [|h| | | |] eqn:P; cbn [phase phase_conts phase_log ended negb] in *.
  - (* poll *)
    injection H as <-. unfold ffi. destruct (step (rust s) (Poll (nexth s))) as [r|] eqn:S; [|cbn [step] in S; rewrite F2 in S; discriminate].
    destruct (call_log _ (Poll (nexth s)) _ eq_refl S) as (C & Hh & Hk & _).
    assert (Pc : polls (rust s) = invokes (rust s)) by (rewrite F5, F4; cbn; lia).
    assert (Q : forall h, polled h r = polled h (rust s) + b1 (Nat.eqb (nexth s) h)) by (intros; unfold polled; rewrite C by reflexivity; auto).
    assert (I : forall h, invoked h r = invoked h (rust s)) by (intros; unfold invoked; rewrite C by reflexivity; cbn; lia).
    constructor; cbn [conts rust pc queue got nexth flog phase phase_conts phase_log ended negb]; auto.
    + destruct F1 as (os & R & O). exists (os ++ [Poll (nexth s)]). destruct (one_snoc os init _ (Poll (nexth s)) r O R); auto.
    + apply Hk. discriminate.
    + eapply early_step; [exact F3|right; eauto|exact S].
    + rewrite F4. auto.
    + unfold polls, invokes in *. rewrite !C by reflexivity. cbn [length b1]. rewrite F4 in *. cbn [length] in *. lia.
    + intros cb. rewrite Q, I, F6. cbn [count_occ]. destruct (Nat.eq_dec (nexth s) cb), (Nat.eqb_spec (nexth s) cb); try congruence; cbn [b1]; lia.
    + intros cb. rewrite Q. destruct (F7 cb) as [G1 G2]. destruct (Nat.eqb_spec (nexth s) cb); cbn [b1]; split; try lia.
    + intros h c X. apply (call_invokes _ (Poll (nexth s)) _ h c eq_refl S). auto.
    + intros h c X. apply (call_invokes _ (Poll (nexth s)) _ h c eq_refl S) in X. auto.
    + intros h X. rewrite Q. destruct X as [X|X]; [injection X as <-; rewrite Nat.eqb_refl; destruct (F7 (nexth s)) as [_ G]; rewrite G by lia; cbn; lia|].
      apply F10 in X. destruct (Nat.eqb_spec (nexth s) h); cbn [b1]; lia.
    + intros h c [X|X]; [discriminate|]. apply F11 in X. lia.
    + rewrite frees_cons, completes_cons. cbn [Nat.add]. destruct F12 as [L1 L2]. repeat split; auto; [left; auto|].
      intros (c & [X|X]); [discriminate|]. apply F11 in X. lia.
    + cbn [orderly]. destruct F12 as [L1 L2]. repeat split; auto. intros X. apply F10 in X. lia.
  - (* resume *)
    destruct F12 as (L1 & L2 & L3 & L4). destruct F4 as [F4 F4'].
    destruct (lookup h (got s)) as [c|] eqn:Lk; [|discriminate]. apply lookup_in in Lk.
    assert (Inv : In (EInvoke h c) (log (rust s))) by (apply F8; apply in_or_app; auto).
    assert (C0 : conts s = []).
    { apply in_invoked in Inv. pose proof (F6 h). destruct (F7 h). destruct F4' as [X|X]; [|auto]. rewrite X in *. cbn in *. destruct (Nat.eq_dec h h); [lia|congruence]. }
    destruct c; injection H as <-; constructor; cbn [conts rust pc queue got nexth flog phase phase_conts phase_log ended negb]; auto.
    + split; auto. apply in_readied in Inv. destruct F3 as [_ _ _ _ E5 _]. apply E5. lia.
    + intros h0 [X|X]; [discriminate|auto].
    + intros h0 c0 [X|X]; [injection X as <- <-; lia|eauto].
    + rewrite frees_cons, completes_cons. repeat split; auto. eauto.
    + cbn [orderly]. auto.
    + intros h0 [X|X]; [discriminate|auto].
    + intros h0 c0 [X|X]; [injection X as <- <-; lia|eauto].
    + cbn [orderly]. auto.
  - (* complete *)
    destruct F12 as (L1 & L2 & L3). destruct F3 as [F3 N].
    injection H as <-. unfold ffi. destruct (step (rust s) Complete) as [r|] eqn:S; [|cbn [step] in S; rewrite F2 in S; discriminate].
    destruct (call_log _ Complete _ eq_refl S) as (C & Hh & Hk & _).
    constructor; cbn [conts rust pc queue got nexth flog phase phase_conts phase_log ended negb]; auto.
    + destruct F1 as (os & R & O). exists (os ++ [Complete]). destruct (one_snoc os init _ Complete r O R); auto.
    + apply Hk. discriminate.
    + left. eapply early_complete; eauto.
    + unfold polls, invokes in *. rewrite !C by reflexivity. lia.
    + intros cb. unfold polled, invoked in *. rewrite !C by reflexivity. rewrite F6. lia.
    + intros cb. unfold polled in *. rewrite !C by reflexivity. rewrite Nat.add_0_r. apply F7.
    + intros h c X. apply (call_invokes _ Complete _ h c eq_refl S). auto.
    + intros h c X. apply (call_invokes _ Complete _ h c eq_refl S) in X. auto.
    + intros h [X|X]; [discriminate|]. unfold polled. rewrite C by reflexivity. rewrite Nat.add_0_r. apply F10. auto.
    + intros h c [X|X]; [discriminate|eauto].
    + rewrite frees_cons, completes_cons. split; lia.
    + cbn [orderly]. auto.
  - (* complete returned *)
    destruct (existsb is_complete (acts (rust s))) eqn:Ex; [discriminate|]. injection H as <-.
    constructor; cbn [conts rust pc queue got nexth flog phase phase_conts phase_log ended negb]; auto.
    + destruct F3 as [[M _ _ _]|F3]; auto. exfalso. revert M Ex. clear. induction (acts (rust s)) as [|a l IH]; [cbn; lia|].
      rewrite sum_cons. destruct a; cbn [completing is_complete existsb orb]; try discriminate; auto.
    + rewrite F4. cbn. lia.
    + destruct F12. auto.
  - (* free *)
    destruct F12 as (L1 & L2).
    injection H as <-. unfold ffi. destruct (step (rust s) Free) as [r|] eqn:S; [|cbn [step] in S; rewrite F2 in S; discriminate].
    destruct (call_log _ Free _ eq_refl S) as (C & Hh & _ & Hk).
    constructor; cbn [conts rust pc queue got nexth flog phase phase_conts phase_log ended negb]; auto.
    + destruct F1 as (os & R & O). exists (os ++ [Free]). destruct (one_snoc os init _ Free r O R); auto.
    + eapply after_step; eauto. discriminate.
    + unfold polls, invokes in *. rewrite !C by reflexivity. lia.
    + intros cb. unfold polled, invoked in *. rewrite !C by reflexivity. rewrite F6. lia.
    + intros cb. unfold polled in *. rewrite !C by reflexivity. rewrite Nat.add_0_r. apply F7.
    + intros h c X. apply (call_invokes _ Free _ h c eq_refl S). auto.
    + intros h c X. apply (call_invokes _ Free _ h c eq_refl S) in X. auto.
    + intros h [X|X]; [discriminate|]. unfold polled. rewrite C by reflexivity. rewrite Nat.add_0_r. apply F10. auto.
    + intros h c [X|X]; [discriminate|eauto].
    + rewrite frees_cons, completes_cons. split; lia.
    + cbn [orderly]. split; auto. split; auto. tauto.
  - discriminate.
Qed.

Lemma finv_step s o s' : finv s -> fstep s o = Some s' -> finv s'.
Proof. destruct o; [apply finv_task|apply finv_cancel|apply finv_raise|apply finv_deliver|apply finv_rust]. Qed.

Lemma finv_run : forall os s s', finv s -> frun s os = Some s' -> finv s'.
Proof.
  induction os as [|o os IH]; intros s s' I H; cbn [frun] in H; [injection H as <-; auto|].
  destruct (fstep s o) as [s1|] eqn:E; [|discriminate]. exact (IH s1 s' (finv_step s o s1 I E) H).
Qed.

Lemma freach_inv s : freachable s -> finv s.
Proof. intros (os & H). eapply finv_run; eauto. apply finv_init. Qed.

(** ** Results *)

Lemma loop_orderly s : freachable s -> orderly (flog s).
Proof. intros H. apply freach_inv in H. apply H. Qed.

Lemma loop_frees s : freachable s -> frees (flog s) = (match pc s with TEnd => 1 | _ => 0 end) /\ completes (flog s) <= 1.
Proof.
  intros H. apply freach_inv in H. pose proof (f_log s H) as L. destruct (pc s); cbn in L; intuition; lia.
Qed.

Lemma loop_map_empty s : freachable s -> pc s = TEnd -> quiescent (rust s) -> conts s = [].
Proof.
  intros H E Q. apply freach_inv in H. pose proof (path_reach _ (f_path s H)) as Re.
  assert (Can : cancelled (log (rust s)) = true).
  { rewrite <- (l_cancel _ (reach_log _ Re)). pose proof (reach_free _ Re) as [_ F1 F2 _]. rewrite (f_handle s H), E in F1. cbn in F1.
    rewrite (sum_nil _ _ Q) in F1. rewrite F2 by lia. reflexivity. }
  destruct (conts s) as [|x l] eqn:C; auto. exfalso. pose proof (quiet_cancelled _ x Re Q Can) as A. pose proof (f_each s H x) as B.
  rewrite C in B. cbn in B. destruct (Nat.eq_dec x x); [lia|congruence].
Qed.

Lemma loop_result s o : freachable s -> In (EComplete o) (log (rust s)) -> exists v, o = Some v /\ In (EInnerDone v) (log (rust s)).
Proof.
  intros H I. apply freach_inv in H. pose proof (path_reach _ (f_path s H)) as Re.
  assert (N : count is_empty (log (rust s)) = 0).
  { pose proof (f_phase s H) as P. destruct (pc s); cbn in P.
    - apply none_le, P. - apply none_le, P. - apply none_le, P. - destruct P as [P|P]; [apply none_le, P|apply P]. - apply P. - apply P. }
  destruct o as [v|].
  - exists v. split; auto. destruct (in_split _ _ I) as (l1 & l2 & L). pose proof (result_from_future _ _ _ _ Re L) as X. rewrite L. apply in_or_app. right. right. auto.
  - exfalso. revert N I. clear. induction (log (rust s)) as [|e l IH]; intros N I; [destruct I|]. rewrite count_cons in N. destruct I as [->|I]; [cbn in N; lia|]. apply IH; auto. lia.
Qed.

Lemma loop_no_hang s h : freachable s -> settled s -> pc s = TAwait h -> fstep s Task = None ->
  woken (log (rust s)) = false /\ dones (rust s) = 0.
Proof.
  intros H [Q Qe] P St. apply freach_inv in H. destruct (f_path s H) as (os & R & O).
  assert (NG : lookup h (got s) = None).
  { cbn [fstep] in St. rewrite P in St. destruct (lookup h (got s)) as [[]|]; auto; discriminate. }
  assert (NI : invoked h (rust s) = 0).
  { destruct (invoked h (rust s)) as [|n] eqn:E; auto. exfalso.
    assert (X : exists c, In (EInvoke h c) (log (rust s))).
    { unfold invoked in E. clear - E. induction (log (rust s)) as [|e l IH]; [discriminate|]. rewrite count_cons in E. destruct (is_invoke_of h e) eqn:Ie.
      - destruct e; try discriminate. cbn in Ie. apply Nat.eqb_eq in Ie. subst. eexists. left. reflexivity.
      - destruct (IH E) as (c & X). exists c. right. auto. }
    destruct X as (c & X). apply (f_recv s H) in X. rewrite Qe in X. cbn in X. apply in_lookup in X. auto. }
  assert (PO : polled h (rust s) = 1).
  { pose proof (f_log s H) as L. rewrite P in L. destruct L as (_ & _ & L & _). apply (f_lt s H h L). }
  destruct (woken (log (rust s))) eqn:W.
  - pose proof (quiet_one _ _ h R O Q (or_introl W)). lia.
  - split; auto. destruct (dones (rust s)) eqn:D; auto. assert (X : 0 < dones (rust s)) by lia.
    pose proof (quiet_one _ _ h R O Q (or_intror (or_introl X))). lia.
Qed.

Lemma loop_progress s : freachable s -> settled s -> fstep s Task = None ->
  pc s = TEnd \/ exists h, pc s = TAwait h /\ woken (log (rust s)) = false /\ dones (rust s) = 0.
Proof.
  intros H St T. destruct (pc s) as [|h| | | |] eqn:P; auto; try (cbn [fstep] in T; rewrite P in T; discriminate).
  - right. exists h. split; auto. eapply loop_no_hang; eauto.
  - cbn [fstep] in T; rewrite P in T. destruct St as [Q _]. red in Q. rewrite Q in T. discriminate.
Qed.

Lemma loop_released s : freachable s -> pc s = TEnd -> quiescent (rust s) -> ext (rust s) = 0 ->
  deallocs (rust s) = 1 /\ ~ In EBad (log (rust s)).
Proof.
  intros H E Q X. apply freach_inv in H. pose proof (path_reach _ (f_path s H)) as Re.
  destruct (released _ Re) as (B & _ & D). split; auto. apply D. split; auto. rewrite (f_handle s H), E. reflexivity.
Qed.
