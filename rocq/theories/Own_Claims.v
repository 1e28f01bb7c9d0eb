(** From the exact count to the claims. *)
From Verif Require Import Base Own_Model Own_Spec Own_Proofs Own_Calls Own_Cross.
From Coq Require Import Lia.

Lemma fine_writable v : all_of fine v -> all_of writable v.
Proof. apply Forall_impl. intros p [-> | ->]; discriminate. Qed.
Lemma fine_readable v : all_of fine v -> all_of readable v.
Proof. apply Forall_impl. intros p [-> | ->]; discriminate. Qed.
Lemma args_writable vs : Forall (all_of fine) vs -> Forall (all_of writable) vs.
Proof. apply Forall_impl. apply fine_writable. Qed.
Lemma args_readable vs : Forall (all_of fine) vs -> Forall (all_of readable) vs.
Proof. apply Forall_impl. apply fine_readable. Qed.

(** * Nothing is left *)
Lemma final_fine L decl body : body_fine L decl body ->
  plus (fst (answer body)) (final L decl (snd (answer body))) = (0, 0).
Proof.
  destruct body as [v|e|[]]; cbn [body_fine answer]; [| |auto|auto].
  - intros H. rewrite (unsent_none _ (fine_writable _ H)). cbn [or_msg fst snd final].
    now rewrite (unread_none _ _ (fine_readable _ H)).
  - intros [H D]. rewrite (unsent_none e (fine_writable (Packed e) H)). cbn [or_msg fst snd final].
    assert (forall keeps, unread keeps (Packed e) = None) as U.
    { intros keeps. apply unread_none. now apply (fine_readable (Packed e)). }
    destruct D as [-> |[-> [-> | ->]]]; cbn [error_lost]; rewrite U; reflexivity.
Qed.
Lemma reply_fine L decl d : deed_fine d ->
  exists k, reply L decl d = Some ((0, 0), k) /\ areply L decl d = Some ((0, 0), Some k) /\ rust_final k = (0, 0).
Proof.
  destruct d as [v|e|]; cbn [deed_fine reply areply].
  - intros H. rewrite (unsent_none _ (fine_writable _ H)). exists (KOk v). repeat split. cbn.
    now rewrite (unread_none _ _ (fine_readable _ H)).
  - intros H. rewrite (unsent_none e (fine_writable (Packed e) H)). destruct decl; [exists (KErr e)|exists KMsg]; repeat split.
    cbn. now rewrite (unread_none _ _ (fine_readable (Packed e) H)).
  - intros _. exists KMsg. auto.
Qed.

Lemma smooth_left c : smooth c -> left_by c = Some (0, 0).
Proof.
  destruct c as [L decl failed args body|L decl failed i args body|L decl args d|L decl w args d]; cbn [smooth left_by].
  - intros [A B]. unfold left_call. rewrite (unsent_all_none _ (args_writable _ A)).
    rewrite (unread_all_none _ _ (args_readable _ A)). cbn [or_zero body_after].
    rewrite (final_fine _ _ _ B). reflexivity.
  - intros (A & B & ->). unfold left_call_async. rewrite (unsent_all_none _ (args_writable _ A)).
    rewrite (unread_all_none _ _ (args_readable _ A)). cbn [or_zero body_after].
    replace (interrupted L Never) with Never by now destruct L.
    rewrite (final_fine _ _ _ B). reflexivity.
  - intros (A & D). unfold left_callback. rewrite (unsent_all_none _ (args_writable _ A)).
    rewrite (unread_all_none _ _ (args_readable _ A)).
    destruct (reply_fine L decl d D) as (k & -> & _ & F). cbn [option_map fst snd]. now rewrite F.
  - intros (A & D & ->). unfold left_callback_async. rewrite (unsent_all_none _ (args_writable _ A)).
    rewrite (unread_all_none _ _ (args_readable _ A)). cbn [tasked].
    destruct (reply_fine L decl d D) as (k & _ & -> & F). now rewrite F.
Qed.

Lemma nothing_left cs : Forall smooth cs -> clean (history cs).
Proof.
  intros F. apply leaves_clean, history_leaves. induction F as [|c cs H F IH]; [reflexivity|].
  cbn [left_by_all]. now rewrite (smooth_left _ H), IH.
Qed.

(** * What is left *)
Lemma unsendable_argument L decl failed before v after body :
  Forall (all_of writable) before -> ~ all_of writable v ->
  (L <> Swift ->
   leaves (cross (ToRust L decl failed (before ++ v :: after) body))
     (total buffers_of before) (total objects_of before + objects (until_unwritable (parts v)))) /\
  (L = Swift -> ends_process (cross (ToRust L decl failed (before ++ v :: after) body))).
Proof.
  intros W N. split; intros H.
  - apply cross_leaves. cbn [left_by]. unfold left_call. rewrite (unsent_all_split _ _ _ W N).
    destruct L; try congruence; reflexivity.
  - apply cross_ends. cbn [left_by]. unfold left_call. rewrite (unsent_all_split _ _ _ W N). now rewrite H.
Qed.

Lemma refused_argument L decl before v after body :
  Forall (all_of writable) (before ++ v :: after) -> Forall (all_of readable) before -> ~ all_of readable v ->
  leaves (cross (ToRust L decl None (before ++ v :: after) body))
    (total buffers_of after) (objects (after_unreadable (parts v)) + total objects_of after).
Proof.
  intros W R N. apply cross_leaves. cbn [left_by]. unfold left_call. rewrite (unsent_all_none _ W).
  rewrite (unread_all_split _ _ _ _ R N). cbn [or_zero body_after refusal answer fst snd final].
  now rewrite !plus_0_r.
Qed.

Lemma unsendable_result L decl failed args v :
  Forall (all_of fine) args -> ~ all_of writable v ->
  leaves (cross (ToRust L decl failed args (Returns v))) 0 (objects (until_unwritable (parts v))).
Proof.
  intros A N. apply cross_leaves. cbn [left_by]. unfold left_call.
  rewrite (unsent_all_none _ (args_writable _ A)), (unread_all_none _ _ (args_readable _ A)).
  cbn [body_after answer or_zero]. rewrite (unsent_some _ N). cbn [or_msg fst snd final]. now rewrite plus_0_r, plus_0_l.
Qed.

Lemma refused_result L decl failed args v :
  Forall (all_of fine) args -> all_of writable v -> ~ all_of readable v ->
  leaves (cross (ToRust L decl failed args (Returns v)))
    (match L with Swift => buffers_of v | _ => 0 end) (objects (after_unreadable (parts v))).
Proof.
  intros A W N. apply cross_leaves. cbn [left_by]. unfold left_call.
  rewrite (unsent_all_none _ (args_writable _ A)), (unread_all_none _ _ (args_readable _ A)).
  cbn [body_after answer or_zero]. rewrite (unsent_none _ W). cbn [or_msg fst snd final].
  rewrite (unread_some _ _ N). rewrite !plus_0_l. cbn [or_zero]. now destruct L.
Qed.

Lemma error_object L failed args e :
  Forall (all_of fine) args -> Forall fine e ->
  leaves (cross (ToRust L ObjectError failed args (Fails e))) (match L with Kotlin | Swift => 1 | _ => 0 end) 0.
Proof.
  intros A F. apply cross_leaves. cbn [left_by]. unfold left_call.
  rewrite (unsent_all_none _ (args_writable _ A)), (unread_all_none _ _ (args_readable _ A)).
  cbn [body_after answer or_zero]. rewrite (unsent_none e (fine_writable (Packed e) F)). cbn [or_msg fst snd final].
  rewrite !plus_0_l. destruct L; cbn [error_lost]; now rewrite (unread_none _ _ (fine_readable (Packed e) F)).
Qed.

Lemma interrupted_call L decl failed args body :
  L <> Swift -> Forall (all_of fine) args ->
  (forall v, body = Returns v -> all_of writable v ->
    leaves (cross (ToRustAsync L decl failed WhenReady args body)) (buffers_of v) (objects_of v)) /\
  (forall e, body = Fails e -> Forall writable e ->
    leaves (cross (ToRustAsync L decl failed WhenReady args body)) 1 (objects e)) /\
  (body = Panics true -> leaves (cross (ToRustAsync L decl failed WhenReady args body)) 1 0) /\
  clean (cross (ToRustAsync L decl failed WhilePending args body)).
Proof.
  intros NS A.
  assert (left_by (ToRustAsync L decl failed WhenReady args body) =
    Some (plus (fst (answer body)) (whole (snd (answer body))))) as E.
  { cbn [left_by]. unfold left_call_async.
    rewrite (unsent_all_none _ (args_writable _ A)), (unread_all_none _ _ (args_readable _ A)).
    cbn [body_after or_zero]. rewrite plus_0_l. now destruct L. }
  repeat split.
  - intros v -> W. apply cross_leaves. rewrite E. cbn [answer]. now rewrite (unsent_none _ W).
  - intros e -> W. apply cross_leaves. rewrite E. cbn [answer]. now rewrite (unsent_none _ W).
  - intros ->. apply cross_leaves. now rewrite E.
  - apply leaves_clean, cross_leaves. cbn [left_by]. unfold left_call_async.
    rewrite (unsent_all_none _ (args_writable _ A)), (unread_all_none _ _ (args_readable _ A)).
    cbn [body_after or_zero]. rewrite plus_0_l. destruct L; (reflexivity || congruence).
Qed.

Lemma callback_refused_argument L decl before v after d :
  Forall (all_of writable) (before ++ v :: after) -> Forall (all_of readable) before -> ~ all_of readable v ->
  leaves (cross (ToForeign L decl (before ++ v :: after) d))
    (match L with Swift => buffers_of v | _ => 0 end + total buffers_of after)
    (objects (after_unreadable (parts v)) + total objects_of after).
Proof.
  intros W R N. apply cross_leaves. cbn [left_by]. unfold left_callback. rewrite (unsent_all_none _ W).
  rewrite (unread_all_split _ _ _ _ R N). now destruct L.
Qed.

Lemma callback_dropped_before_start L decl args d :
  L <> Swift -> Forall (all_of writable) args ->
  leaves (cross (ToForeignAsync L decl BeforeStart args d)) (total buffers_of args) (total objects_of args + 1).
Proof.
  intros NS W. apply cross_leaves. cbn [left_by]. unfold left_callback_async. rewrite (unsent_all_none _ W).
  destruct L; try congruence; rewrite whole_values_total; unfold plus; cbn [fst snd]; now rewrite Nat.add_0_r.
Qed.

Lemma callback_dropped_while_running L decl args v :
  Forall (all_of fine) args -> all_of writable v ->
  leaves (cross (ToForeignAsync L decl WhileRunning args (Answers v)))
    (match L with Python | Ruby => 0 | Kotlin => 1 | Swift => buffers_of v end)
    (match L with Python | Ruby => 1 | Kotlin => 0 | Swift => objects_of v end).
Proof.
  intros A W. apply cross_leaves. cbn [left_by]. unfold left_callback_async.
  rewrite (unsent_all_none _ (args_writable _ A)), (unread_all_none _ _ (args_readable _ A)).
  destruct L; try reflexivity. cbn [reacts tasked areply]. now rewrite (unsent_none _ W).
Qed.

Lemma callback_answer_dropped L decl args v :
  Forall (all_of fine) args -> all_of writable v ->
  leaves (cross (ToForeignAsync L decl Answered args (Answers v))) (buffers_of v) (objects_of v).
Proof.
  intros A W. apply cross_leaves. cbn [left_by]. unfold left_callback_async.
  rewrite (unsent_all_none _ (args_writable _ A)), (unread_all_none _ _ (args_readable _ A)).
  cbn [tasked areply]. now rewrite (unsent_none _ W).
Qed.

Lemma callback_never_answered L decl args v :
  (L = Python /\ decl = false) \/ L = Kotlin ->
  Forall (all_of fine) args -> ~ all_of writable v ->
  leaves (cross (ToForeignAsync L decl Kept args (Answers v))) 0 (objects (until_unwritable (parts v)) + 2).
Proof.
  intros H A N. apply cross_leaves. cbn [left_by]. unfold left_callback_async.
  rewrite (unsent_all_none _ (args_writable _ A)), (unread_all_none _ _ (args_readable _ A)).
  cbn [tasked areply]. rewrite (unsent_some _ N). destruct H as [[-> ->]| ->]; reflexivity.
Qed.

(** * Without bound *)
Lemma repeated c b r n : left_by c = Some (b, r) -> leaves (history (repeat c n)) (n * b) (n * r).
Proof.
  intros E. apply history_leaves. induction n as [|n IH]; [reflexivity|]. cbn [repeat left_by_all]. rewrite E, IH.
  reflexivity.
Qed.

Lemma object_errors L n : L = Kotlin \/ L = Swift ->
  leaves (history (repeat (ToRust L ObjectError None [] (Fails [Object])) n)) n 0.
Proof.
  intros H. rewrite <- (Nat.mul_1_r n) at 2. rewrite <- (Nat.mul_0_r n) at 2. apply repeated.
  destruct H as [-> | ->]; reflexivity.
Qed.
Lemma refused_results n : leaves (history (repeat (ToRust Swift NoError None [] (Returns (Packed [Unreadable]))) n)) n 0.
Proof. rewrite <- (Nat.mul_1_r n) at 2. rewrite <- (Nat.mul_0_r n) at 2. apply repeated. reflexivity. Qed.
Lemma unsendable_arguments L n : L <> Swift ->
  leaves (history (repeat (ToRust L NoError None [Packed [Object]; Packed [Unwritable]] (Panics true)) n)) n n.
Proof.
  intros H. rewrite <- (Nat.mul_1_r n) at 2 3. apply repeated. destruct L; try congruence; reflexivity.
Qed.
Lemma refused_arguments L n :
  leaves (history (repeat (ToRust L NoError None [Packed [Unreadable]; Packed [Object]] (Panics true)) n)) n n.
Proof. rewrite <- (Nat.mul_1_r n) at 2 3. apply repeated. now destruct L. Qed.
Lemma cancelled_calls L n : L <> Swift ->
  leaves (history (repeat (ToRustAsync L NoError None WhenReady [] (Returns (Packed [Object]))) n)) n n.
Proof.
  intros H. rewrite <- (Nat.mul_1_r n) at 2 3. apply repeated. destruct L; try congruence; reflexivity.
Qed.
Lemma dropped_callbacks L n :
  exists w d, w <> Kept /\ leaves (history (repeat (ToForeignAsync L false w [] d) n)) 0 n.
Proof.
  exists (match L with Swift => Answered | _ => BeforeStart end), (Answers (Direct Object)).
  split; [now destruct L|].
  enough (leaves (history (repeat (ToForeignAsync L false (match L with Swift => Answered | _ => BeforeStart end) []
    (Answers (Direct Object))) n)) (n * 0) (n * 1)) as H by now rewrite Nat.mul_0_r, Nat.mul_1_r in H.
  apply repeated. now destruct L.
Qed.
