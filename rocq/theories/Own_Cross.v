(** The same for asynchronous callbacks, and for histories of calls. *)
From Verif Require Import Base Own_Model Own_Spec Own_Proofs Own_Calls.
Require Import Coq.Sorting.Permutation.
From Coq Require Import Lia.

Definition or_else (L : lang) (u : option lost) (k : kind) (instead : option kind) : option (lost * option kind) :=
  match u with
  | None => Some ((0, 0), Some k)
  | Some x => match L with Swift => None | _ => Some (x, instead) end
  end.
Definition areply (L : lang) (decl : bool) (d : deed) : option (lost * option kind) :=
  match d with
  | Answers v =>
    or_else L (unsent (parts v)) (KOk v)
      (match L with Python => if decl then Some KMsg else None | Kotlin => None | _ => Some KMsg end)
  | Raises e =>
    if decl then or_else L (unsent e) (KErr e) (match L with Kotlin => None | _ => Some KMsg end)
    else Some ((0, 0), Some KMsg)
  | Breaks => Some ((0, 0), Some KMsg)
  end.
Lemma areply_declared L decl d x k : areply L decl d = Some (x, Some k) -> declared_kind decl k.
Proof.
  destruct d as [v|e|]; cbn [areply].
  - destruct (unsent (parts v)), L, decl; cbn; intros [=]; subst; exact I.
  - destruct decl; [|intros [= <- <-]; exact I]. destruct (unsent e), L; cbn; intros [=]; subst; cbn; auto.
  - intros [= <- <-]. exact I.
Qed.

Definition atells (r : option (lost * option kind)) (P : cells) (o : out (option status)) (own : cells) : Prop :=
  match r with
  | Some (x, Some k) => exists st c d, o = Val (Some st) /\ states k st c /\ count d = x /\ Permutation own (c ++ d ++ P)
  | Some (x, None) => o = Val None /\ exists d, count d = x /\ Permutation own (d ++ P)
  | None => o = Trap
  end.

Lemma t_sent m r P : triple P m (tells r P) ->
  triple P (do st <- m; ret (Some st)) (atells (option_map (fun a => (fst a, Some (snd a))) r) P).
Proof.
  intros H. eapply t_bind; [exact H| | | |]; destruct r as [[x k]|]; cbn [tells option_map fst snd atells].
  all: try (intros own (st' & c & d & [=] & _); fail).
  - intros st own (st' & c & d & [= <-] & S & D & E). apply t_ret. exists st, c, d. auto.
  - discriminate.
  - discriminate.
  - reflexivity.
  - discriminate.
Qed.
Lemma t_attempted L m u k P : L <> Swift -> triple P m (tried Throw u k P) ->
  triple P (attempt m) (atells (or_else L u k None) P).
Proof.
  intros N H. eapply t_attempt; [exact H| | | |]; unfold tried; destruct u as [x|]; cbn [or_else].
  all: try (intros own (st' & c & [=] & _); fail).
  all: try (intros own ([=] & _); fail).
  - intros st own ([=] & _).
  - intros st own (st' & c & [= <-] & S & E). exists st, c, []. auto.
  - intros own (_ & d & D & E). destruct L; try congruence; cbn; (split; [auto|]); exists d; auto.
Qed.

Lemma t_async_answer L decl d P : triple P (async_answer L decl d) (atells (areply L decl d) P).
Proof.
  assert (forall v, triple P (do f <- lower L v; ret (Success f))
    (tried (failure L _) (unsent (parts v)) (KOk v) P)) as HV.
  { intros v. apply (t_try_value (failure L)); [apply failure_cases|]. intros. apply t_lower. }
  assert (forall e, triple P (do b <- pack L e; ret (Error (Some b)))
    (tried (failure L _) (unsent e) (KErr e) P)) as HE.
  { intros e. apply (t_try_error (failure L)); [apply failure_cases|]. intros. apply t_pack. }
  assert (triple P (do st <- message; ret (Some st)) (atells (Some ((0, 0), Some KMsg)) P)) as HM.
  { apply (t_sent message (Some ((0, 0), KMsg))). apply t_message. }
  assert (forall m u k, triple P m (tried (failure L _) u k P) ->
    triple P (do st <- catch m message; ret (Some st)) (atells (or_else L u k (Some KMsg)) P)) as HC.
  { intros m u k H. apply t_or_message' in H. apply t_sent in H.
    replace (or_else L u k (Some KMsg)) with
      (option_map (fun a : lost * kind => (fst a, Some (snd a))) (or_trap L u k KMsg)); [exact H|].
    destruct u as [x|], L; reflexivity. }
  assert (forall m u k i, L = Swift -> triple P m (tried (failure L _) u k P) ->
    triple P (do st <- m; ret (Some st)) (atells (or_else L u k i) P)) as HS.
  { intros m u k i -> H. apply t_or_nothing_swift in H. apply t_sent in H.
    replace (or_else Swift u k i) with
      (option_map (fun a : lost * kind => (fst a, Some (snd a))) (or_trap Swift u k KMsg)); [exact H|].
    destruct u as [x|]; reflexivity. }
  destruct d as [v|e|]; cbn [async_answer areply].
  - specialize (HV v). destruct L.
    + destruct decl; [now apply HC|]. now apply t_attempted.
    + now apply t_attempted.
    + now apply HS.
    + now apply HC.
  - destruct decl; [|exact HM]. specialize (HE e). destruct L.
    + now apply HC.
    + now apply t_attempted.
    + now apply HS.
    + now apply HC.
  - exact HM.
Qed.

Definition tasked (L : lang) (decl : bool) (u : option lost) (d : deed) : option (lost * option kind) :=
  match u with Some x => Some (x, Some KMsg) | None => areply L decl d end.
Lemma tasked_declared L decl u d x k : tasked L decl u d = Some (x, Some k) -> declared_kind decl k.
Proof. destruct u; cbn; [intros [= _ <-]; exact I|apply areply_declared]. Qed.

Lemma atells_after r d P P0 m : count d = (0, 0) -> Permutation P0 (d ++ P) ->
  (forall P, triple P m (atells r P)) -> triple P0 m (atells r P).
Proof.
  intros D E H. eapply t_perm; [exact E|]. eapply t_weaken; [apply H|]. unfold atells.
  destruct r as [[x [k|]]|]; [| |auto].
  - intros o own (st & c & d' & -> & S & D' & E'). exists st, c, (d' ++ d). repeat split; auto.
    + rewrite count_app, D, D'. apply plus_0_r.
    + rewrite E', <- app_assoc. reflexivity.
  - intros o own (-> & d' & D' & E'). split; [reflexivity|]. exists (d' ++ d). split.
    + rewrite count_app, D, D'. apply plus_0_r.
    + rewrite E', <- app_assoc. reflexivity.
Qed.

Lemma t_message_sent d x P P0 : count d = x -> Permutation P0 (d ++ P) ->
  triple P0 (do st <- message; ret (Some st)) (atells (Some (x, Some KMsg)) P).
Proof.
  intros D E. eapply t_bind; [apply (t_message_after d x P P0 D E)| | | |];
    try (intros own (st & c & d' & [=] & _); fail).
  intros st own (st' & c & d' & [= <-] & S & D' & E'). apply t_ret. exists st, c, d'. auto.
Qed.

Lemma t_task L decl args fs c d P P0 : carry args fs c -> Permutation P0 (c ++ P) ->
  triple P0 (task L decl fs d) (atells (tasked L decl (unread_all (keeps_buffer L) args) d) P).
Proof.
  intros C E. unfold task. set (u := unread_all (keeps_buffer L) args).
  eapply t_bind; [apply (t_try_lift (keeps_buffer L) (lift L) args fs c P P0)| | | |]; auto;
    try (intros own' [[=] _]; fail).
  - intros. eapply t_lift; eauto.
  - intros l own' [[= ->] (e & D & E')]. fold u. fold u in D. unfold tasked. destruct u as [x|].
    + now apply t_message_sent with e.
    + cbn [or_zero] in D. apply (atells_after _ e P _ _ D E'). intros. apply t_async_answer.
Qed.

(** Sending uses up the sender. *)
Lemma t_send {B} s r P own st (k : option status -> M B) (R : out B -> cells -> Prop) :
  atells r ((s, CRef) :: P) (Val st) own ->
  (forall own', atells (match r with Some (x, None) => Some (plus x (0, 1), None) | r => r end) P (Val st) own' ->
     triple own' (k st) R) ->
  triple own (do got <- send s st; k got) R.
Proof.
  unfold atells. destruct r as [[x [k'|]]|]; [| |discriminate].
  - intros (st' & c & d & Est & S & D & E) H. injection Est as ->. cbn [send].
    apply t_bind with (Q := fun o own => o = Val (Some st') /\ Permutation own (c ++ d ++ P));
      try (intros own' [[=] _]; fail).
    + apply (t_drop_ref s (c ++ d) P).
      * rewrite E, app_assoc. reflexivity.
      * intros own' E'. apply t_ret. split; [reflexivity|]. rewrite E', <- app_assoc. reflexivity.
    + intros got own' [[= ->] E']. apply H. exists st', c, d. auto.
  - intros (Est & d & D & E) H. injection Est as ->. cbn [send].
    apply t_bind with (Q := fun o own' => o = Val None /\ own' = own); try (intros own' [[=] _]; fail).
    + apply t_ret. auto.
    + intros got own' [[= ->] ->]. apply H. split; [reflexivity|]. exists (d ++ [(s, CRef)]). split.
      * rewrite count_app, D. reflexivity.
      * rewrite E, <- app_assoc. reflexivity.
Qed.

(** An answer that nobody waits for. *)
Definition unheard (r : option (lost * option kind)) : option lost :=
  match r with
  | None => None
  | Some (x, Some k) => Some (plus x (whole k))
  | Some (x, None) => Some (plus x (0, 1))
  end.
Definition left_callback_async (L : lang) (decl : bool) (w : dropped) (args : list value) (d : deed) : option lost :=
  match unsent_all args with
  | Some x => Some (plus x (0, 1))
  | None =>
    let u := unread_all (keeps_buffer L) args in
    let t := tasked L decl u d in
    match w with
    | Kept =>
      match t with
      | None => None
      | Some (x, Some k) => Some (plus x (rust_final k))
      | Some (x, None) => Some (plus x (0, 2))
      end
    | BeforeStart => match L with Swift => unheard t | _ => Some (plus (whole_values args) (0, 1)) end
    | WhileRunning =>
      match u with
      | Some x => Some (plus x (1, 0))
      | None => match reacts L with Silent => Some (0, 1) | Reports => Some (1, 0) | GoesOn => unheard t end
      end
    | Answered => unheard t
    end
  end.

(** What is left after an answer was put in the channel. *)
Lemma atells_unheard r st P own :
  atells (match r with Some (x, None) => Some (plus x (0, 1), None) | r => r end) P (Val st) own ->
  exists y, unheard r = Some y /\ exists d, count d = y /\ Permutation own (d ++ P).
Proof.
  destruct r as [[x [k|]]|]; cbn [atells unheard]; [| |discriminate].
  - intros (st' & c & d & _ & S & D & E). eexists. split; [reflexivity|]. exists (c ++ d). split.
    + rewrite count_app, (states_count _ _ _ S), D. apply plus_comm.
    + rewrite E, app_assoc. reflexivity.
  - intros (_ & d & D & E). eexists. split; [reflexivity|]. exists d. auto.
Qed.
Lemma atells_trap r P : atells r P Trap P -> r = None.
Proof. destruct r as [[x [k|]]|]; cbn; [intros (st & c & d & [=] & _)|intros [[=] _]|auto]. Qed.

Lemma t_answer_then {B} r s P P0 (m : M (option status)) (k : option status -> M B) (R : out B -> cells -> Prop) :
  triple P0 m (atells r ((s, CRef) :: P)) ->
  (forall own st, atells (match r with Some (x, None) => Some (plus x (0, 1), None) | r => r end) P (Val st) own ->
     triple own (k st) R) ->
  (forall own, r = None -> R Trap own) ->
  triple P0 (do st <- m; do got <- send s st; k got) R.
Proof.
  intros H H1 H2. eapply t_bind; [exact H| | | |].
  - intros st own A. eapply t_send; [exact A|]. intros own' A'. now apply H1.
  - intros own. destruct r as [[x [k'|]]|]; cbn; [intros (st & c & d & [=] & _)|intros [[=] _]|discriminate].
  - intros own. destruct r as [[x [k'|]]|]; cbn; [intros (st & c & d & [=] & _)|intros [[=] _]|auto].
  - intros own. destruct r as [[x [k'|]]|]; cbn; [intros (st & c & d & [=] & _)|intros [[=] _]|discriminate].
Qed.

Lemma t_callback_async L decl w args d P :
  triple P (callback_async L decl w args d) (outcome (left_callback_async L decl w args d) P).
Proof.
  unfold callback_async.
  apply t_bind with (Q := fun o own => exists i, o = Val i /\ own = (i, CRef) :: P);
    [apply t_new; eauto| | | |]; try (now intros own2 (j & ? & _)).
  intros s own (s' & [= <-] & ->). apply t_rust_send_args.
  2: { intros own d' x U D E. unfold left_callback_async. rewrite U. split; [auto|]. exists (d' ++ [(s, CRef)]). split.
    - rewrite count_app, D. reflexivity.
    - rewrite E, <- app_assoc. reflexivity. }
  intros fs c own U C E. unfold left_callback_async. rewrite U.
  set (u := unread_all (keeps_buffer L) args).
  apply t_bind with (Q := fun o own' => exists i, o = Val i /\ own' = (i, CRef) :: own);
    [apply t_new; eauto| | | |]; try (now intros own2 (j & ? & _)).
  intros e own' (e' & [= <-] & ->).
  assert (Permutation ((e, CRef) :: own) (c ++ (s, CRef) :: (e, CRef) :: P)) as E1.
  { rewrite E. rewrite Permutation_middle. apply Permutation_app_head. apply perm_swap. }
  assert (triple ((e, CRef) :: own) (task L decl fs d)
    (atells (tasked L decl u d) ((s, CRef) :: (e, CRef) :: P))) as HT by now apply t_task with (c := c).
  destruct w.
  - eapply t_answer_then; [exact HT| |].
    2: { intros own' ->. reflexivity. }
    intros own' st A. destruct (tasked L decl u d) as [[x [k|]]|] eqn:T; cbn [atells] in A; [| |discriminate A].
    + destruct A as (st' & c' & d' & [= ->] & S & D & E2).
      apply t_bind with (Q := fun o own => exists r, o = Val r /\
        exists d2, count d2 = plus x (rust_final k) /\ Permutation own (d2 ++ (e, CRef) :: P));
        try (intros own4 (r & [=] & _); fail).
      * eapply t_attempt; [apply (t_rust_finish decl k st' c' _ _ (tasked_declared _ _ _ _ _ _ T) S E2)| | | |].
        -- intros r own4 Ov. apply over_more in Ov. destruct Ov as [_ (d2 & D2 & E4)].
           exists (Some r). split; [reflexivity|]. exists d2. split; [|exact E4]. rewrite D2, D. apply plus_comm.
        -- intros own4 Ov. apply over_more in Ov. destruct Ov as [_ (d2 & D2 & E4)].
           exists None. split; [reflexivity|]. exists d2. split; [|exact E4]. rewrite D2, D. apply plus_comm.
        -- intros own4 [[[=]|[=]] _].
        -- intros own4 [[[=]|[=]] _].
      * intros r own4 (r' & _ & d2 & D2 & E4). apply (t_drop_ref e d2 P _ _ _ E4). intros own5 E5.
        destruct r; [apply t_ret|apply t_raise]; (split; [auto|]); exists d2; auto.
    + destruct A as ([= ->] & d' & D & E2). apply t_raise. split; [auto|]. exists (d' ++ [(e, CRef)]). split.
      * rewrite count_app, D. unfold plus. cbn. f_equal; lia.
      * rewrite E2, <- app_assoc. reflexivity.
  - apply (t_drop_ref e (c ++ [(s, CRef)]) P).
    { rewrite E1, <- app_assoc. reflexivity. }
    intros own2 E2. assert (Permutation own2 (c ++ (s, CRef) :: P)) as E3.
    { rewrite E2, <- app_assoc. reflexivity. }
    assert (forall P', triple P' (ret tt) (fun o own => o = Val tt /\ own = P')) as R.
    { intros P'. apply t_ret. auto. }
    assert (count (c ++ [(s, CRef)]) = plus (whole_values args) (0, 1)) as D2.
    { rewrite count_app, (carry_count _ _ _ C). reflexivity. }
    destruct L.
    1,2,4: apply t_ret; (split; [auto|]); exists (c ++ [(s, CRef)]); auto.
    eapply t_answer_then; [apply (t_task Swift decl args fs c d ((s, CRef) :: P) own2 C E3)| |].
    + intros own' st A. apply atells_unheard in A. fold u in A. destruct A as (y & -> & Dy).
      apply t_ret. split; auto.
    + fold u. intros own' ->. reflexivity.
  - eapply t_bind; [apply (t_try_lift (keeps_buffer L) (lift L) args fs c ((s, CRef) :: (e, CRef) :: P) ((e, CRef) :: own));
      [intros; eapply t_lift; eauto|exact C|exact E1]| | | |];
      try (intros own' [[=] _]; fail).
    intros l own' [[= ->] (d' & D & E')]. fold u. fold u in D. destruct u as [x|] eqn:Eu.
    + cbn [or_zero] in D. eapply t_bind; [apply (t_message_after d' x _ _ D E')| | | |];
        try (intros own2 (st & c' & d2 & [=] & _); fail).
      intros st own2 (st' & c' & d2 & [= <-] & S & D2 & E2). cbn [send].
      apply t_bind with (Q := fun o own => o = Val (Some st) /\ Permutation own (c' ++ d2 ++ (e, CRef) :: P));
        try (intros own3 [[=] _]; fail).
      * apply (t_drop_ref s (c' ++ d2) ((e, CRef) :: P)).
        -- rewrite E2, app_assoc. reflexivity.
        -- intros own3 E3. apply t_ret. split; [reflexivity|]. rewrite E3, app_assoc. reflexivity.
      * intros got own3 [_ E3]. apply (t_drop_ref e (c' ++ d2) P).
        -- rewrite E3, app_assoc. reflexivity.
        -- intros own4 E4. apply t_ret. split; [auto|]. exists (c' ++ d2). split; [|exact E4].
           rewrite count_app, (states_count _ _ _ S), D2. apply plus_comm.
    + cbn [or_zero] in D. apply (t_drop_ref e (d' ++ [(s, CRef)]) P).
      { rewrite E', <- app_assoc. reflexivity. }
      intros own2 E2. assert (Permutation own2 (d' ++ (s, CRef) :: P)) as E3.
      { rewrite E2, <- app_assoc. reflexivity. }
      assert (outcome (Some (0, 1)) P (Val tt) own2) as Silence.
      { split; [auto|]. exists (d' ++ [(s, CRef)]). split; [|exact E2]. rewrite count_app, D. reflexivity. }
      destruct L; cbn [reacts].
      * now apply t_ret.
      * eapply t_bind; [apply (t_message_after d' (0, 0) _ _ D E3)| | | |];
          try (intros own3 (st & c' & d2 & [=] & _); fail).
        intros st own3 (st' & c' & d2 & [= <-] & S & D2 & E4). cbn [send].
        apply t_bind with (Q := fun o own => o = Val (Some st) /\ Permutation own (c' ++ d2 ++ P));
          try (intros own4 [[=] _]; fail).
        -- apply (t_drop_ref s (c' ++ d2) P).
           ++ rewrite E4, app_assoc. reflexivity.
           ++ intros own4 E5. apply t_ret. split; [reflexivity|]. rewrite E5, app_assoc. reflexivity.
        -- intros got own4 [_ E5]. apply t_ret. split; [auto|]. exists (c' ++ d2). split.
           ++ rewrite count_app, (states_count _ _ _ S), D2. reflexivity.
           ++ rewrite E5, app_assoc. reflexivity.
      * eapply t_answer_then; [| |].
        -- apply (atells_after (areply Swift decl d) d' _ _ _ D E3). intros. apply t_async_answer.
        -- intros own3 st A. apply atells_unheard in A. cbn [tasked]. destruct A as (y & -> & Dy).
           apply t_ret. split; auto.
        -- cbn [tasked]. intros own3 ->. reflexivity.
      * now apply t_ret.
  - eapply t_answer_then; [exact HT| |].
    + intros own' st A. apply atells_unheard in A. destruct A as (y & -> & d' & D & E2).
      apply (t_drop_ref e d' P _ _ _ E2). intros own3 E3. apply t_ret. split; [auto|]. exists d'. auto.
    + intros own' ->. reflexivity.
Qed.

(** * Any call, any history *)
Definition left_by (c : crossing) : option lost :=
  match c with
  | ToRust L decl failed args body => left_call L decl failed args body
  | ToRustAsync L decl failed i args body => left_call_async L decl failed i args body
  | ToForeign L decl args d => left_callback L decl args d
  | ToForeignAsync L decl w args d => left_callback_async L decl w args d
  end.
Theorem t_cross c P : triple P (cross c) (outcome (left_by c) P).
Proof. destruct c; [apply t_call|apply t_call_async|apply t_callback|apply t_callback_async]. Qed.

Fixpoint left_by_all (cs : list crossing) : option lost :=
  match cs with
  | [] => Some (0, 0)
  | c :: cs' =>
    match left_by c, left_by_all cs' with
    | Some x, Some y => Some (plus x y)
    | _, _ => None
    end
  end.
Lemma t_history cs P : triple P (history cs) (fun o own =>
  match left_by_all cs with
  | Some x => o = Val tt /\ exists d, count d = x /\ Permutation own (d ++ P)
  | None => o = Trap
  end).
Proof.
  revert P. induction cs as [|c cs IH]; intros P; cbn [history left_by_all].
  - apply t_ret. split; [reflexivity|]. exists []. auto.
  - apply t_bind with (Q := fun o own =>
      match left_by c with
      | Some x => (exists r, o = Val r) /\ exists d, count d = x /\ Permutation own (d ++ P)
      | None => o = Trap
      end).
    + eapply t_attempt; [apply t_cross| | | |]; unfold outcome; destruct (left_by c) as [x|].
      * intros a own [_ D]. split; [eauto|exact D].
      * discriminate.
      * intros own [_ D]. split; [eauto|exact D].
      * discriminate.
      * intros own [[[=]|[=]] _].
      * auto.
      * intros own [[[=]|[=]] _].
      * discriminate.
    + intros r own. destruct (left_by c) as [x|]; [|discriminate]. intros [_ (d & D & E)].
      eapply t_perm; [exact E|]. eapply t_weaken; [apply IH|]. cbn beta.
      destruct (left_by_all cs) as [y|]; [|auto]. intros o own' [-> (d' & D' & E')]. split; [reflexivity|].
      exists (d' ++ d). split.
      * rewrite count_app, D, D'. apply plus_comm.
      * rewrite E', <- app_assoc. reflexivity.
    + intros own. destruct (left_by c) as [x|]; [|discriminate]. intros [[r [=]] _].
    + intros own. destruct (left_by c) as [x|]; [|auto]. intros [[r [=]] _].
    + intros own. destruct (left_by c) as [x|]; [|discriminate]. intros [[r [=]] _].
Qed.

Lemma count_eq l b r : count l = (b, r) -> buffers l = b /\ references l = r.
Proof. intros [= <- <-]. auto. Qed.

Lemma cross_leaves c b r : left_by c = Some (b, r) -> leaves (cross c) b r.
Proof.
  intros E h T. destruct (t_cross c [] h (live h) T (Permutation_refl _)) as (o & h' & own & E1 & T1 & P1 & Q).
  rewrite E in Q. destruct Q as [O (d & D & E2)]. rewrite app_nil_r in E2.
  exists o, h', own. repeat split; auto; try (destruct O as [-> | ->]; discriminate); try apply T1.
  - rewrite (buffers_perm _ _ E2). now apply count_eq in D as [? _].
  - rewrite (references_perm _ _ E2). now apply count_eq in D as [_ ?].
Qed.
Lemma history_leaves cs b r : left_by_all cs = Some (b, r) -> leaves (history cs) b r.
Proof.
  intros E h T. destruct (t_history cs [] h (live h) T (Permutation_refl _)) as (o & h' & own & E1 & T1 & P1 & Q).
  cbn beta in Q. rewrite E in Q. destruct Q as [-> (d & D & E2)]. rewrite app_nil_r in E2.
  exists (Val tt), h', own. repeat split; auto; try discriminate; try apply T1.
  - rewrite (buffers_perm _ _ E2). now apply count_eq in D as [? _].
  - rewrite (references_perm _ _ E2). now apply count_eq in D as [_ ?].
Qed.
Lemma leaves_clean {A} (m : M A) : leaves m 0 0 -> clean m.
Proof.
  intros H h T. destruct (H h T) as (o & h' & d & E & N1 & N2 & T' & P & B & R).
  exists o, h'. repeat split; auto; try apply T'. destruct d as [|[i [|ss]] d]; [exact P|discriminate R|discriminate B].
Qed.
Lemma cross_ends c : left_by c = None -> ends_process (cross c).
Proof.
  intros E h T. destruct (t_cross c [] h (live h) T (Permutation_refl _)) as (o & h' & own & E1 & T1 & P1 & Q).
  rewrite E in Q. rewrite E1. exact Q.
Qed.
Lemma history_sound cs : sound (history cs).
Proof.
  intros h T. destruct (t_history cs [] h (live h) T (Permutation_refl _)) as (o & h' & own & E1 & T1 & P1 & Q).
  exists o, h', own. repeat split; auto; try apply T1. cbn beta in Q.
  destruct (left_by_all cs) as [x|]; [destruct Q as [-> _]|rewrite Q]; discriminate.
Qed.
