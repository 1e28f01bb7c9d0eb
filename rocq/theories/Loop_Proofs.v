From Verif Require Import Base Async_Model Async_Spec Async_Proofs Async_Proofs2 Async_Proofs3 Async_Proofs4 Loop_Model Loop_Spec.

(** ** The Rust side before, during and after the complete call *)

Definition completing (a : act) : nat := match a with AComplete => 1 | _ => 0 end.
Arguments completing !a /.
Definition ending (a : act) : nat :=
  match a with ACancel _ | AFree | AInvoke _ _ KFree | AWake KFree => 1 | _ => 0 end.
Arguments ending !a /.
Definition readying (a : act) : nat := match a with AInvoke _ CReady _ => 1 | _ => 0 end.
Arguments readying !a /.
Definition is_readied (e : event) : bool := match e with EInvoke _ CReady => true | _ => false end.
Definition is_completed (e : event) : bool := match e with EComplete _ => true | _ => false end.
Definition is_empty (e : event) : bool := match e with EComplete None => true | _ => false end.

Record early (s : st) : Prop := {
  e_comp : sum completing (acts s) = 0;
  e_end : sum ending (acts s) = 0;
  e_can : is_cancelled (sch s) = false;
  e_fut : fut s = false -> res s <> None;
  e_ready : 0 < sum readying (acts s) + count is_readied (log s) -> res s <> None;
  e_none : count is_completed (log s) = 0 }.

Record mid (s : st) : Prop := {
  m_comp : sum completing (acts s) = 1;
  m_end : sum ending (acts s) = 0;
  m_res : res s <> None;
  m_none : count is_completed (log s) = 0 }.

Record after (s : st) : Prop := {
  a_comp : sum completing (acts s) = 0;
  a_one : count is_completed (log s) <= 1;
  a_none : count is_empty (log s) = 0 }.

Lemma early_init : early init.
Proof. constructor; cbn; auto; try discriminate; lia. Qed.

Ltac calc7 := cbn [completing ending readying is_readied is_completed is_empty b1 some is_kdrop is_kkeep is_kfree Nat.mul Nat.add] in *.

Lemma early_step s o s' : early s -> is_call o = false \/ (exists cb, o = Poll cb) -> step s o = Some s' -> early s'.
Proof.
  intros [E1 E2 E3 E4 E5 E6] Ho H. destr_step H.
  all: try (destruct Ho as [Ho|[cb0 Ho]]; discriminate).
  1-7: try match goal with b : bool |- _ => destruct b end; injection H as <-; constructor; fields; rewrite ?sum_cons; counts; calc7; auto.
  pose proof (sum_remove completing _ _ _ Heqo) as R1.
  pose proof (sum_remove ending _ _ _ Heqo) as R2.
  pose proof (sum_remove readying _ _ _ Heqo) as R3.
  go_cases H a; calc7; try lia; try (rewrite Heqs0 in * ); calc7;
    try (match goal with c : code |- _ => destruct c end); calc7; constructor; fields; rewrite ?sum_cons; counts; calc7; try lia; auto; try congruence;
    try (intros; apply E5; lia); try (cbn in *; congruence).
Qed.

Lemma early_complete s s' : early s -> res s <> None -> step s Complete = Some s' -> mid s'.
Proof.
  intros [E1 E2 E3 E4 E5 E6] N H. cbn [step] in H. destruct (handle s); [|discriminate]. injection H as <-.
  constructor; fields; rewrite ?sum_cons; counts; calc7; auto.
Qed.

Lemma none_le l : count is_completed l = 0 -> count is_empty l = 0.
Proof.
  induction l as [|e l IH]; auto. rewrite !count_cons. destruct e as [| | | | | | |[]| | |]; calc7; lia.
Qed.

Lemma early_after s : early s -> after s.
Proof. intros [E1 E2 E3 E4 E5 E6]. constructor; auto; [lia|]. apply none_le; auto. Qed.

Lemma mid_step s o s' : mid s -> is_call o = false -> step s o = Some s' -> mid s' \/ after s'.
Proof.
  intros [E1 E2 E3 E4] Ho H. pose proof (none_le _ E4) as E5. destr_step H.
  all: try discriminate Ho.
  1-6: left; injection H as <-; constructor; fields; rewrite ?sum_cons; counts; calc7; auto; destruct by_value; calc7; auto.
  pose proof (sum_remove completing _ _ _ Heqo) as R1.
  pose proof (sum_remove ending _ _ _ Heqo) as R2.
  go_cases H a; calc7; try lia.
  all: try (left; constructor; fields; rewrite ?sum_cons; counts; calc7; try lia; auto; congruence).
  right. destruct (res s); [|destruct (E3 eq_refl)]. constructor; fields; rewrite ?sum_cons; counts; calc7; lia.
Qed.

Lemma after_step s o s' : after s -> o <> Complete -> step s o = Some s' -> after s'.
Proof.
  intros [E1 E2 E3] Ho H. destr_step H; try (destruct (Ho eq_refl)).
  1-9: injection H as <-; constructor; fields; rewrite ?sum_cons; counts; calc7; try lia; auto.
  pose proof (sum_remove completing _ _ _ Heqo) as R1.
  go_cases H a; calc7; try lia; constructor; fields; rewrite ?sum_cons; counts; calc7; lia.
Qed.

(** ** Lists *)

Lemma one_snoc : forall os s s1 o s2, one_at_a_time s os -> run s os = Some s1 ->
  match o with Poll _ => polls s1 = invokes s1 | _ => True end -> step s1 o = Some s2 ->
  one_at_a_time s (os ++ [o]) /\ run s (os ++ [o]) = Some s2.
Proof.
  induction os as [|x os IH]; intros s s1 o s2 O R Ho S; cbn [app run one_at_a_time] in *.
  - injection R as <-. rewrite S. auto.
  - destruct O as [O1 O2]. destruct (step s x) as [s'|]; [|discriminate]. destruct (IH _ _ _ _ O2 R Ho S). auto.
Qed.

Lemma remove_h_some h : forall l l', remove_h h l = Some l' ->
  length l = S (length l') /\ forall x, count_occ Nat.eq_dec l x = count_occ Nat.eq_dec l' x + (if Nat.eq_dec h x then 1 else 0).
Proof.
  induction l as [|y l IH]; intros l' H; cbn in H; [discriminate|]. destruct (Nat.eqb_spec y h) as [Eq|N].
  - subst. injection H as <-. split; auto. intros x. cbn. destruct (Nat.eq_dec h x); lia.
  - destruct (remove_h h l) as [l''|] eqn:E; [|discriminate]. injection H as <-. destruct (IH _ eq_refl) as [I1 I2].
    split; [cbn; lia|]. intros x. specialize (I2 x). cbn. destruct (Nat.eq_dec y x); lia.
Qed.

Lemma remove_h_none h : forall l, remove_h h l = None -> count_occ Nat.eq_dec l h = 0.
Proof.
  induction l as [|y l IH]; intros H; cbn in *; auto. destruct (Nat.eqb_spec y h); [discriminate|].
  destruct (remove_h h l); [discriminate|]. destruct (Nat.eq_dec y h); [contradiction|auto].
Qed.

Lemma lookup_in h c : forall l, lookup h l = Some c -> In (h, c) l.
Proof. induction l as [|[x d] l IH]; cbn; [discriminate|]. destruct (Nat.eqb_spec x h); [intros [= ->]; subst; auto|auto]. Qed.

Lemma in_lookup h c : forall l, In (h, c) l -> lookup h l <> None.
Proof.
  induction l as [|[x d] l IH]; cbn; [tauto|]. intros [X|X]; [injection X as -> ->; rewrite Nat.eqb_refl; discriminate|].
  destruct (Nat.eqb x h); [discriminate|auto].
Qed.

(** ** The invariant *)

Definition phase (p : tpc) (s : st) : Prop :=
  match p with
  | TLoop | TAwait _ => early s
  | TReady => early s /\ res s <> None
  | TCompleting => mid s \/ after s
  | TFree | TEnd => after s
  end.

Definition ended (p : tpc) : bool := match p with TEnd => true | _ => false end.

Definition phase_conts (p : tpc) (l : list cbid) (n : cbid) : Prop :=
  match p with
  | TLoop | TReady | TCompleting => l = []
  | TAwait h => n = S h /\ (l = [h] \/ l = [])
  | TFree | TEnd => length l <= 1
  end.

(** What the foreign log says, given the program counter. *)
Definition phase_log (p : tpc) (l : list fev) : Prop :=
  match p with
  | TLoop => completes l = 0 /\ frees l = 0
  | TAwait h => completes l = 0 /\ frees l = 0 /\ In (FPoll h) l /\ ~ (exists c, In (FResume h c) l)
  | TReady => completes l = 0 /\ frees l = 0 /\ exists h l', l = FResume h CReady :: l'
  | TCompleting => completes l = 1 /\ frees l = 0
  | TFree => frees l = 0 /\ (completes l = 1 \/ (completes l = 0 /\ ((exists l', l = FCancelled :: l') \/ (exists l', l = FRaised :: l'))))
  | TEnd => frees l = 1 /\ completes l <= 1
  end.

Record finv (s : fst) : Prop := {
  f_path : exists os, run init os = Some (rust s) /\ one_at_a_time init os;
  f_handle : handle (rust s) = negb (ended (pc s));
  f_phase : phase (pc s) (rust s);
  f_conts : phase_conts (pc s) (conts s) (nexth s);
  f_count : polls (rust s) = invokes (rust s) + length (conts s);
  f_each : forall cb, polled cb (rust s) = invoked cb (rust s) + count_occ Nat.eq_dec (conts s) cb;
  f_fresh : forall cb, polled cb (rust s) <= 1 /\ (nexth s <= cb -> polled cb (rust s) = 0);
  f_sent : forall h c, In (h, c) (queue s ++ got s) -> In (EInvoke h c) (log (rust s));
  f_recv : forall h c, In (EInvoke h c) (log (rust s)) -> In (h, c) (queue s ++ got s);
  f_lt : forall h, In (FPoll h) (flog s) -> h < nexth s /\ polled h (rust s) = 1;
  f_res : forall h c, In (FResume h c) (flog s) -> h < nexth s;
  f_log : phase_log (pc s) (flog s);
  f_ord : orderly (flog s) }.

Lemma finv_init : finv finit.
Proof.
  constructor; cbn; auto; try (intros; contradiction); try lia.
  - exists []. cbn. auto.
  - apply early_init.
Qed.

Lemma path_reach s : (exists os, run init os = Some (rust s) /\ one_at_a_time init os) -> reachable (rust s).
Proof. intros (os & H & _). exists os. auto. Qed.

(** How one step changes polls, invocations and the events we track. *)
Definition invokes_of (o : op) (s : st) : option (cbid * code) :=
  match o with
  | Go i _ => match nth_error (acts s) i with Some (AInvoke h c _) => Some (h, c) | _ => None end
  | _ => None
  end.

Class tracks (p : event -> bool) : Prop := {
  t_poll : forall cb, p (EPoll cb) = false; t_inner : forall cb, p (EInner cb) = false; t_pend : p EInnerPending = false;
  t_done : forall o, p (EInnerDone o) = false; t_wake : p EWake = false; t_can : p ECancel = false; t_comp : forall o, p (EComplete o) = false;
  t_free : p EFree = false; t_dea : p EDealloc = false; t_bad : p EBad = false }.

Lemma invoked_step p (T : tracks p) s o s' : is_call o = false -> step s o = Some s' ->
  count p (log s') = count p (log s) + match invokes_of o s with Some (h, c) => b1 (p (EInvoke h c)) | None => 0 end.
Proof.
  intros Ho H. destruct T. destr_step H; try discriminate Ho.
  1-6: injection H as <-; cbn [invokes_of]; fields; rewrite ?sum_cons; counts; rewrite ?dec_count, ?inc_count by auto; rec_simp; lia.
  cbn [invokes_of]. rewrite Heqo.
  go_cases H a; fields; repeat (rewrite ?dec_count, ?inc_count, ?touch_count, ?df_count, ?fin_count, ?ap_count, ?count_cons by auto; rec_simp);
    rewrite ?t_inner0, ?t_pend0, ?t_done0, ?t_wake0, ?t_can0, ?t_comp0, ?t_free0; cbn [b1]; lia.
Qed.

Lemma invoke_log s o s' : is_call o = false -> step s o = Some s' -> forall h c,
  In (EInvoke h c) (log s') <-> In (EInvoke h c) (log s) \/ invokes_of o s = Some (h, c).
Proof.
  intros Ho H h c.
  set (p := fun e => match e with EInvoke h' c' => Nat.eqb h' h && match c, c' with CReady, CReady | CWake, CWake => true | _, _ => false end | _ => false end).
  assert (T : tracks p) by (constructor; reflexivity).
  assert (X : forall l, In (EInvoke h c) l <-> 0 < count p l).
  { induction l as [|e l IH]; [cbn; split; [tauto|lia]|]. rewrite count_cons. cbn [In]. rewrite IH.
    assert (Y : e = EInvoke h c <-> p e = true).
    { split; [intros ->; cbn; rewrite Nat.eqb_refl; destruct c; auto|]. destruct e; cbn; try discriminate.
      destruct (Nat.eqb_spec cb h); [subst|discriminate]. destruct c, c0; try discriminate; auto. }
    rewrite Y. destruct (p e); cbn [b1]; split; try lia.
    all: intros [E|E]; [discriminate|lia]. }
  rewrite !X, (invoked_step p T s o s' Ho H).
  destruct (invokes_of o s) as [[h' c']|].
  - assert (Z : p (EInvoke h' c') = true <-> Some (h', c') = Some (h, c)).
    { cbn. destruct (Nat.eqb_spec h' h) as [->|N]; destruct c, c'; cbn; split; intros E; try discriminate; auto; injection E; congruence. }
    rewrite <- Z. destruct (p (EInvoke h' c')); cbn [b1]; split; try lia.
    all: try (intros [E|E]; [lia|discriminate]). all: right; reflexivity.
  - split; [intros; left; lia|intros [E|E]; [lia|discriminate]].
Qed.

Lemma polled_step cb s o s' : is_call o = false -> step s o = Some s' -> polled cb s' = polled cb s.
Proof.
  intros Ho H. unfold polled. destr_step H; try discriminate Ho.
  1-6: injection H as <-; fields; rewrite ?sum_cons; counts; reflexivity.
  go_cases H a; fields; counts; reflexivity.
Qed.

Lemma polls_step s o s' : is_call o = false -> step s o = Some s' -> polls s' = polls s.
Proof.
  intros Ho H. unfold polls. destr_step H; try discriminate Ho.
  1-6: injection H as <-; fields; rewrite ?sum_cons; counts; reflexivity.
  go_cases H a; fields; counts; reflexivity.
Qed.

Lemma handle_step s o s' : is_call o = false -> step s o = Some s' -> handle s' = handle s.
Proof.
  intros Ho H. destr_step H; try discriminate Ho.
  1-6: injection H as <-; fields; auto.
  go_cases H a; fields; auto.
Qed.

Lemma call_log s o s' : is_call o = true -> step s o = Some s' ->
  (forall p, p EBad = false -> count p (log s') = count p (log s) + match o with Poll cb => b1 (p (EPoll cb)) | _ => 0 end) /\
  handle s = true /\ (o <> Free -> handle s' = true) /\ (o = Free -> handle s' = false).
Proof.
  intros Ho H. destruct o; try discriminate; cbn [step] in H; destruct (handle s) eqn:Hh; try discriminate; injection H as <-;
    (split; [intros p Hp; fields; repeat (rewrite ?count_cons, ?inc_count by auto; rec_simp); lia|]); split; auto; split; intros; fields; auto; congruence.
Qed.

Lemma call_invokes s o s' h c : is_call o = true -> step s o = Some s' -> In (EInvoke h c) (log s') <-> In (EInvoke h c) (log s).
Proof.
  intros Ho H. destruct o; try discriminate; cbn [step] in H; destruct (handle s) eqn:Hh; try discriminate; injection H as <-; fields; try tauto.
  all: unfold inc; destruct (strong s); cbn; intuition discriminate.
Qed.
