(** * Structural facts and the main invariant of the async machine *)

From Verif Require Import Base Async_Model Async_Spec.

(** ** Sums over activities *)

Definition sum (f : act -> nat) (l : list act) : nat := fold_right (fun a n => f a + n) 0 l.

Lemma sum_cons f a l : sum f (a :: l) = f a + sum f l.
Proof. reflexivity. Qed.

Lemma sum_remove f : forall l i a, nth_error l i = Some a -> sum f l = f a + sum f (remove_nth i l).
Proof.
  induction l as [|x l IH]; intros [|i] a H; cbn [nth_error] in H; try discriminate.
  - injection H as ->. reflexivity.
  - cbn [remove_nth]. rewrite !sum_cons. rewrite (IH i a H). lia.
Qed.

Lemma sum_in f l a : In a l -> f a <= sum f l.
Proof. induction l; cbn [In]; [easy|]. rewrite sum_cons. intros [->|H]; [lia|]. apply IHl in H. lia. Qed.

Lemma sum_pos_in f l : 0 < sum f l -> exists a, In a l /\ 0 < f a.
Proof.
  induction l as [|x l IH]; [cbn; lia|]. rewrite sum_cons. intros H.
  destruct (f x) eqn:E.
  - destruct (IH ltac:(lia)) as (a & Ha & Hf). exists a. cbn; auto.
  - exists x. split; [left; auto | lia].
Qed.

Lemma sum_le f g l : (forall a, f a <= g a) -> sum f l <= sum g l.
Proof. intros H. induction l; [cbn; lia|]. rewrite !sum_cons. specialize (H a). lia. Qed.

Lemma in_remove : forall {A} (l : list A) i x, In x (remove_nth i l) -> In x l.
Proof.
  induction l as [|y l IH]; intros [|i] x H; cbn [remove_nth In] in *; auto.
  destruct H as [->|H]; [auto|]. right. eapply IH; eauto.
Qed.

Lemma nth_in : forall {A} (l : list A) i x, nth_error l i = Some x -> In x l.
Proof. intros A l i x H. eapply nth_error_In; eauto. Qed.

Definition b1 (b : bool) : nat := if b then 1 else 0.

Definition polling (a : act) : nat := match a with APolling _ => 1 | _ => 0 end.
Arguments polling !a /.

Lemma existsb_polling l : existsb is_polling l = negb (Nat.eqb (sum polling l) 0).
Proof.
  induction l as [|a l IH]; [reflexivity|]. cbn [existsb]. rewrite sum_cons, IH.
  destruct a; reflexivity.
Qed.

(** ** Projections of the helpers *)

Ltac proj s := destruct s; unfold dec, inc, touch, ev; cbn; repeat (match goal with
  | |- context [match ?n with O => _ | S _ => _ end] => destruct n; cbn end); try reflexivity.

Lemma dec_sch s : sch (dec s) = sch s. Proof. proj s. Qed.
Lemma dec_fut s : fut (dec s) = fut s. Proof. proj s. Qed.
Lemma dec_res s : res (dec s) = res s. Proof. proj s. Qed.
Lemma dec_locked s : locked (dec s) = locked s. Proof. proj s. Qed.
Lemma dec_handle s : handle (dec s) = handle s. Proof. proj s. Qed.
Lemma dec_strong s : strong (dec s) = strong s - 1. Proof. proj s. Qed.
Lemma dec_own s : own (dec s) = own s. Proof. proj s. Qed.
Lemma dec_ext s : ext (dec s) = ext s. Proof. proj s. Qed.
Lemma dec_acts s : acts (dec s) = acts s. Proof. proj s. Qed.
Lemma inc_sch s : sch (inc s) = sch s. Proof. proj s. Qed.
Lemma inc_fut s : fut (inc s) = fut s. Proof. proj s. Qed.
Lemma inc_res s : res (inc s) = res s. Proof. proj s. Qed.
Lemma inc_locked s : locked (inc s) = locked s. Proof. proj s. Qed.
Lemma inc_handle s : handle (inc s) = handle s. Proof. proj s. Qed.
Lemma inc_strong s : strong (inc s) = S (strong s). Proof. proj s. Qed.
Lemma inc_own s : own (inc s) = own s. Proof. proj s. Qed.
Lemma inc_ext s : ext (inc s) = ext s. Proof. proj s. Qed.
Lemma inc_acts s : acts (inc s) = acts s. Proof. proj s. Qed.
Lemma touch_sch s : sch (touch s) = sch s. Proof. proj s. Qed.
Lemma touch_fut s : fut (touch s) = fut s. Proof. proj s. Qed.
Lemma touch_res s : res (touch s) = res s. Proof. proj s. Qed.
Lemma touch_locked s : locked (touch s) = locked s. Proof. proj s. Qed.
Lemma touch_handle s : handle (touch s) = handle s. Proof. proj s. Qed.
Lemma touch_strong s : strong (touch s) = strong s. Proof. proj s. Qed.
Lemma touch_own s : own (touch s) = own s. Proof. proj s. Qed.
Lemma touch_ext s : ext (touch s) = ext s. Proof. proj s. Qed.
Lemma touch_acts s : acts (touch s) = acts s. Proof. proj s. Qed.
#[global] Hint Rewrite dec_sch dec_fut dec_res dec_locked dec_handle dec_strong dec_own dec_ext dec_acts
  inc_sch inc_fut inc_res inc_locked inc_handle inc_strong inc_own inc_ext inc_acts
  touch_sch touch_fut touch_res touch_locked touch_handle touch_strong touch_own touch_ext touch_acts : asy.

Section Iter.
  Context {A : Type} (f : st -> A).
  Hypothesis Hf : forall s, f (dec s) = f s.
  Lemma iter_dec : forall n s, f (Nat.iter n dec s) = f s.
  Proof. induction n; intros s; cbn; [reflexivity|]. rewrite Hf. apply IHn. Qed.
End Iter.

Lemma iter_strong n s : strong (Nat.iter n dec s) = strong s - n.
Proof.
  induction n; [cbn; lia|]. change (Nat.iter (S n) dec s) with (dec (Nat.iter n dec s)).
  rewrite dec_strong, IHn. lia.
Qed.

Lemma df_sch s : sch (drop_future s) = sch s.
Proof. apply (iter_dec sch dec_sch). Qed.
Lemma df_fut s : fut (drop_future s) = false. Proof. reflexivity. Qed.
Lemma df_res s : res (drop_future s) = res s.
Proof. apply (iter_dec res dec_res). Qed.
Lemma df_locked s : locked (drop_future s) = locked s.
Proof. apply (iter_dec locked dec_locked). Qed.
Lemma df_handle s : handle (drop_future s) = handle s.
Proof. apply (iter_dec handle dec_handle). Qed.
Lemma df_strong s : strong (drop_future s) = strong s - own s.
Proof. apply iter_strong. Qed.
Lemma df_own s : own (drop_future s) = 0. Proof. reflexivity. Qed.
Lemma df_ext s : ext (drop_future s) = ext s.
Proof. apply (iter_dec ext dec_ext). Qed.
Lemma df_acts s : acts (drop_future s) = acts s.
Proof. apply (iter_dec acts dec_acts). Qed.
#[global] Hint Rewrite df_sch df_fut df_res df_locked df_handle df_strong df_own df_ext df_acts : asy.

(** Counting events other than [EBad] and [EDealloc]. *)
Lemma count_cons p e l : count p (e :: l) = b1 (p e) + count p l.
Proof. unfold count. cbn [filter]. destruct (p e); reflexivity. Qed.

Lemma dec_count p s : p EBad = false -> p EDealloc = false -> count p (log (dec s)) = count p (log s).
Proof. intros H1 H2. proj s; unfold count; cbn [filter]; rewrite ?H1, ?H2; reflexivity. Qed.
Lemma inc_count p s : p EBad = false -> count p (log (inc s)) = count p (log s).
Proof. intros H1. proj s; unfold count; cbn [filter]; rewrite ?H1; reflexivity. Qed.
Lemma touch_count p s : p EBad = false -> count p (log (touch s)) = count p (log s).
Proof. intros H1. proj s; unfold count; cbn [filter]; rewrite ?H1; reflexivity. Qed.
Lemma df_count p s : p EBad = false -> p EDealloc = false -> count p (log (drop_future s)) = count p (log s).
Proof. intros H1 H2. apply (iter_dec (fun s => count p (log s))). intros; apply dec_count; auto. Qed.

(** One case per possible step, with every helper computed away except the
    reference-count ones. *)
Ltac destr_step H :=
  let o := match type of H with step _ ?o = _ => o end in
  destruct o; cbn [step] in H;
  repeat match type of H with
  | (if ?b then _ else _) = _ => destruct b eqn:?; [|try discriminate H]
  | match ?n with O => _ | S _ => _ end = _ => destruct n eqn:?; [discriminate H|]
  | match nth_error ?l ?i with _ => _ end = _ =>
      destruct (nth_error l i) as [a|] eqn:?; [|discriminate H]
  end;
  try discriminate H.

Ltac destr_adv H a :=
  destruct a; cbn [advance] in H;
  repeat match type of H with
  | (if ?b then _ else _) = Some _ => destruct b eqn:?; try discriminate H
  | match ?n with None => _ | Some _ => _ end = Some _ => destruct n eqn:?; try discriminate H
  | match ?n with RPending => _ | RDone _ => _ end = Some _ => destruct n eqn:?; try discriminate H
  end;
  try discriminate H.

(** ** Projections of [finish] and [apply_sched] *)

Definition is_kfree (k : kont) : bool := match k with KFree => true | _ => false end.
Definition is_kkeep (k : kont) : bool := match k with KKeep => true | _ => false end.
Definition is_kdrop (k : kont) : bool := match k with KDrop => true | _ => false end.

Lemma fin_sch k s : sch (finish k s) = sch s. Proof. destruct k; cbn; autorewrite with asy; reflexivity. Qed.
Lemma fin_fut k s : fut (finish k s) = fut s. Proof. destruct k; cbn; autorewrite with asy; reflexivity. Qed.
Lemma fin_res k s : res (finish k s) = res s. Proof. destruct k; cbn; autorewrite with asy; reflexivity. Qed.
Lemma fin_locked k s : locked (finish k s) = locked s. Proof. destruct k; cbn; autorewrite with asy; reflexivity. Qed.
Lemma fin_handle k s : handle (finish k s) = handle s. Proof. destruct k; cbn; autorewrite with asy; reflexivity. Qed.
Lemma fin_own k s : own (finish k s) = own s. Proof. destruct k; cbn; autorewrite with asy; reflexivity. Qed.
Lemma fin_strong k s : strong (finish k s) = strong s - b1 (is_kdrop k).
Proof. destruct k; cbn; autorewrite with asy; lia. Qed.
Lemma fin_ext k s : ext (finish k s) = ext s + b1 (is_kkeep k).
Proof. destruct k; cbn; autorewrite with asy; lia. Qed.
Lemma fin_sum f k s : sum f (acts (finish k s)) = b1 (is_kfree k) * f AFree + sum f (acts s).
Proof. destruct k; cbn -[sum]; autorewrite with asy; try rewrite sum_cons; lia. Qed.
Lemma fin_count p k s : p EBad = false -> p EDealloc = false -> count p (log (finish k s)) = count p (log s).
Proof. intros. destruct k; cbn; try reflexivity. apply dec_count; auto. Qed.
#[global] Hint Rewrite fin_sch fin_fut fin_res fin_locked fin_handle fin_own fin_strong fin_ext fin_sum : asy.

Definition some {A} (o : option A) : bool := match o with Some _ => true | None => false end.

Lemma ap_sch q k s : sch (apply_sched q k s) = fst q.
Proof. destruct q as (x, [[cb c]|]); cbn; autorewrite with asy; reflexivity. Qed.
Lemma ap_fut q k s : fut (apply_sched q k s) = fut s.
Proof. destruct q as (x, [[cb c]|]); cbn; autorewrite with asy; reflexivity. Qed.
Lemma ap_res q k s : res (apply_sched q k s) = res s.
Proof. destruct q as (x, [[cb c]|]); cbn; autorewrite with asy; reflexivity. Qed.
Lemma ap_locked q k s : locked (apply_sched q k s) = locked s.
Proof. destruct q as (x, [[cb c]|]); cbn; autorewrite with asy; reflexivity. Qed.
Lemma ap_handle q k s : handle (apply_sched q k s) = handle s.
Proof. destruct q as (x, [[cb c]|]); cbn; autorewrite with asy; reflexivity. Qed.
Lemma ap_own q k s : own (apply_sched q k s) = own s.
Proof. destruct q as (x, [[cb c]|]); cbn; autorewrite with asy; reflexivity. Qed.
Lemma ap_strong q k s : strong (apply_sched q k s) = strong s - (if some (snd q) then 0 else b1 (is_kdrop k)).
Proof. destruct q as (x, [[cb c]|]); cbn; autorewrite with asy; cbn; lia. Qed.
Lemma ap_ext q k s : ext (apply_sched q k s) = ext s + (if some (snd q) then 0 else b1 (is_kkeep k)).
Proof. destruct q as (x, [[cb c]|]); cbn; autorewrite with asy; cbn; lia. Qed.
Lemma ap_sum f q k s : sum f (acts (apply_sched q k s))
  = match snd q with Some (cb, c) => f (AInvoke cb c k) | None => b1 (is_kfree k) * f AFree end + sum f (acts s).
Proof. destruct q as (x, [[cb c]|]); cbn -[sum]; autorewrite with asy; reflexivity. Qed.
Lemma ap_count p q k s : p EBad = false -> p EDealloc = false -> count p (log (apply_sched q k s)) = count p (log s).
Proof. intros. destruct q as (x, [[cb c]|]); cbn; try reflexivity. rewrite fin_count; auto. Qed.
#[global] Hint Rewrite ap_sch ap_fut ap_res ap_locked ap_handle ap_own ap_strong ap_ext ap_sum : asy.

(** The four primitive state updates that remain are records: *)
Lemma add_acts a s : acts (add a s) = a :: acts s. Proof. reflexivity. Qed.
Lemma ev_log e s : log (ev e s) = e :: log s. Proof. reflexivity. Qed.

Ltac rec_simp :=
  cbn [add ev set_sch set_acts set_locked set_ext set_own set_handle set_res set_fut
       sch fut res locked handle strong own ext acts log] in *.

Ltac fields := repeat (progress (autorewrite with asy; rec_simp)).

Ltac counts := repeat (progress (
  rewrite ?dec_count, ?inc_count, ?touch_count, ?df_count, ?fin_count, ?ap_count, ?count_cons
    by reflexivity; rec_simp)).

(** ** References *)

(** How many references to the allocation an activity owns. *)
Definition refs (a : act) : nat := match a with APolling _ => 2 | _ => 1 end.
Arguments refs !a /.

Record inv_ref (s : st) : Prop := {
  r_strong : strong s = b1 (handle s) + sum refs (acts s) + own s + ext s;
  r_lock : sum polling (acts s) = b1 (locked s);
  r_fut : locked s = true -> fut s = true /\ res s = None;
  r_own : 0 < own s -> fut s = true;
  r_res : fut s = true -> res s = None }.

Lemma refs_pos a : 1 <= refs a. Proof. destruct a; cbn; lia. Qed.

Lemma inv_ref_init : inv_ref init.
Proof. constructor; cbn; auto; try lia; discriminate. Qed.

(** Split one step of an activity into all its cases. *)
Ltac go_cases H a :=
  destr_adv H a; rec_simp;
  try match goal with k : kont |- _ => destruct k end;
  try match type of H with context [sched_store _ ?x] => destruct x eqn:? end;
  try match type of H with context [sched_wake ?x] => destruct x eqn:? end;
  try match type of H with context [sched_cancel ?x] => destruct x eqn:? end;
  injection H as <-;
  cbn [sched_store sched_wake sched_cancel apply_sched finish fst snd] in *.

Ltac calc := cbn [refs polling b1 some is_kdrop is_kkeep is_kfree Nat.mul Nat.add] in *.

Lemma inv_ref_step s o s' : inv_ref s -> step s o = Some s' -> inv_ref s'.
Proof.
  intros [H1 H2 H3 H4 H5] H. destr_step H.
  1-10: injection H as <-.
  all: try (rewrite existsb_polling in *; assert (Hl : locked s = true)
    by (destruct (locked s); cbn [b1] in H2; [reflexivity | rewrite H2 in *; discriminate])).
  1-10: (constructor; fields; rewrite ?sum_cons; cbn [refs polling is_polling b1] in *;
            try (rewrite Heqb in * ); cbn [b1] in *; try lia; auto; try (intros; apply H3; auto; fail)).
  pose proof (sum_remove refs _ _ _ Heqo) as R1.
  pose proof (sum_remove polling _ _ _ Heqo) as R2.
  pose proof (refs_pos a) as Rp.
  go_cases H a; calc.
  all: constructor; fields; rewrite ?sum_cons; calc.
  all: try (destruct (locked s) eqn:?; cbn [b1] in *; try lia; auto; fail).
Qed.

Lemma inv_ref_run : forall os s s', inv_ref s -> run s os = Some s' -> inv_ref s'.
Proof.
  induction os as [|o os IH]; intros s s' I H; cbn [run] in H; [injection H as <-; auto|].
  destruct (step s o) eqn:E; [|discriminate]. eapply IH; [|eauto]. eapply inv_ref_step; eauto.
Qed.

(** A general principle: what holds initially and is kept by every step of a
    state satisfying [inv_ref] holds in all reachable states. *)
Lemma reach_inv (P : st -> Prop) :
  P init -> (forall s o s', inv_ref s -> P s -> step s o = Some s' -> P s') ->
  forall s, reachable s -> P s.
Proof.
  intros P0 PS s (os & H).
  assert (G : forall os s s', inv_ref s -> P s -> run s os = Some s' -> P s').
  { clear -PS. induction os as [|o os IH]; intros s s' I HP H; cbn [run] in H; [injection H as <-; auto|].
    destruct (step s o) eqn:E; [|discriminate]. eapply IH; [| |eauto].
    - eapply inv_ref_step; eauto.
    - eapply PS; eauto. }
  eapply G; eauto using inv_ref_init.
Qed.

Lemma reach_ref s : reachable s -> inv_ref s.
Proof. apply reach_inv; [apply inv_ref_init | intros; eapply inv_ref_step; eauto]. Qed.

(** ** The allocation is released once and never touched afterwards *)

Definition bads (s : st) : nat := count (fun e => match e with EBad => true | _ => false end) (log s).

Lemma touch_ok s : 1 <= strong s -> touch s = s.
Proof. unfold touch. destruct (strong s); [lia | auto]. Qed.
Lemma inc_log s : 1 <= strong s -> log (inc s) = log s.
Proof. intros H. unfold inc. destruct (strong s); [lia|reflexivity]. Qed.
Lemma dec_log s : 1 <= strong s -> log (dec s) = if Nat.eqb (strong s) 1 then EDealloc :: log s else log s.
Proof. intros H. unfold dec. destruct (strong s) as [|[|n]]; [lia|reflexivity|reflexivity]. Qed.
Lemma iter_log : forall n s, n < strong s -> log (Nat.iter n dec s) = log s.
Proof.
  induction n; intros s H; [reflexivity|].
  change (Nat.iter (S n) dec s) with (dec (Nat.iter n dec s)).
  rewrite dec_log; rewrite iter_strong; [|lia].
  replace (Nat.eqb (strong s - n) 1) with false by (symmetry; apply Nat.eqb_neq; lia).
  apply IHn. lia.
Qed.
Lemma df_log s : own s < strong s -> log (drop_future s) = log s.
Proof. intros. unfold drop_future. rec_simp. apply iter_log. auto. Qed.

Definition inv_mem (s : st) : Prop :=
  bads s = 0 /\ deallocs s = b1 (Nat.eqb (strong s) 0).

Lemma inv_mem_init : inv_mem init. Proof. split; reflexivity. Qed.

Ltac strongs := fields; calc; lia.

(** Remove [touch], [inc] and [dec] from a log expression, given enough references. *)
Ltac logs :=
  repeat (progress (rewrite ?touch_ok by strongs; rec_simp;
     rewrite ?inc_log by strongs; rec_simp;
     rewrite ?dec_log by strongs; rec_simp;
     rewrite ?df_log by strongs; rec_simp)).

Lemma inv_mem_step s o s' : inv_ref s -> inv_mem s -> step s o = Some s' -> inv_mem s'.
Proof.
  intros [H1 H2 H3 H4 H5] [M1 M2] H. unfold inv_mem, bads, deallocs in *. destr_step H.
  1-10: injection H as <-.
  all: try (rewrite existsb_polling in * ).
  all: try (assert (Hp : 0 < sum polling (acts s)) by (destruct (sum polling (acts s)); [discriminate|lia]);
            assert (Hq : sum polling (acts s) <= sum refs (acts s)) by (apply sum_le; intros []; cbn; lia)).
  1-10: try (rewrite Heqb in * ); calc; assert (Hs : 1 <= strong s) by lia;
    assert (M3 : Nat.eqb (strong s) 0 = false) by (apply Nat.eqb_neq; lia); rewrite M3 in M2.
  1-10: logs; fields; rewrite ?inc_log by strongs; rec_simp; rewrite ?count_cons; calc;
    repeat match goal with |- context [Nat.eqb ?a ?b] => destruct (Nat.eqb_spec a b) end;
    rewrite ?count_cons; calc; split; lia.
  pose proof (sum_remove refs _ _ _ Heqo) as R1.
  pose proof (refs_pos a) as Rp.
  assert (Hs : 1 <= strong s) by lia.
  assert (M3 : Nat.eqb (strong s) 0 = false) by (apply Nat.eqb_neq; lia). rewrite M3 in M2. clear M3.
  go_cases H a; calc.
  all: logs; fields; rewrite ?count_cons; calc;
    repeat match goal with |- context [Nat.eqb ?a ?b] => destruct (Nat.eqb_spec a b) end;
    rewrite ?count_cons; calc; split; lia.
Qed.

Lemma reach_mem s : reachable s -> inv_mem s.
Proof. apply reach_inv; [apply inv_mem_init | intros; eapply inv_mem_step; eauto]. Qed.

(** ** Callbacks *)

(** The activity is responsible for calling [cb] back. *)
Definition holds (cb : cbid) (a : act) : nat :=
  match a with
  | ACheck c | ALock c | APolling c | AStore c | AInvoke c _ _ => b1 (Nat.eqb c cb)
  | _ => 0
  end.
Arguments holds cb !a /.

Definition stored (cb : cbid) (x : sched) : nat :=
  match x with SSet c => b1 (Nat.eqb c cb) | _ => 0 end.
Arguments stored cb !x /.

Definition inv_cb (s : st) : Prop := forall cb,
  polled cb s = invoked cb s + sum (holds cb) (acts s) + stored cb (sch s).

Lemma inv_cb_init : inv_cb init. Proof. intros cb. reflexivity. Qed.

Ltac calc2 := cbn [holds stored is_poll_of is_invoke_of refs polling b1 some is_kdrop is_kkeep is_kfree Nat.mul Nat.add] in *.

Lemma inv_cb_step s o s' : inv_ref s -> inv_cb s -> step s o = Some s' -> inv_cb s'.
Proof.
  intros _ I H cb. specialize (I cb). unfold polled, invoked in *. destr_step H.
  1-10: injection H as <-; fields; rewrite ?sum_cons; counts; calc2; lia.
  pose proof (sum_remove (holds cb) _ _ _ Heqo) as R1.
  go_cases H a; calc2; fields; rewrite ?sum_cons; counts; calc2; try rewrite Heqs0 in *; calc2; try lia.
Qed.

Lemma reach_cb s : reachable s -> inv_cb s.
Proof. apply reach_inv; [apply inv_cb_init | intros; eapply inv_cb_step; eauto]. Qed.
