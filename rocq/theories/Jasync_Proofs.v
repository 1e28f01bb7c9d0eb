(** Proofs about asynchronous calls in the JNI bindings. *)
From Verif Require Import Jasync_Model Jasync_Spec.

Definition in_poll (p : pc) : bool :=
  match p with Check | Future_ | Store | Holding | Resuming _ | Unlocking | Returning _ => true | _ => false end.
Definition is_finished (p : pc) : bool := match p with Finished _ => true | _ => false end.
Definition is_set (x : sched) : bool := match x with Set_ _ => true | _ => false end.
Definition is_resume (l : holder) : bool := match l with ByWaker (Resume _) => true | _ => false end.
Definition by_waker (l : holder) : bool := match l with ByWaker _ => true | _ => false end.
Definition has_ref (l : holder) : bool := match l with ByWaker (Resume _) | ByWaker Inside | ByWaker Delete => true | _ => false end.
Definition poll_ref (p : pc) : bool := match p with Holding | Resuming _ => true | _ => false end.
Definition n (b : bool) : nat := if b then 1 else 0.

Definition idle (s : st) : Prop := is_set (sch s) = false /\ is_resume (lock s) = false.
Definition armed (s : st) : Prop :=
  sch s = Set_ (cur s) /\ is_resume (lock s) = false \/ lock s = ByWaker (Resume (cur s)) /\ is_set (sch s) = false.

Section mode.
Variable inline has_result : bool.

(** What the program makes of the end of the future: the null of a result becomes an exception. *)
Definition made (r : fut_end) : call_end :=
  match r with Ready v => deliver has_result v | Failed e => Throws e | Broken m => ThrowsInternal m end.

(** [I]: no thread has the continuation; [A]: the scheduler has it, or a thread that is about to resume it. *)
Definition shape_of (p : pc) (I A : Prop) (c : nat) (f : safe) (en : option fut_end) : Prop :=
  match p with
  | Top | Runnable | After false => I /\ f = Resumed false /\ en = None
  | Check | Future_ | Store | Holding => I /\ f = Undecided /\ en = None
  | Resuming k => k = c /\ I /\ f = Undecided /\ en = None
  | Unlocking | Returning Pending => en = None /\ (f = Undecided /\ A \/ f = Resumed false /\ I)
  | Returning (Complete v) => I /\ f = Undecided /\ en = Some (Ready v)
  | Returning (Raised e) | Freeing e | Finished e => I /\ exists r, en = Some r /\ e = made r
  | BlockEnds => en = None /\ f = Undecided /\ A \/ en = None /\ f = Resumed false /\ I
      \/ (exists v, en = Some (Ready v)) /\ f = Resumed true /\ I
  | Sleeping => en = None /\ f = Asleep /\ A
  | After true => I /\ exists v, en = Some (Ready v)
  end.
Definition shape (s : st) : Prop := shape_of (at_ s) (idle s) (armed s) (cur s) (saf s) (ended s).
Lemma shape_mono : forall p (I A I' A' : Prop) c f en, (I -> I') -> (A -> A') -> shape_of p I A c f en -> shape_of p I' A' c f en.
Proof.
  intros p I A I' A' c f en HI HA. destruct p as [| | | | | k | | [| v | e] | | | | [|] | e | e]; cbn [shape_of]; intuition auto.
Qed.

Definition locks (s : st) : Prop :=
  (lock s = ByPoll <-> at_ s = Holding \/ (exists k, at_ s = Resuming k) \/ at_ s = Unlocking)
  /\ (lock s = ByWaker Inside -> inline = true /\ (at_ s = Top \/ at_ s = Check)).

Definition counts (s : st) : Prop :=
  strong s = n (negb (is_finished (at_ s))) + n (in_poll (at_ s)) + wakers s + waiting s + n (by_waker (lock s))
  /\ refs s = n (is_set (sch s)) + n (has_ref (lock s)) + n (poll_ref (at_ s))
  /\ frees s = n (is_finished (at_ s)).

(** A wake is on its way to the coroutine, or the call is about to end. *)
Definition heard (s : st) : Prop :=
  woken s = true ->
  0 < waiting s \/ lock s = ByWaker Take \/ sch s = Waked \/ lock s = ByWaker (Resume (cur s)) \/ (exists k, at_ s = Resuming k)
  \/ (exists b, saf s = Resumed b) \/ ended s <> None.

Record inv (s : st) : Prop := {
  i_shape : shape s; i_sch : sch s <> Cancelled; i_locks : locks s; i_counts : counts s; i_heard : heard s }.

Lemma inv_init : inv init.
Proof.
  split.
  - cbn. unfold idle. cbn. auto.
  - discriminate.
  - split; cbn; [split; [discriminate | intros [K | [[k K] | K]]; discriminate] | discriminate].
  - unfold counts. cbn. auto.
  - intros K. discriminate K.
Qed.

Ltac split_hyps := repeat match goal with
  | H : _ /\ _ |- _ => destruct H
  | H : exists _, _ |- _ => destruct H
  | H : _ \/ _ |- _ => destruct H
  end.
Ltac cases p := destruct p as [| | | | | | | [| ? | ?] | | | | [|] | |].
Ltac fin := split_hyps; subst; cbn [is_set is_resume by_waker has_ref poll_ref is_finished in_poll negb n] in *;
  repeat match goal with K : Set_ _ = Set_ _ |- _ => injection K as K; subst | K : ByWaker _ = ByWaker _ |- _ => injection K as K; subst
    | K : Resumed _ = Resumed _ |- _ => injection K as K; subst | K : Resume _ = Resume _ |- _ => injection K as K; subst end;
  try solve [match goal with K : ?a = ?b |- _ => discriminate K end]; try tauto; try solve [eauto 8].

Lemma shape_step : forall k s s', inv s -> step inline has_result k s s' -> shape s'.
Proof.
  intros k s s' [Sh Sc _ _ _] T. unfold shape in *.
  destruct T; cbn [at_ sch lock cur saf ended] in *; try exact Sh.
  - cbn [shape_of] in *. tauto.
  - destruct s1; try exact Sh. now destruct Sc.
  - destruct r; cbn [shape_of leaves] in *; destruct Sh as (A & B & _); [auto | |]; (split; [exact A |]; eexists; split; reflexivity).
  - destruct s1 as [| | | k]; cbn [shape_of] in *; destruct Sh as (A & B & D).
    + split; [exact D |]. left. split; [exact B |]. left. split; reflexivity.
    + split; [reflexivity |]. split; [split; reflexivity | auto].
    + now destruct Sc.
    + destruct A as [A _]. discriminate A.
  - cbn [shape_of] in *. destruct Sh as (_ & A & _ & D). split; [exact D |]. right. split; [reflexivity | exact A].
  - cbn [shape_of] in *. unfold idle, armed in *. cbn [sch lock cur is_resume] in *.
    destruct Sh as (D & [[B [K | [K _]]] | [B A]]); [auto | discriminate K | auto].
  - cbn [shape_of] in *. destruct Sh as (D & [[B A] | [B A]]); auto.
  - cbn [shape_of] in *. destruct Sh as (A & B & D). right. right. split; [eexists; exact D | auto].
  - cbn [shape_of] in *. destruct Sh as [(A & B & D) | [(A & B & D) | (A & B & D)]]; [discriminate B | |]; injection B as ->; auto.
  - cbn [shape_of] in *. destruct Sh as [(A & B & D) | [(A & B & D) | (A & B & D)]]; [auto | discriminate B | discriminate B].
  - cbn [shape_of] in *. destruct Sh as (A & _). split; [exact A |]. exists (Ready v). auto.
  - revert Sh. apply shape_mono; unfold idle, armed; cbn [sch lock cur is_resume]; [tauto |].
    intros [K | [K _]]; [left; exact K | discriminate K].
  - revert Sh. unfold idle, armed. cbn [sch lock cur is_resume]. destruct s1 as [| | | k]; cbn [is_set is_resume].
    + apply shape_mono; [tauto |]. intros [[K _] | [K _]]; discriminate K.
    + apply shape_mono; [tauto |]. intros [[K _] | [K _]]; discriminate K.
    + now destruct Sc.
    + apply shape_mono; [intros [K _]; discriminate K |]. intros [[K _] | [K _]]; [| discriminate K].
      injection K as ->. right. split; reflexivity.
  - unfold idle in *. cbn [sch lock is_resume] in *.
    assert (N : is_set s1 = false \/ is_set s1 = true) by (destruct s1; auto).
    destruct p as [| | | | | k | | [| v | e] | | | | [|] | e | e]; cbn [shape_of] in *; unfold armed in *; cbn [sch lock cur is_resume] in *;
      intuition (try discriminate).
  - cbn [shape_of] in *. destruct Sh as (A & B & D). unfold armed in D. cbn [sch lock cur is_resume] in D.
    destruct D as [[_ D] | [_ D]]; [discriminate D |].
    destruct inline; cbn [shape_of]; (split; [split; [exact D | reflexivity] | auto]).
  - revert Sh. apply shape_mono; unfold idle, armed; cbn [sch lock cur is_resume]; [tauto |].
    intros [K | [K _]]; [left; exact K | discriminate K].
  - revert Sh. apply shape_mono; unfold idle, armed; cbn [sch lock cur is_resume]; [tauto |].
    intros [K | [K _]]; [left; exact K | discriminate K].
  - revert Sh. apply shape_mono; unfold idle, armed; cbn [sch lock cur is_resume]; [tauto |].
    intros [K | [K _]]; [left; exact K | discriminate K].
Qed.

Lemma locks_step : forall k s s', inv s -> step inline has_result k s s' -> locks s'.
Proof.
  intros k s s' [Sh Sc [[L1 L1'] L2] _ _] T. unfold locks, shape in *.
  destruct T; cbn [at_ sch lock cur saf ended] in *;
    try (split; [split; assumption | assumption]);
    try (split; [split; [discriminate | intros [K | [[? K] | K]]; discriminate K] | discriminate]).
  - split; [split |].
    + intros K. destruct (L1 K) as [E | [[k E] | E]]; discriminate E.
    + intros [K | [[? K] | K]]; discriminate K.
    + intros K. split; [exact (proj1 (L2 K)) | now right].
  - split; [split |]; [discriminate | | discriminate]. destruct s1; intros [K | [[? K] | K]]; discriminate K.
  - split; [split |].
    + intros K. destruct (L1 K) as [E | [[k E] | E]]; discriminate E.
    + intros [K | [[? K] | K]]; discriminate K.
    + intros K. destruct (proj2 (L2 K)) as [E | E]; discriminate E.
  - split; [split |].
    + intros K. destruct (L1 K) as [E | [[k E] | E]]; discriminate E.
    + intros [K | [[? K] | K]]; discriminate K.
    + intros K. destruct (proj2 (L2 K)) as [E | E]; discriminate E.
  - split; [split |]; [auto | reflexivity | discriminate].
  - split; [split |]; [| reflexivity | discriminate]. intros _. destruct s1; eauto.
  - split; [split |]; [auto | reflexivity | discriminate].
  - split; [split |].
    + intros K. destruct (L1 K) as [E | [[k E] | E]]; discriminate E.
    + intros [K | [[? K] | K]]; discriminate K.
    + intros K. destruct (proj2 (L2 K)) as [E | E]; discriminate E.
  - split; [split |].
    + intros K. destruct (L1 K) as [E | [[k E] | E]]; discriminate E.
    + intros [K | [[? K] | K]]; discriminate K.
    + intros K. destruct (proj2 (L2 K)) as [E | E]; discriminate E.
  - split; [split |].
    + intros K. destruct (L1 K) as [E | [[k E] | E]]; discriminate E.
    + intros [K | [[? K] | K]]; discriminate K.
    + intros K. destruct (proj2 (L2 K)) as [E | E]; discriminate E.
  - split; [split |].
    + intros K. destruct (L1 K) as [E | [[k E] | E]]; discriminate E.
    + intros [K | [[? K] | K]]; discriminate K.
    + intros K. destruct (proj2 (L2 K)) as [E | E]; discriminate E.
  - split; [split |].
    + intros K. destruct (L1 K) as [E | [[k E] | E]]; discriminate E.
    + intros [K | [[? K] | K]]; discriminate K.
    + intros K. destruct (proj2 (L2 K)) as [E | E]; discriminate E.
  - split; [split |].
    + intros K. destruct (L1 K) as [E | [[k E] | E]]; discriminate E.
    + intros [K | [[? K] | K]]; discriminate K.
    + intros K. destruct (proj2 (L2 K)) as [E | E]; discriminate E.
  - split; [split |].
    + intros K. destruct (L1 K) as [E | [[k E] | E]]; discriminate E.
    + intros [K | [[? K] | K]]; discriminate K.
    + intros K. destruct (proj2 (L2 K)) as [E | E]; discriminate E.
  - split; [split |].
    + intros K. destruct (L1 K) as [E | [[k E] | E]]; discriminate E.
    + intros [K | [[? K] | K]]; discriminate K.
    + intros K. destruct (proj2 (L2 K)) as [E | E]; discriminate E.
  - split; [split |].
    + intros K. destruct (L1 K) as [E | [[k E] | E]]; discriminate E.
    + intros [K | [[? K] | K]]; discriminate K.
    + intros K. destruct (proj2 (L2 K)) as [E | E]; discriminate E.
  - split; [split |]; [discriminate | intros K; specialize (L1' K); discriminate L1' | discriminate].
  - split; [split |]; [discriminate | intros K; specialize (L1' K); discriminate L1' |]. destruct s1; discriminate.
  - split; [split |]; [discriminate | intros K; specialize (L1' K); discriminate L1' | discriminate].
  - destruct inline; (split; [split; [discriminate | intros [K | [[? K] | K]]; discriminate K] |]); [auto | discriminate].
  - split; [split |]; [discriminate | intros K; specialize (L1' K); discriminate L1' | discriminate].
  - split; [split |]; [discriminate | intros K; specialize (L1' K); discriminate L1' | discriminate].
  - split; [split |]; [discriminate | intros K; specialize (L1' K); discriminate L1' | discriminate].
Qed.

Lemma counts_step : forall k s s', inv s -> step inline has_result k s s' -> counts s'.
Proof.
  intros k s s' [Sh Sc _ (C1 & C2 & C3) _] T. unfold counts, shape in *.
  destruct T; cbn [at_ sch lock cur saf ended strong refs frees wakers waiting is_finished in_poll negb n by_waker has_ref poll_ref] in *;
    try (split; [lia | split; [lia | lia]]).
  - destruct s1; try (now destruct Sc); cbn [is_set in_poll is_finished poll_ref negb n] in *; lia.
  - destruct s1 as [| | | k]; try (now destruct Sc); cbn [is_set in_poll is_finished poll_ref negb n] in *; try lia.
  - destruct s1 as [| | | k]; try (now destruct Sc); cbn [is_set has_ref by_waker n] in *; lia.
  - destruct inline; cbn [is_finished in_poll poll_ref has_ref by_waker negb n] in *; lia.
Qed.

Ltac pick_one := solve [assumption | lia | reflexivity | discriminate | eexists; reflexivity | match goal with H : exists _, _ |- _ => exact H end].
Ltac pick := first [pick_one | left; pick_one | right; pick].

Lemma heard_step : forall k s s', inv s -> step inline has_result k s s' -> heard s'.
Proof.
  intros k s s' [Sh Sc [[L1 L1'] L2] _ H] T. unfold heard, shape in *.
  destruct T; cbn [at_ sch lock cur saf ended woken waiting] in *; intros W; try discriminate W; try (specialize (H W)).
  all: try solve [destruct H as [H | [H | [H | [H | [H | [H | H]]]]]];
    try discriminate H; try (destruct H as [? H]; discriminate H); pick].
  - destruct s1 as [| | | k]; [| right; right; right; right; left; eexists; reflexivity | now destruct Sc |].
    + destruct H as [H | [H | [H | [H | [H | [H | H]]]]]]; try discriminate H; try (destruct H as [? H]; discriminate H); pick.
    + cbn [shape_of] in Sh. destruct Sh as ((A & _) & _). discriminate A.
  - destruct s1 as [| | | k]; [pick | pick | now destruct Sc |].
    + destruct p as [| | | | | k1 | | [| v | e] | | | | [|] | e | e]; cbn [shape_of] in Sh; unfold idle, armed in Sh; cbn [sch lock cur is_set is_resume] in Sh.
      all: try solve [destruct Sh as [K _]; destruct K as [K _]; discriminate K].
      all: try solve [destruct Sh as [_ [[K _] _]]; discriminate K].
      * destruct Sh as [_ [[_ [[K _] | [K _]]] | [_ [K _]]]]; try discriminate K. injection K as ->. pick.
      * destruct Sh as [_ [[_ [[K _] | [K _]]] | [_ [K _]]]]; try discriminate K. injection K as ->. pick.
      * destruct Sh as [[_ [_ [[K _] | [K _]]]] | [[_ [_ [K _]]] | [_ [_ [K _]]]]]; try discriminate K. injection K as ->. pick.
      * destruct Sh as [_ [_ [[K _] | [K _]]]]; try discriminate K. injection K as ->. pick.
  - left. lia.
Qed.

Lemma sch_step : forall k s s', inv s -> step inline has_result k s s' -> sch s' <> Cancelled.
Proof.
  intros k s s' [_ Sc _ _ _] T. destruct T; cbn [sch] in *; try exact Sc; destruct s1; congruence.
Qed.

Lemma inv_reach : forall s, reach inline has_result s -> inv s.
Proof.
  induction 1 as [| k s s' R I T]; [exact inv_init |]. split.
  - exact (shape_step k s s' I T).
  - exact (sch_step k s s' I T).
  - exact (locks_step k s s' I T).
  - exact (counts_step k s s' I T).
  - exact (heard_step k s s' I T).
Qed.
End mode.
