(** What every call leaves behind, as a number of buffers and references. *)
From Verif Require Import Base Own_Model Own_Spec Own_Proofs.
Require Import Coq.Sorting.Permutation.
From Coq Require Import Lia.

Definition lost : Type := (nat * nat)%type.
Definition plus (x y : lost) : lost := (fst x + fst y, snd x + snd y).
Definition count (l : cells) : lost := (buffers l, references l).
Lemma count_app l l' : count (l ++ l') = plus (count l) (count l').
Proof. unfold count, plus. cbn. now rewrite buffers_app, references_app. Qed.
Lemma count_perm l l' : Permutation l l' -> count l = count l'.
Proof. intros E. unfold count. now rewrite (buffers_perm _ _ E), (references_perm _ _ E). Qed.
Lemma count_refs rs : count (refs rs) = (0, length rs).
Proof. unfold count. now rewrite buffers_refs, references_refs. Qed.
Lemma plus_0_r x : plus x (0, 0) = x.
Proof. destruct x. unfold plus. cbn. f_equal; lia. Qed.
Lemma plus_0_l x : plus (0, 0) x = x.
Proof. now destruct x. Qed.
Lemma plus_comm x y : plus x y = plus y x.
Proof. unfold plus. f_equal; lia. Qed.
Lemma plus_assoc x y z : plus x (plus y z) = plus (plus x y) z.
Proof. unfold plus. cbn. f_equal; lia. Qed.

Definition is_writable (p : part) : bool := match p with Unwritable => false | _ => true end.
Definition is_readable (p : part) : bool := match p with Unreadable => false | _ => true end.
Lemma is_writable_spec p : is_writable p = true <-> writable p.
Proof. unfold writable. destruct p; cbn; split; congruence. Qed.
Lemma is_readable_spec p : is_readable p = true <-> readable p.
Proof. unfold readable. destruct p; cbn; split; congruence. Qed.
Lemma forallb_spec {A} (f : A -> bool) (P : A -> Prop) l :
  (forall x, f x = true <-> P x) -> (forallb f l = true <-> Forall P l).
Proof.
  intros H. rewrite forallb_forall, Forall_forall. split; intros G x I.
  - now apply H, G.
  - now apply H, G.
Qed.

(** * Sending and receiving *)
Definition unsent (ps : list part) : option lost :=
  if forallb is_writable ps then None else Some (0, objects (until_unwritable ps)).
Definition unread (keeps : bool) (v : value) : option lost :=
  if forallb is_readable (parts v) then None
  else Some ((if keeps then buffers_of v else 0), objects (after_unreadable (parts v))).
Definition whole_value (v : value) : lost := (buffers_of v, objects_of v).
Fixpoint whole_values (vs : list value) : lost :=
  match vs with [] => (0, 0) | v :: vs' => plus (whole_value v) (whole_values vs') end.
Fixpoint unsent_all (vs : list value) : option lost :=
  match vs with
  | [] => None
  | v :: vs' =>
    match unsent (parts v) with
    | Some x => Some x
    | None => option_map (plus (whole_value v)) (unsent_all vs')
    end
  end.
Fixpoint unread_all (keeps : bool) (vs : list value) : option lost :=
  match vs with
  | [] => None
  | v :: vs' =>
    match unread keeps v with
    | Some x => Some (plus x (whole_values vs'))
    | None => unread_all keeps vs'
    end
  end.

Lemma unsent_none ps : Forall writable ps -> unsent ps = None.
Proof. intros H. unfold unsent. now rewrite (proj2 (forallb_spec _ _ _ is_writable_spec) H). Qed.
Lemma unsent_some ps : ~ Forall writable ps -> unsent ps = Some (0, objects (until_unwritable ps)).
Proof.
  intros H. unfold unsent. destruct (forallb is_writable ps) eqn:E; [|reflexivity].
  destruct H. now apply (forallb_spec _ _ _ is_writable_spec).
Qed.
Lemma unread_none keeps v : all_of readable v -> unread keeps v = None.
Proof. intros H. unfold unread. now rewrite (proj2 (forallb_spec _ _ _ is_readable_spec) H). Qed.
Lemma unread_some keeps v : ~ all_of readable v ->
  unread keeps v = Some ((if keeps then buffers_of v else 0), objects (after_unreadable (parts v))).
Proof.
  intros H. unfold unread. destruct (forallb is_readable (parts v)) eqn:E; [|reflexivity].
  destruct H. now apply (forallb_spec _ _ _ is_readable_spec).
Qed.
Lemma whole_values_total vs : whole_values vs = (total buffers_of vs, total objects_of vs).
Proof. induction vs as [|v vs IH]; [reflexivity|]. cbn [whole_values total]. rewrite IH. reflexivity. Qed.
Lemma carry_count vs fs c : carry vs fs c -> count c = whole_values vs.
Proof.
  intros C. rewrite whole_values_total. unfold count. f_equal.
  - eapply carry_buffers; eauto.
  - eapply carry_objects; eauto.
Qed.
Lemma carries_count v f c : carries v f c -> count c = whole_value v.
Proof.
  intros C. unfold count, whole_value. f_equal.
  - eapply carries_buffers; eauto.
  - eapply carries_objects; eauto.
Qed.

Lemma unsent_all_none vs : Forall (all_of writable) vs -> unsent_all vs = None.
Proof. induction 1 as [|v vs H F IH]; [reflexivity|]. cbn [unsent_all]. now rewrite (unsent_none _ H), IH. Qed.
Lemma unsent_all_split before v after :
  Forall (all_of writable) before -> ~ all_of writable v ->
  unsent_all (before ++ v :: after) =
  Some (total buffers_of before, total objects_of before + objects (until_unwritable (parts v))).
Proof.
  intros F N. induction F as [|w ws H F IH]; cbn [app unsent_all].
  - now rewrite (unsent_some _ N).
  - rewrite (unsent_none _ H), IH. cbn [option_map]. f_equal. unfold plus, whole_value. cbn. f_equal. lia.
Qed.
Lemma unread_all_none keeps vs : Forall (all_of readable) vs -> unread_all keeps vs = None.
Proof. induction 1 as [|v vs H F IH]; [reflexivity|]. cbn [unread_all]. now rewrite (unread_none _ _ H), IH. Qed.
Lemma unread_all_split keeps before v after :
  Forall (all_of readable) before -> ~ all_of readable v ->
  unread_all keeps (before ++ v :: after) =
  Some ((if keeps then buffers_of v else 0) + total buffers_of after,
        objects (after_unreadable (parts v)) + total objects_of after).
Proof.
  intros F N. induction F as [|w ws H F IH]; cbn [app unread_all].
  - rewrite (unread_some _ _ N), whole_values_total. reflexivity.
  - now rewrite (unread_none _ _ H), IH.
Qed.

(** * Rules for the outcomes *)
Lemma t_lower_all' fails low vs P : fails = throws \/ fails = traps ->
  (forall v P, triple P (low v) (lowered fails v P)) ->
  triple P (lower_all low vs) (fun o own =>
    match unsent_all vs with
    | None => exists fs c, o = Val fs /\ carry vs fs c /\ Permutation own (c ++ P)
    | Some x => o = fails _ /\ exists c, count c = x /\ Permutation own (c ++ P)
    end).
Proof.
  intros F H. eapply t_weaken; [apply (t_lower_all fails low F H)|].
  intros o own [(fs & c & -> & C & E)|(c & -> & (before & v & after & -> & W & N & B & R) & E)].
  - rewrite unsent_all_none by (eapply carry_writable; eauto). eauto.
  - rewrite (unsent_all_split _ _ _ W N). split; [reflexivity|]. exists c. split; [|exact E].
    unfold count. now rewrite B, R.
Qed.
Lemma t_lift_all' keeps li vs fs c P P0 :
  (forall v f c P P0, carries v f c -> Permutation P0 (c ++ P) -> triple P0 (li f) (lifted keeps v P)) ->
  carry vs fs c -> Permutation P0 (c ++ P) ->
  triple P0 (lift_all li fs) (fun o own =>
    match unread_all keeps vs with
    | None => o = Val tt /\ Permutation own P
    | Some x => o = Throw /\ exists c, count c = x /\ Permutation own (c ++ P)
    end).
Proof.
  intros H C E. eapply t_weaken; [apply (t_lift_all keeps li H vs fs c C P P0 E)|].
  intros o own [(-> & R & E')|(d & -> & (before & v & after & -> & W & N & B & R) & E')].
  - now rewrite unread_all_none.
  - rewrite (unread_all_split _ _ _ _ W N). split; [reflexivity|]. exists d. split; [|exact E'].
    unfold count. now rewrite B, R.
Qed.

(** Lifting in a try block: what is lost, and whether it went well. *)
Definition or_zero (x : option lost) : lost := match x with Some y => y | None => (0, 0) end.
Lemma t_try_lift keeps li vs fs c P P0 :
  (forall v f c P P0, carries v f c -> Permutation P0 (c ++ P) -> triple P0 (li f) (lifted keeps v P)) ->
  carry vs fs c -> Permutation P0 (c ++ P) ->
  triple P0 (attempt (lift_all li fs)) (fun o own =>
    o = Val (match unread_all keeps vs with None => Some tt | Some _ => None end) /\
    exists c, count c = or_zero (unread_all keeps vs) /\ Permutation own (c ++ P)).
Proof.
  intros H C E. eapply t_attempt; [apply (t_lift_all' keeps li vs fs c P P0 H C E)| | | |]; cbn beta;
    destruct (unread_all keeps vs) as [x|]; cbn [or_zero].
  - intros a own [[=] _].
  - intros a own [[= ->] E']. split; [reflexivity|]. exists []. auto.
  - intros own [_ (d & D & E')]. eauto.
  - intros own [[=] _].
  - intros own [[=] _].
  - intros own [[=] _].
  - intros own [[=] _].
  - intros own [[=] _].
Qed.

(** What a status says. *)
Inductive kind := KOk (v : value) | KErr (e : list part) | KMsg | KNone.
Inductive states : kind -> status -> cells -> Prop :=
| states_ok v f c : carries v f c -> states (KOk v) (Success f) c
| states_err e b ss : holds e ss -> states (KErr e) (Error (Some b)) ((b, CBuf ss) :: refs (slot_refs ss))
| states_msg b : states KMsg (Unexpected (Some b)) [(b, CBuf [SData])]
| states_none : states KNone (Unexpected None) []
| states_lost : states KNone (Error None) [].
Definition whole (k : kind) : lost :=
  match k with
  | KOk v => whole_value v
  | KErr e => (1, objects e)
  | KMsg => (1, 0)
  | KNone => (0, 0)
  end.
Lemma states_count k st c : states k st c -> count c = whole k.
Proof.
  intros [v f c' C|e b ss H|b| |]; try reflexivity.
  - now apply carries_count with f.
  - unfold count. cbn. rewrite buffers_refs, references_refs. now rewrite (holds_count _ _ H).
Qed.

Definition told (x : lost) (k : kind) (P : cells) (o : out status) (own : cells) : Prop :=
  exists st c d, o = Val st /\ states k st c /\ count d = x /\ Permutation own (c ++ d ++ P).

Lemma t_message P : triple P message (told (0, 0) KMsg P).
Proof.
  unfold message. apply t_bind with (Q := fun o own => exists i, o = Val i /\ own = (i, CBuf [SData]) :: P);
    [apply t_new; eauto| | | |]; try (now intros own (i & ? & _)).
  intros i own (j & [= <-] & ->). apply t_ret. exists (Unexpected (Some i)), [(i, CBuf [SData])], [].
  repeat split; auto. constructor.
Qed.
Lemma t_message_after d x P P0 : count d = x -> Permutation P0 (d ++ P) -> triple P0 message (told x KMsg P).
Proof.
  intros D E. eapply t_perm; [exact E|]. eapply t_weaken; [apply t_message|].
  intros o own (st & c & d' & -> & S & D' & E'). exists st, c, (d' ++ d). repeat split; auto.
  - rewrite count_app, D', D; apply plus_0_l.
  - (rewrite E', <- app_assoc; reflexivity).
Qed.

(** Lowering a result, with a handler for its failure. *)
Lemma t_lower_or {A} fails low v P (k : ffi -> M A) (R : out A -> cells -> Prop) :
  (forall P, triple P (low v) (lowered fails v P)) ->
  (forall f c own, all_of writable v -> carries v f c -> Permutation own (c ++ P) -> triple own (k f) R) ->
  (forall own d x, unsent (parts v) = Some x -> count d = x -> Permutation own (d ++ P) -> R (fails _) own) ->
  fails = throws \/ fails = traps ->
  triple P (do f <- low v; k f) R.
Proof.
  intros H H1 H2 F. eapply t_bind; [apply H| | | |].
  - intros f own [(f' & c & [= <-] & C & E)|(rs & E & _)]; [|destruct F as [-> | ->]; discriminate E].
    apply (H1 f c own); auto. eapply carries_writable; eauto.
  - intros own [(f' & c & [=] & _)|(rs & E & [L N] & E')].
    destruct F as [-> | ->]; [|discriminate E]. apply (H2 own (refs rs) (count (refs rs))); auto.
    rewrite (unsent_some _ N). rewrite count_refs. now rewrite L.
  - intros own [(f' & c & [=] & _)|(rs & E & [L N] & E')].
    destruct F as [-> | ->]; [discriminate E|]. apply (H2 own (refs rs) (count (refs rs))); auto.
    rewrite (unsent_some _ N). rewrite count_refs. now rewrite L.
  - intros own [(f' & c & [=] & _)|(rs & E & _)]. destruct F as [-> | ->]; discriminate E.
Qed.
Lemma t_pack_or {A} fails pk e P (k : nat -> M A) (R : out A -> cells -> Prop) :
  (forall P, triple P (pk e) (packed fails e P)) ->
  (forall b ss own, Forall writable e -> holds e ss ->
     Permutation own (((b, CBuf ss) :: refs (slot_refs ss)) ++ P) -> triple own (k b) R) ->
  (forall own d x, unsent e = Some x -> count d = x -> Permutation own (d ++ P) -> R (fails _) own) ->
  fails = throws \/ fails = traps ->
  triple P (do b <- pk e; k b) R.
Proof.
  intros H H1 H2 F. eapply t_bind; [apply H| | | |].
  - intros b own [(b' & ss & [= <-] & C & E)|(rs & E & _)]; [|destruct F as [-> | ->]; discriminate E].
    apply (H1 b ss own); auto. eapply holds_writable; eauto.
  - intros own [(f' & c & [=] & _)|(rs & E & [L N] & E')].
    destruct F as [-> | ->]; [|discriminate E]. apply (H2 own (refs rs) (count (refs rs))); auto.
    rewrite (unsent_some _ N). rewrite count_refs. now rewrite L.
  - intros own [(f' & c & [=] & _)|(rs & E & [L N] & E')].
    destruct F as [-> | ->]; [discriminate E|]. apply (H2 own (refs rs) (count (refs rs))); auto.
    rewrite (unsent_some _ N). rewrite count_refs. now rewrite L.
  - intros own [(f' & c & [=] & _)|(rs & E & _)]. destruct F as [-> | ->]; discriminate E.
Qed.

(** The status made of a value or an error, or the failure to make it. *)
Definition tried (fails : out status) (u : option lost) (k : kind) P (o : out status) (own : cells) : Prop :=
  match u with
  | None => exists st c, o = Val st /\ states k st c /\ Permutation own (c ++ P)
  | Some x => o = fails /\ exists d, count d = x /\ Permutation own (d ++ P)
  end.
Lemma t_try_value fails low v P : fails = throws \/ fails = traps ->
  (forall P, triple P (low v) (lowered fails v P)) ->
  triple P (do f <- low v; ret (Success f)) (tried (fails _) (unsent (parts v)) (KOk v) P).
Proof.
  intros F H. apply (t_lower_or fails low v P); auto.
  - intros f c own W C E. apply t_ret. unfold tried. rewrite (unsent_none _ W). exists (Success f), c.
    repeat split; auto. now constructor.
  - intros own d x U D E. unfold tried. rewrite U. eauto.
Qed.
Lemma t_try_error fails pk e P : fails = throws \/ fails = traps ->
  (forall P, triple P (pk e) (packed fails e P)) ->
  triple P (do b <- pk e; ret (Error (Some b))) (tried (fails _) (unsent e) (KErr e) P).
Proof.
  intros F H. apply (t_pack_or fails pk e P); auto.
  - intros b ss own W C E. apply t_ret. unfold tried. rewrite (unsent_none _ W).
    exists (Error (Some b)), ((b, CBuf ss) :: refs (slot_refs ss)). repeat split; auto. now constructor.
  - intros own d x U D E. unfold tried. rewrite U. eauto.
Qed.

(** With a message in place of what cannot be lowered. *)
Definition or_msg (u : option lost) (k : kind) : lost * kind :=
  match u with None => ((0, 0), k) | Some x => (x, KMsg) end.
Lemma t_or_message m u k P : triple P m (tried Throw u k P) ->
  triple P (catch m message) (told (fst (or_msg u k)) (snd (or_msg u k)) P).
Proof.
  intros H. eapply t_catch; [exact H| | | |]; unfold tried; destruct u as [x|]; cbn [or_msg fst snd].
  all: try (now intros; destruct H0).
  all: try (now intros own (st & c & [=] & _)).
  all: try (now intros own ([=] & _)).
  - intros st own (st' & c & [= <-] & S & E). exists st, c, []. auto.
  - intros own (_ & d & D & E). now apply t_message_after with d.
Qed.

(** * What Rust answers *)
Definition answer (body : result) : lost * kind :=
  match body with
  | Returns v => or_msg (unsent (parts v)) (KOk v)
  | Fails e => or_msg (unsent e) (KErr e)
  | Panics true => ((0, 0), KMsg)
  | Panics false => ((0, 0), KNone)
  end.
Lemma t_respond body P : triple P (respond body) (told (fst (answer body)) (snd (answer body)) P).
Proof.
  destruct body as [v|e|[]]; cbn [respond answer].
  - apply t_or_message, (t_try_value throws); auto. intros. apply t_rust_lower.
  - apply t_or_message, (t_try_error throws); auto. intros. apply (t_pack_copied e P0 throws). auto.
  - apply t_message.
  - apply t_ret. exists (Unexpected None), [], []. repeat split; auto. constructor.
Qed.
(** The body that the refusal of an argument stands for. *)
Definition refusal (failed : option (list part)) : result :=
  match failed with Some e => Fails e | None => Panics true end.
Lemma t_refuse failed P :
  triple P (refuse failed) (told (fst (answer (refusal failed))) (snd (answer (refusal failed))) P).
Proof. destruct failed as [e|]; cbn [refuse refusal]; [apply t_respond|apply t_message]. Qed.
Definition body_after (failed : option (list part)) (u : option lost) (body : result) : result :=
  match u with None => body | Some _ => refusal failed end.

Lemma told_after {m : M status} {x k d P P0} :
  (forall P, triple P m (told x k P)) -> Permutation P0 (d ++ P) ->
  triple P0 m (told (plus (count d) x) k P).
Proof.
  intros H E. eapply t_perm; [exact E|]. eapply t_weaken; [apply H|].
  intros o own (st & c & d' & -> & S & D & E'). exists st, c, (d' ++ d). repeat split; auto.
  - now rewrite count_app, D, plus_comm.
  - (rewrite E', <- app_assoc; reflexivity).
Qed.

(** * What the caller makes of it *)
Definition over (x : lost) (P : cells) (o : out unit) (own : cells) : Prop :=
  (o = Val tt \/ o = Throw) /\ exists d, count d = x /\ Permutation own (d ++ P).

Definition error_lost (L : lang) (decl : declared) (e : list part) : lost :=
  match decl, L with
  | NoError, _ => (0, objects e)
  | EnumError, _ | ObjectError, (Python | Ruby) => or_zero (unread (keeps_buffer L) (Packed e))
  | ObjectError, (Kotlin | Swift) => plus (1, 0) (or_zero (unread false (Packed e)))
  end.
Definition final (L : lang) (decl : declared) (k : kind) : lost :=
  match k with
  | KOk v => or_zero (unread (keeps_buffer L) v)
  | KErr e => error_lost L decl e
  | KMsg | KNone => (0, 0)
  end.

Lemma lifted_over keeps v P o own : lifted keeps v P o own -> over (or_zero (unread keeps v)) P o own.
Proof.
  intros [(-> & R & E)|(c & -> & (N & B & R) & E)].
  - rewrite (unread_none _ _ R). split; [auto|]. exists []. auto.
  - rewrite (unread_some _ _ N). split; [auto|]. exists c. split; [|exact E]. unfold count. now rewrite B, R.
Qed.
Lemma t_then_throw (m : M unit) x P P0 : triple P0 m (over x P) ->
  triple P0 (run m; raise Throw) (over x P : out unit -> cells -> Prop).
Proof.
  intros H. eapply t_bind; [exact H| | | |].
  - intros a own [_ D]. apply t_raise. split; auto.
  - intros own [_ D]. split; auto.
  - intros own [[[=]|[=]] _].
  - intros own [[[=]|[=]] _].
Qed.
Lemma t_drop_buf b ss P P0 x d : Permutation P0 ((b, CBuf ss) :: d ++ P) -> count d = x ->
  triple P0 (run take_buf b; raise Throw) (over x P : out unit -> cells -> Prop).
Proof.
  intros E D. apply t_bind with (Q := fun o own => o = Val ss /\ own = d ++ P); try (now intros own [? _]).
  - eapply t_take_buf; [exact E|]. auto.
  - intros a own [_ ->]. apply t_raise. split; [auto|]. exists d. auto.
Qed.
Lemma t_read_only e ss b P P0 : holds e ss ->
  Permutation P0 ((b, CBuf ss) :: refs (slot_refs ss) ++ P) ->
  triple P0 (do ss <- look_buf b; read_slots ss) (over (plus (1, 0) (or_zero (unread false (Packed e)))) P).
Proof.
  intros H E. apply t_bind with (Q := fun o own => o = Val ss /\ own = P0); try (now intros own [? _]).
  - eapply t_look_buf; [exact E|]. auto.
  - intros ss' own [[= ->] ->]. eapply t_weaken.
    + apply (t_read e ss H ((b, CBuf ss) :: P)). rewrite E. apply Permutation_middle.
    + intros o own [(-> & F & E')|(rs & -> & [L N] & E')].
      * rewrite (unread_none _ (Packed e) F). split; [auto|]. exists [(b, CBuf ss)]. auto.
      * rewrite (unread_some _ (Packed e) N). split; [auto|]. exists ((b, CBuf ss) :: refs rs). split.
        -- change (count ((b, CBuf ss) :: refs rs)) with (count ([(b, CBuf ss)] ++ refs rs)).
           rewrite count_app, count_refs, L. reflexivity.
        -- rewrite E'. symmetry. apply Permutation_middle.
Qed.
Lemma t_lift_error L decl e b ss P P0 : holds e ss ->
  Permutation P0 ((b, CBuf ss) :: refs (slot_refs ss) ++ P) ->
  triple P0 (lift_error L decl b) (over (error_lost L decl e) P).
Proof.
  intros H E.
  assert (triple P0 (unpack L b) (over (or_zero (unread (keeps_buffer L) (Packed e))) P)) as U.
  { eapply t_weaken; [eapply t_unpack; eauto|]. intros. now apply lifted_over. }
  destruct decl; [|exact U|destruct L; cbn [lift_error error_lost]; [exact U| | |exact U]].
  - apply (t_drop_buf b ss P P0 _ (refs (slot_refs ss)) E). rewrite count_refs.
    now rewrite (holds_count _ _ H).
  - now apply t_read_only with ss.
  - now apply t_read_only with ss.
Qed.
Lemma t_finish L decl k st c P P0 : states k st c -> Permutation P0 (c ++ P) ->
  triple P0 (finish L decl st) (over (final L decl k) P).
Proof.
  intros S E. destruct S as [v f c C|e b ss H|b| |]; cbn [finish final].
  - eapply t_weaken; [eapply t_lift; eauto|]. intros. now apply lifted_over.
  - apply t_then_throw. now apply t_lift_error with ss.
  - now apply (t_drop_buf b [SData] P P0 _ [] E).
  - apply t_raise. split; [auto|]. exists []. auto.
  - apply t_raise. split; [auto|]. exists []. auto.
Qed.

(** * Calls *)
Definition outcome (x : option lost) (P : cells) (o : out unit) (own : cells) : Prop :=
  match x with
  | Some y => over y P o own
  | None => o = Trap
  end.
Definition not_sent (L : lang) (x : lost) : option lost := match L with Swift => None | _ => Some x end.

Lemma t_send_args {B} L args P (k : list ffi -> M B) (R : out B -> cells -> Prop) :
  (forall fs c own, unsent_all args = None -> carry args fs c -> Permutation own (c ++ P) -> triple own (k fs) R) ->
  (forall own d x, unsent_all args = Some x -> count d = x -> Permutation own (d ++ P) -> R (failure L B) own) ->
  triple P (do fs <- lower_all (lower L) args; k fs) R.
Proof.
  intros H1 H2.
  eapply t_bind; [apply (t_lower_all' (failure L)); [apply failure_cases|intros; apply t_lower]| | | |]; cbn;
    destruct (unsent_all args) as [x|] eqn:U.
  all: try (intros own (fs & c & [=] & _); fail).
  - intros fs own [E _]. destruct L; discriminate E.
  - intros fs own (fs' & c & [= <-] & C & E). apply (H1 fs c own); auto.
  - intros own [E (d & D & E')]. destruct L; try discriminate E; apply (H2 own d x); auto.
  - intros own [E (d & D & E')]. destruct L; try discriminate E; apply (H2 own d x); auto.
  - intros own [E _]. destruct L; discriminate E.
Qed.
Lemma t_rust_send_args {B} args P (k : list ffi -> M B) (R : out B -> cells -> Prop) :
  (forall fs c own, unsent_all args = None -> carry args fs c -> Permutation own (c ++ P) -> triple own (k fs) R) ->
  (forall own d x, unsent_all args = Some x -> count d = x -> Permutation own (d ++ P) -> R Throw own) ->
  triple P (do fs <- lower_all rust_lower args; k fs) R.
Proof.
  intros H1 H2.
  eapply t_bind; [apply (t_lower_all' throws); [auto|intros; apply t_rust_lower]| | | |]; cbn;
    destruct (unsent_all args) as [x|] eqn:U.
  all: try (intros own (fs & c & [=] & _); fail).
  - intros fs own [E _]. discriminate E.
  - intros fs own (fs' & c & [= <-] & C & E). apply (H1 fs c own); auto.
  - intros own [E (d & D & E')]. apply (H2 own d x); auto.
  - intros own [E _]. discriminate E.
  - intros own [E _]. discriminate E.
Qed.

Definition left_call (L : lang) (decl : declared) (failed : option (list part)) (args : list value)
    (body : result) : option lost :=
  match unsent_all args with
  | Some x => not_sent L x
  | None =>
    let u := unread_all false args in
    let a := answer (body_after failed u body) in
    Some (plus (or_zero u) (plus (fst a) (final L decl (snd a))))
  end.

Lemma t_answer failed u body d P P0 : Permutation P0 (d ++ P) ->
  triple P0 (match match u : option lost with None => Some tt | Some _ => None end with
             | Some _ => respond body | None => refuse failed end)
    (told (plus (count d) (fst (answer (body_after failed u body)))) (snd (answer (body_after failed u body))) P).
Proof.
  intros E. destruct u as [x|]; cbn [body_after].
  - eapply told_after; [|exact E]. intros. apply t_refuse.
  - eapply told_after; [|exact E]. intros. apply t_respond.
Qed.

Lemma over_more d x P o own : over x (d ++ P) o own -> over (plus x (count d)) P o own.
Proof.
  intros [O (d' & D & E)]. split; [exact O|]. exists (d' ++ d). split.
  - now rewrite count_app, D.
  - (rewrite E, <- app_assoc; reflexivity).
Qed.
Lemma over_failure L x d own P : count d = x -> Permutation own (d ++ P) ->
  outcome (not_sent L x) P (failure L unit) own.
Proof. intros D E. destruct L; cbn; try reflexivity; (split; [auto|]); exists d; auto. Qed.

Lemma t_call L decl failed args body P :
  triple P (call L decl failed args body) (outcome (left_call L decl failed args body) P).
Proof.
  unfold call. apply t_send_args.
  - intros fs c own U C E. unfold scaffold, left_call. rewrite U.
    set (u := unread_all false args). set (a := answer (body_after failed u body)).
    apply t_bind with (Q := told (plus (or_zero u) (fst a)) (snd a) P).
    + eapply t_bind; [apply (t_try_lift false rust_lift args fs c P own)| | | |]; auto.
      * intros. eapply t_rust_lift; eauto.
      * intros l own' [[= ->] (d & D & E')]. fold u. fold u in D. rewrite <- D. now apply t_answer.
      * intros own' [[=] _].
      * intros own' [[=] _].
      * intros own' [[=] _].
    + intros st own' (st' & c' & d & [= <-] & S & D & E'). eapply t_weaken; [apply (t_finish L decl _ _ _ _ _ S E')|].
      intros o own2 Ov. apply over_more in Ov. cbn [outcome]. rewrite D in Ov.
      rewrite plus_comm, <- plus_assoc in Ov. exact Ov.
    + intros own' (st' & c' & d & [=] & _).
    + intros own' (st' & c' & d & [=] & _).
    + intros own' (st' & c' & d & [=] & _).
  - intros own d x U D E. unfold left_call. rewrite U. now apply over_failure with d.
Qed.

Definition left_call_async (L : lang) (decl : declared) (failed : option (list part)) (i : interrupt)
    (args : list value) (body : result) : option lost :=
  match unsent_all args with
  | Some x => not_sent L x
  | None =>
    let u := unread_all false args in
    let a := answer (body_after failed u body) in
    Some (plus (or_zero u)
      match interrupted L i with
      | WhilePending => (0, 0)
      | WhenReady => plus (fst a) (whole (snd a))
      | Never => plus (fst a) (final L decl (snd a))
      end)
  end.

Lemma t_drop_ref {B} r d P P0 (k : M B) (R : out B -> cells -> Prop) :
  Permutation P0 (d ++ (r, CRef) :: P) ->
  (forall own, Permutation own (d ++ P) -> triple own k R) ->
  triple P0 (run take_ref r; k) R.
Proof.
  intros E H. apply t_bind with (Q := fun o own => o = Val tt /\ own = d ++ P); try (now intros own [? _]).
  - eapply t_take_ref; [rewrite E; symmetry; apply Permutation_middle|]. auto.
  - intros a own [_ ->]. now apply H.
Qed.

Lemma t_call_async L decl failed i args body P :
  triple P (call_async L decl failed i args body) (outcome (left_call_async L decl failed i args body) P).
Proof.
  unfold call_async. apply t_send_args.
  - intros fs c own U C E. unfold left_call_async. rewrite U.
    set (u := unread_all false args). set (a := answer (body_after failed u body)).
    eapply t_bind; [apply (t_try_lift false rust_lift args fs c P own)| | | |]; auto;
      try (intros own' [[=] _]; fail).
    { intros. eapply t_rust_lift; eauto. }
    intros l own' [[= ->] (d & D & E')]. fold u. fold u in D.
    apply t_bind with (Q := fun o own => exists i, o = Val i /\ own = (i, CRef) :: own');
      [apply t_new; eauto| | | |]; try (now intros own2 (j & ? & _)).
    intros f own2 (f' & [= <-] & ->). cbn [outcome].
    assert (Permutation ((f, CRef) :: own') (d ++ (f, CRef) :: P)) as E2.
    { rewrite E'. apply Permutation_middle. }
    destruct (interrupted L i).
    + eapply t_bind; [apply (t_answer failed u body d ((f, CRef) :: P) _ E2)| | | |];
        try (intros own3 (st' & c' & d' & [=] & _); fail).
      intros st own3 (st' & c' & d' & [= <-] & S & D' & E3). fold a in S, D'.
      eapply t_bind with (Q := fun o own => exists r, o = Val r /\
        exists d2, count d2 = plus (fst a) (plus (final L decl (snd a)) (count d)) /\
        Permutation own (d2 ++ (f, CRef) :: P)); try (intros own4 (r & [=] & _); fail).
      * eapply t_attempt; [apply (t_finish L decl _ _ _ _ _ S E3)| | | |].
        -- intros r own4 Ov. apply over_more in Ov. destruct Ov as [_ (d2 & D2 & E4)].
           exists (Some r). split; [reflexivity|]. exists d2. split; [|exact E4].
           rewrite D2, D'. unfold plus. cbn. f_equal; lia.
        -- intros own4 Ov. apply over_more in Ov. destruct Ov as [_ (d2 & D2 & E4)].
           exists None. split; [reflexivity|]. exists d2. split; [|exact E4].
           rewrite D2, D'. unfold plus. cbn. f_equal; lia.
        -- intros own4 [[[=]|[=]] _].
        -- intros own4 [[[=]|[=]] _].
      * intros r own4 (r' & _ & d2 & D2 & E4). apply (t_drop_ref f d2 P _ _ _ E4). intros own5 E5.
        assert (count d2 = plus (or_zero u) (plus (fst a) (final L decl (snd a)))) as D3.
        { rewrite D2, D. unfold plus. cbn. f_equal; lia. }
        destruct r; [apply t_ret|apply t_raise]; (split; [auto|]); exists d2; auto.
    + apply (t_drop_ref f d P _ _ _ E2). intros own5 E5. apply t_raise. split; [auto|]. exists d.
      rewrite plus_0_r. auto.
    + eapply t_bind; [apply (t_answer failed u body d ((f, CRef) :: P) _ E2)| | | |];
        try (intros own3 (st' & c' & d' & [=] & _); fail).
      intros st own3 (st' & c' & d' & [= <-] & S & D' & E3). fold a in S, D'.
      apply (t_drop_ref f (c' ++ d') P).
      { rewrite E3, app_assoc. reflexivity. }
      intros own5 E5. apply t_raise. split; [auto|]. exists (c' ++ d'). split; [|exact E5].
      rewrite count_app, (states_count _ _ _ S), D', D. unfold plus. cbn. f_equal; lia.
  - intros own d x U D E. unfold left_call_async. rewrite U. now apply over_failure with d.
Qed.

(** * Callbacks *)
Definition rust_final (k : kind) : lost :=
  match k with
  | KOk v => or_zero (unread false v)
  | KErr e => or_zero (unread false (Packed e))
  | KMsg | KNone => (0, 0)
  end.
Definition declared_kind (decl : bool) (k : kind) : Prop :=
  match k with KErr _ => decl = true | _ => True end.
Lemma t_rust_finish decl k st c P P0 : declared_kind decl k -> states k st c -> Permutation P0 (c ++ P) ->
  triple P0 (rust_finish decl st) (over (rust_final k) P).
Proof.
  intros K S E. destruct S as [v f c C|e b ss H|b| |]; cbn [rust_finish rust_final].
  - eapply t_weaken; [eapply t_rust_lift; eauto|]. intros. now apply lifted_over.
  - cbn in K. rewrite K. apply t_then_throw. eapply t_weaken; [eapply t_rust_unpack; eauto|].
    intros. now apply lifted_over.
  - now apply (t_drop_buf b [SData] P P0 _ [] E).
  - apply t_raise. split; [auto|]. exists []. auto.
  - apply t_raise. split; [auto|]. exists []. auto.
Qed.

(** What the foreign method answers; [None]: the process ends. *)
Definition or_trap (L : lang) (u : option lost) (k : kind) (instead : kind) : option (lost * kind) :=
  match u with
  | None => Some ((0, 0), k)
  | Some x => match L with Swift => None | _ => Some (x, instead) end
  end.
Definition reply (L : lang) (decl : bool) (d : deed) : option (lost * kind) :=
  match d with
  | Answers v => or_trap L (unsent (parts v)) (KOk v) KMsg
  | Raises e =>
    if decl then or_trap L (unsent e) (KErr e) (match L with Kotlin | Ruby => KNone | _ => KMsg end)
    else Some ((0, 0), KMsg)
  | Breaks => Some ((0, 0), KMsg)
  end.
Lemma reply_declared L decl d x k : reply L decl d = Some (x, k) -> declared_kind decl k.
Proof.
  destruct d as [v|e|]; cbn [reply].
  - destruct (unsent (parts v)), L; cbn; intros [= <- <-]; exact I.
  - destruct decl; [|intros [= <- <-]; exact I]. destruct (unsent e), L; cbn; intros [= <- <-]; cbn; auto.
  - intros [= <- <-]. exact I.
Qed.

Definition tells (r : option (lost * kind)) (P : cells) (o : out status) (own : cells) : Prop :=
  match r with
  | Some (x, k) => told x k P o own
  | None => o = Trap
  end.

Lemma t_or_message' L m u k P : triple P m (tried (failure L _) u k P) ->
  triple P (catch m message) (tells (or_trap L u k KMsg) P).
Proof.
  intros H. eapply t_catch; [exact H| | | |]; unfold tried; destruct u as [x|]; cbn [or_trap tells].
  - intros st own [E _]. destruct L; discriminate E.
  - intros st own (st' & c & [= <-] & S & E). exists st, c, []. auto.
  - intros own [E (d & D & E')]. destruct L; try discriminate E; now apply t_message_after with d.
  - intros own (st & c & [=] & _).
  - intros own [E (d & D & E')]. destruct L; try discriminate E; reflexivity.
  - intros own (st & c & [=] & _).
  - intros own [E _]. destruct L; discriminate E.
  - intros own (st & c & [=] & _).
Qed.
Lemma t_or_none L m u k P : triple P m (tried (failure L _) u k P) ->
  triple P (catch m (ret (Error None))) (tells (or_trap L u k KNone) P).
Proof.
  intros H. eapply t_catch; [exact H| | | |]; unfold tried; destruct u as [x|]; cbn [or_trap tells].
  - intros st own [E _]. destruct L; discriminate E.
  - intros st own (st' & c & [= <-] & S & E). exists st, c, []. auto.
  - intros own [E (d & D & E')]. destruct L; try discriminate E; apply t_ret; exists (Error None), [], d;
      (repeat split; auto; constructor).
  - intros own (st & c & [=] & _).
  - intros own [E (d & D & E')]. destruct L; try discriminate E; reflexivity.
  - intros own (st & c & [=] & _).
  - intros own [E _]. destruct L; discriminate E.
  - intros own (st & c & [=] & _).
Qed.
Lemma t_or_nothing_swift m u k P : triple P m (tried Trap u k P) -> triple P m (tells (or_trap Swift u k KMsg) P).
Proof.
  intros H. eapply t_weaken; [exact H|]. unfold tried. destruct u as [x|]; cbn [or_trap tells].
  - now intros o own [-> _].
  - intros o own (st & c & -> & S & E). exists st, c, []. auto.
Qed.

Definition method (L : lang) (decl : bool) (d : deed) : M status :=
  match d with
  | Answers v => catch (do f <- lower L v; ret (Success f)) message
  | Raises e => if decl then report_error L e else message
  | Breaks => message
  end.
Lemma t_method L decl d P : triple P (method L decl d) (tells (reply L decl d) P).
Proof.
  assert (forall e, triple P (do b <- pack L e; ret (Error (Some b)))
    (tried (failure L _) (unsent e) (KErr e) P)) as HE.
  { intros e. apply (t_try_error (failure L)); [apply failure_cases|]. intros. apply t_pack. }
  destruct d as [v|e|]; cbn [method reply].
  - apply t_or_message', (t_try_value (failure L)); [apply failure_cases|]. intros. apply t_lower.
  - destruct decl; [|apply t_message]. specialize (HE e). destruct L; cbn [report_error].
    + now apply t_or_message'.
    + now apply t_or_none.
    + now apply t_or_nothing_swift.
    + now apply t_or_none.
  - apply t_message.
Qed.

Definition left_callback (L : lang) (decl : bool) (args : list value) (d : deed) : option lost :=
  match unsent_all args with
  | Some x => Some x
  | None =>
    match unread_all (keeps_buffer L) args with
    | Some x => Some x
    | None => option_map (fun a => plus (fst a) (rust_final (snd a))) (reply L decl d)
    end
  end.

Lemma t_callback L decl args d P :
  triple P (callback L decl args d) (outcome (left_callback L decl args d) P).
Proof.
  unfold callback. apply t_rust_send_args.
  - intros fs c own U C E. unfold left_callback. rewrite U. unfold respond_foreign.
    set (u := unread_all (keeps_buffer L) args).
    apply t_bind with (Q := tells (match u with Some x => Some (x, KMsg) | None => reply L decl d end) P).
    + eapply t_bind; [apply (t_try_lift (keeps_buffer L) (lift L) args fs c P own)| | | |]; auto;
        try (intros own' [[=] _]; destruct u; fail).
      * intros. eapply t_lift; eauto.
      * intros l own' [[= ->] (e & D & E')]. fold u. fold u in D. destruct u as [x|].
        -- now apply t_message_after with e.
        -- eapply t_weaken; [apply (t_method L decl d own')|].
           unfold tells. destruct (reply L decl d) as [[x k]|]; [|auto].
           intros o own2 (st & c' & d' & -> & S & D' & E2). exists st, c', (d' ++ e).
           repeat split; auto.
           ++ rewrite count_app, D', D. apply plus_0_r.
           ++ rewrite E2, E', <- app_assoc. reflexivity.
    + intros st own' T. unfold tells in T.
      assert (exists x k, (match u with Some x => Some (x, KMsg) | None => reply L decl d end) = Some (x, k) /\
        declared_kind decl k) as (x & k & Ek & K).
      { destruct u as [x|]; [exists x, KMsg; split; [auto|exact I]|].
        destruct (reply L decl d) as [[x k]|] eqn:R; [|discriminate T]. exists x, k. split; [auto|].
        eapply reply_declared; eauto. }
      rewrite Ek in T. destruct T as (st' & c' & d' & [= <-] & S & D & E').
      eapply t_weaken; [apply (t_rust_finish decl k st c' _ _ K S E')|].
      intros o own2 Ov. apply over_more in Ov. rewrite D in Ov. destruct u as [y|].
      * injection Ek as -> <-. cbn [rust_final] in Ov. rewrite plus_0_l in Ov. exact Ov.
      * rewrite Ek. cbn [option_map outcome fst snd]. now rewrite plus_comm.
    + intros own'. unfold tells. destruct u as [x|]; [|destruct (reply L decl d) as [[x k]|]].
      * intros (st' & c' & d' & [=] & _).
      * intros (st' & c' & d' & [=] & _).
      * discriminate.
    + intros own'. unfold tells. destruct u as [x|]; [|destruct (reply L decl d) as [[x k]|]].
      * intros (st' & c' & d' & [=] & _).
      * intros (st' & c' & d' & [=] & _).
      * reflexivity.
    + intros own'. unfold tells. destruct u as [x|]; [|destruct (reply L decl d) as [[x k]|]].
      * intros (st' & c' & d' & [=] & _).
      * intros (st' & c' & d' & [=] & _).
      * discriminate.
  - intros own d' x U D E. unfold left_callback. rewrite U. split; [auto|]. exists d'. auto.
Qed.
