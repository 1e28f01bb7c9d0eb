(** Proof that calls in the JNI bindings do what they should as long as the VM works. *)
From Verif Require Import Jcall_Model Jcall_Spec.
From Coq Require Import List ZArith String Bool Lia.
Import ListNotations.
Open Scope string_scope.
Open Scope list_scope.
Open Scope Z_scope.

Lemma ran_ret : forall A (a : A) s, ready s -> ran (ret a) s (Done a) (objs s).
Proof. intros A a s R. exists s. repeat split; try apply R; reflexivity. Qed.
Lemma ran_panic : forall A m s, ready s -> ran (@panic A m) s (Unwinds m) (objs s).
Proof. intros A a s R. exists s. repeat split; try apply R; reflexivity. Qed.
Lemma ran_bind : forall A B (m : M A) (k : A -> M B) s a l o l',
  ran m s (Done a) l ->
  (forall s', ready s' -> frames s' = frames s -> objs s' = l -> ran (k a) s' o l') ->
  ran (bind m k) s o l'.
Proof.
  intros A B m k s a l o l' (s1 & E & R & F & L) K.
  destruct (K s1 R F L) as (s2 & E2 & R2 & F2 & L2).
  exists s2. unfold bind. rewrite E. repeat split; try apply R2; congruence.
Qed.
Lemma ran_bind_panic : forall A B (m : M A) (k : A -> M B) s w l,
  ran m s (Unwinds w) l -> ran (bind m k) s (Unwinds w) l.
Proof.
  intros A B m k s w l (s1 & E & R & F & L).
  exists s1. unfold bind. rewrite E. repeat split; try apply R; congruence.
Qed.
Lemma ran_try : forall A B (m : M (result A)) (k : A -> M (result B)) s a l o l',
  ran m s (Done (Okay a)) l ->
  (forall s', ready s' -> frames s' = frames s -> objs s' = l -> ran (k a) s' o l') ->
  ran (try_ m k) s o l'.
Proof. intros A B m k s a l o l' H K. unfold try_. apply (ran_bind _ _ _ _ _ _ _ _ _ H). exact K. Qed.
Lemma ran_try_error : forall A B (m : M (result A)) (k : A -> M (result B)) s e l,
  ran m s (Done (Error e)) l -> ran (try_ m k) s (Done (Error e)) l.
Proof.
  intros A B m k s e l H. unfold try_. apply (ran_bind _ _ _ _ _ _ _ _ _ H).
  intros s' R F L. subst l. apply ran_ret, R.
Qed.
Lemma ran_try_panic : forall A B (m : M (result A)) (k : A -> M (result B)) s w l,
  ran m s (Unwinds w) l -> ran (try_ m k) s (Unwinds w) l.
Proof. intros A B m k s e l H. unfold try_. apply ran_bind_panic, H. Qed.

(** A method that was called has raised an exception. *)
Definition raised {A} (m : M (A + exc)) (s : st) (x : exc) (l : list Z) : Prop :=
  exists s', m s = (Done (inr x), s') /\ pend s' = Some x /\ null_class s' = false /\ frames s' = frames s /\ objs s' = l.

Lemma raised_bind : forall A B (m : M (A + exc)) (k : A + exc -> M B) s x l o l',
  raised m s x l ->
  (forall s', pend s' = Some x -> null_class s' = false -> frames s' = frames s -> objs s' = l -> ran (k (inr x)) s' o l') ->
  ran (bind m k) s o l'.
Proof.
  intros A B m k s x l o l' (s1 & E & P & N & F & L) K.
  destruct (K s1 P N F L) as (s2 & E2 & R2 & F2 & L2).
  exists s2. unfold bind. rewrite E. repeat split; try apply R2; congruence.
Qed.

Section vm.
Variable faults : nat -> jni_fn -> fault.
Variable message_of : exc -> option string.
Variable unexpected : string -> Z.
Hypothesis H : healthy faults.

Lemma jni_ran : forall f s, ready s -> ran (jni faults f) s (Done true) (objs s).
Proof.
  intros f s [P N]. unfold ran, jni. rewrite P, (H (clock s) f). eexists. split; [reflexivity|].
  repeat split; try reflexivity; exact N || exact P.
Qed.

Lemma jni_pending : forall f s x, pend s = Some x -> while_pending f = true ->
  jni faults f s = (Done true, ST (pend s) (frames s) (attached s) (cache s) (null_class s) (objs s) (S (clock s))).
Proof. intros f s x P W. unfold jni. rewrite P, W, (H (clock s) f). reflexivity. Qed.

Ltac go L := eapply ran_bind; [apply L; assumption|].

(** One JNI function is called, and the rest follows. *)
Lemma jni_then : forall A f (k : bool -> M A) s o l, ready s ->
  (forall s', ready s' -> frames s' = frames s -> objs s' = objs s -> ran (k true) s' o l) ->
  ran (bind (jni faults f) k) s o l.
Proof. intros A f k s o l R K. eapply ran_bind; [apply jni_ran, R|]. exact K. Qed.

Ltac jn := apply jni_then; [assumption|]; cbv beta; let s1 := fresh "s" in let R := fresh "R" in let F := fresh "F" in let L := fresh "L" in intros s1 R F L; cbv iota.

Lemma get_then : forall A B (g : st -> A) (k : A -> M B) s o l,
  ran (k (g s)) s o l -> ran (bind (look g) k) s o l.
Proof. intros A B g k s o l (s' & E). exists s'. exact E. Qed.

Lemma add_cache_ran : forall k s, ready s -> ran (add_cache k) s (Done tt) (objs s).
Proof. intros k s [P N]. eexists. split; [reflexivity|]. repeat split; assumption || reflexivity. Qed.

Lemma class_get_ran : forall k s, ready s -> ran (class_get faults k) s (Done tt) (objs s).
Proof.
  intros k s R. unfold class_get, is_cached. apply get_then.
  destruct (existsb (key_eqb k) (cache s)); [apply ran_ret, R|].
  jn. jn. eapply ran_bind; [apply ran_ret; assumption|]. intros s2 R2 F2 L2.
  replace (objs s) with (objs s2) by congruence. apply add_cache_ran, R2.
Qed.

Lemma method_get_ran : forall k s, ready s -> ran (method_get faults k) s (Done tt) (objs s).
Proof.
  intros k s R. unfold method_get, is_cached. apply get_then.
  destruct (existsb (key_eqb k) (cache s)); [apply ran_ret, R|].
  jn. jn. jn. rewrite <- L, <- L0, <- L1. apply add_cache_ran. assumption.
Qed.

Lemma call_method_value : forall A k (body : M (A + exc)) a s l,
  ready s ->
  (forall s', ready s' -> frames s' = frames s -> objs s' = objs s -> ran body s' (Done (inl a)) l) ->
  ran (call_method faults k body) s (Done (inl a)) l.
Proof.
  intros A k body a s l R B. unfold call_method.
  go method_get_ran. intros s1 R1 F1 L1. jn.
  eapply ran_bind; [apply B; congruence || assumption|]. intros s3 R3 F3 L3. cbv iota.
  jn. rewrite <- L3, <- L0. apply ran_ret. assumption.
Qed.

Lemma call_method_raised : forall A k (body : M (A + exc)) x s l,
  ready s ->
  (forall s', ready s' -> frames s' = frames s -> objs s' = objs s -> ran body s' (Done (inr x)) l) ->
  raised (call_method faults k body) s x l.
Proof.
  intros A k body x s l R B. unfold call_method.
  destruct (method_get_ran k s R) as (s1 & E1 & R1 & F1 & L1).
  destruct (jni_ran (CallMethodA k) s1 R1) as (s2 & E2 & R2 & F2 & L2).
  destruct (B s2 R2) as (s3 & E3 & R3 & F3 & L3); [congruence | congruence |].
  unfold raised, bind. rewrite E1, E2, E3. cbn [set_pend].
  rewrite (jni_pending ExceptionOccurred _ x) by reflexivity.
  eexists. split; [reflexivity|]. cbn.
  split; [reflexivity|]. split; [exact (proj2 R3)|]. split; congruence.
Qed.

(** The exception is cleared, and the rest follows. *)
Lemma clear_then : forall A (k : M A) s x o l,
  pend s = Some x -> null_class s = false ->
  (forall s', ready s' -> frames s' = frames s -> objs s' = objs s -> ran k s' o l) ->
  ran (bind (jni faults ExceptionClear) (fun _ => bind (set_pend None) (fun _ => k))) s o l.
Proof.
  intros A k s x o l P N K.
  pose (s1 := ST None (frames s) (attached s) (cache s) (null_class s) (objs s) (S (clock s))).
  destruct (K s1) as (s2 & E2 & R2 & F2 & L2); [split; [reflexivity | exact N] | reflexivity | reflexivity |].
  exists s2. unfold bind. rewrite (jni_pending ExceptionClear s x P eq_refl). cbn [set_pend].
  split; [exact E2 |]. split; [exact R2 |]. split; [exact F2 | exact L2].
Qed.

Lemma string_chars_ran : forall s, ready s -> ran (string_chars faults) s (Done true) (objs s).
Proof. intros s R. unfold string_chars. jn. jn. jn. rewrite <- L, <- L0, <- L1. apply ran_ret. assumption. Qed.

Lemma get_message_ran : forall x s, ready s ->
  ran (get_message faults message_of x) s (Done (message message_of x)) (objs s).
Proof.
  intros x s R. unfold get_message, message. go method_get_ran. intros s1 R1 F1 L1. jn.
  assert (G : forall m, ran (d <- string_chars faults ;; ret (if d then m else
    "Error decoding Throwable message: UniFFI internal error in decode_jni_string: GetStringUTFChars returned NULL"))
    s0 (Done m) (objs s)).
  { intros m. go string_chars_ran. intros s3 R3 F3 L3. cbv iota. replace (objs s) with (objs s3) by congruence.
    apply ran_ret. assumption. }
  destruct x as [e | m | n]; [| apply G |]; (destruct (message_of _) as [w |]; [apply G |
    replace (objs s) with (objs s0) by congruence; apply ran_ret; assumption]).
Qed.

(** An exception is thrown. *)
Lemma throw_internal_ran : forall m s, ready s ->
  exists s', throw_internal faults m s = (Done tt, s') /\ pend s' = Some (Internal m) /\ null_class s' = false /\
    frames s' = frames s /\ objs s' = objs s.
Proof.
  intros m s R. unfold throw_internal, bind.
  destruct (class_get_ran KInternal s R) as (s1 & E1 & R1 & F1 & L1). rewrite E1. cbn [look].
  rewrite (proj2 R1).
  destruct (jni_ran ThrowNew s1 R1) as (s2 & E2 & R2 & F2 & L2). rewrite E2. cbn [set_pend].
  eexists. split; [reflexivity|]. cbn. split; [reflexivity|]. split; [exact (proj2 R2)|]. split; congruence.
Qed.

(** What is done on an attached thread. *)
Lemma attach_ran : forall A (f : M A) a s l, ready s ->
  (forall s', ready s' -> objs s' = objs s -> ran f s' (Done a) l) ->
  ran (attach faults f) s (Done a) l.
Proof.
  intros A f a s l R K. unfold ran, attach, bind.
  destruct (jni_ran AttachCurrentThread s R) as (s1 & E1 & R1 & F1 & L1). rewrite E1. cbn [set_attached].
  match goal with |- context [jni faults PushLocalFrame ?x] => pose (s2 := x); change x with s2 end.
  assert (R2 : ready s2) by (destruct R1; split; assumption).
  destruct (jni_ran PushLocalFrame s2 R2) as (s3 & E3 & R3 & F3 & L3).
  rewrite E3. cbn [look set_frames].
  match goal with |- context [f ?x] => pose (s4 := x); change x with s4 end.
  assert (R4 : ready s4) by (destruct R3; split; assumption).
  destruct (K s4 R4) as (s5 & E5 & R5 & F5 & L5).
  { unfold s4, s2 in *. cbn in *. congruence. }
  rewrite E5.
  destruct (jni_ran PopLocalFrame s5 R5) as (s6 & E6 & R6 & F6 & L6). rewrite E6. cbn [look set_frames ret].
  eexists. split; [reflexivity|]. split; [destruct R6; split; assumption|]. cbn.
  unfold s4, s2 in *. cbn in *. rewrite F6, F5. cbn. split; congruence.
Qed.

Lemma finish_ran : forall c s, ready s ->
  ran (finish c) s (match c with Fine => Done (Okay tt) | Refused m => Done (Error m) | Panics m => Unwinds m end) (objs s).
Proof. intros c s R. destruct c; cbn [finish]; (apply ran_ret || apply ran_panic); exact R. Qed.

Definition part_end (c : conv) : out (result unit) :=
  match c with Fine => Done (Okay tt) | Refused m => Done (Error m) | Panics m => Unwinds m end.

Lemma lift_part_ran : forall p s, ready s -> ran (lift_part faults p) s (part_end (snd p)) (objs s).
Proof.
  intros [k c] s R. unfold lift_part. cbn [fst snd]. destruct k.
  - apply finish_ran, R.
  - go string_chars_ran. intros s1 R1 F1 L1. cbv iota. rewrite <- L1. apply finish_ran, R1.
  - jn. jn. rewrite <- L, <- L0. apply finish_ran. assumption.
  - jn. jn. jn. rewrite <- L, <- L0, <- L1. apply finish_ran. assumption.
  - apply finish_ran, R.
Qed.

Lemma lower_part_ran : forall p s, ready s -> ran (lower_part faults p) s (part_end (snd p)) (objs s).
Proof.
  intros [k c] s R. unfold lower_part. cbn [fst snd].
  pose proof (finish_ran c s R) as Fi. destruct c as [| m | m]; cbn [part_end].
  - eapply ran_try; [exact Fi|]. intros s1 R1 F1 L1. rewrite <- L1. destruct k.
    + apply ran_ret, R1.
    + jn. rewrite <- L. apply ran_ret. assumption.
    + jn. rewrite <- L. apply ran_ret. assumption.
    + jn. jn. rewrite <- L, <- L0. apply ran_ret. assumption.
    + apply ran_ret, R1.
  - apply ran_try_error, Fi.
  - apply ran_try_panic, Fi.
Qed.

Definition parts_end {A} (l : list (leaf * conv)) (a : A) : out (result A) :=
  match first_bad l with
  | None => Done (Okay a)
  | Some (Refused m) => Done (Error m)
  | Some (Panics m) => Unwinds m
  | Some Fine => Done (Okay a)
  end.

Lemma first_bad_not_fine : forall l, first_bad l <> Some Fine.
Proof.
  induction l as [| [k c] l IH]; cbn [first_bad]; [discriminate|]. destruct c; [exact IH | discriminate | discriminate].
Qed.

Lemma lower_parts_ran : forall l s, ready s -> ran (lower_parts faults l) s (parts_end l tt) (objs s).
Proof.
  induction l as [| [k c] l IH]; intros s R; cbn [lower_parts]; unfold parts_end; cbn [first_bad].
  - apply ran_ret, R.
  - pose proof (lower_part_ran (k, c) s R) as Fi. cbn [snd] in Fi. destruct c; cbn [part_end] in Fi.
    + eapply ran_try; [exact Fi|]. intros s1 R1 F1 L1. rewrite <- L1. apply IH, R1.
    + apply ran_try_error, Fi.
    + apply ran_try_panic, Fi.
Qed.

Lemma first_bad_app : forall a b, first_bad (a ++ b) = match first_bad a with Some c => Some c | None => first_bad b end.
Proof.
  induction a as [| [k c] a IH]; intros b; cbn [first_bad app]; [reflexivity|]. destruct c; [apply IH | reflexivity | reflexivity].
Qed.

Lemma lower_args_ran : forall l s, ready s -> ran (lower_args faults l) s (parts_end (flat_map b_parts l) tt) (objs s).
Proof.
  induction l as [| b l IH]; intros s R; cbn [lower_args flat_map].
  - apply ran_ret, R.
  - pose proof (lower_parts_ran (b_parts b) s R) as Fi. unfold parts_end in *. rewrite first_bad_app.
    destruct (first_bad (b_parts b)) as [c |] eqn:E.
    + destruct c.
      * exfalso. exact (first_bad_not_fine _ E).
      * apply ran_try_error, Fi.
      * apply ran_try_panic, Fi.
    + eapply ran_try; [exact Fi|]. intros s1 R1 F1 L1. rewrite <- L1. apply IH, R1.
Qed.

(** Objects are dropped. *)
Lemma take_out_remove1 : forall h l before, take_out h before l = rev_append before (remove1 h l).
Proof.
  intros h. induction l as [| x l IH]; intros before; cbn [take_out remove1]; [now rewrite rev_append_rev, app_nil_r|].
  destruct (Z.eq_dec x h) as [E | E]; [rewrite (proj2 (Z.eqb_eq x h) E); reflexivity|].
  rewrite (proj2 (Z.eqb_neq x h) E), IH. reflexivity.
Qed.
Lemma release_one_remove1 : forall h l, release_one h l = remove1 h l.
Proof. intros h l. unfold release_one. rewrite take_out_remove1. reflexivity. Qed.
Lemma remove1_absent : forall h l, existsb (Z.eqb h) l = false -> remove1 h l = l.
Proof.
  intros h. induction l as [| x l IH]; cbn [existsb remove1]; intros E; [reflexivity|].
  apply orb_false_iff in E. destruct E as [E1 E2]. rewrite Z.eqb_sym, E1, IH by exact E2. reflexivity.
Qed.

Lemma drop_object_ran : forall h s, ready s -> ran (drop_object faults h) s (Done tt) (release_one h (objs s)).
Proof.
  intros h s R. rewrite release_one_remove1. unfold drop_object. apply attach_ran; [exact R|]. intros s1 R1 L1. rewrite <- L1.
  destruct (existsb (Z.eqb h) (objs s1)) eqn:E.
  - eapply ran_bind.
    + apply call_method_value; [exact R1|]. intros s2 R2 F2 L2. unfold free_kt. apply get_then.
      rewrite L2, E. eexists. split; [reflexivity|]. cbn. repeat split; try apply R2.
    + intros s2 R2 F2 L2. cbv iota. rewrite <- L2. apply ran_ret, R2.
  - eapply (raised_bind _ _ _ _ _ _ (objs s1)).
    + apply call_method_raised; [exact R1|]. intros s2 R2 F2 L2. unfold free_kt. apply get_then.
      rewrite L2, E, <- L2. apply ran_ret, R2.
    + intros s2 P2 N2 F2 L2. cbv iota. rewrite (remove1_absent _ _ E).
      unfold bind. unfold ran. rewrite (jni_pending ExceptionClear s2 _ P2 eq_refl). cbn [set_pend].
      eexists. split; [reflexivity|]. cbn. repeat split; try assumption.
Qed.

Lemma drop_all_ran : forall l s, ready s -> ran (drop_all faults l) s (Done tt) (release l (objs s)).
Proof.
  induction l as [| h l IH]; intros s R; cbn [drop_all]; unfold release; cbn [fold_left].
  - apply ran_ret, R.
  - go drop_object_ran. intros s1 R1 F1 L1. rewrite <- L1. apply IH, R1.
Qed.

Lemma unwind_ran : forall A m held s, ready s -> ran (@unwind faults A m held) s (Unwinds m) (release held (objs s)).
Proof.
  intros A m held s R. destruct (drop_all_ran held s R) as (s1 & E1 & R1 & F1 & L1).
  exists s1. unfold unwind. rewrite E1. repeat split; try apply R1; assumption.
Qed.

(** The objects lifted. *)
Lemma release_app : forall a b o, release (a ++ b) o = release b (release a o).
Proof. intros. unfold release. apply fold_left_app. Qed.

Definition lifted (l : list (leaf * conv)) (done : list Z) : list Z := rev (before_bad l) ++ done.

Lemma lift_parts_ran : forall l done s, ready s ->
  ran (lift_parts faults l done) s (parts_end l (lifted l done))
    (match first_bad l with Some _ => release (lifted l done) (objs s) | None => objs s end).
Proof.
  induction l as [| [k c] l IH]; intros done s R; cbn [lift_parts]; unfold parts_end, lifted; cbn [first_bad before_bad].
  - apply ran_ret, R.
  - destruct (lift_part_ran (k, c) s R) as (s1 & E1 & R1 & F1 & L1). cbn [snd] in E1.
    unfold ran. rewrite E1. destruct c as [| w | w]; cbn [part_end fst].
    + destruct (IH (match k with LObject h => h :: done | _ => done end) s1 R1) as (s2 & E2 & R2 & F2 & L2).
      exists s2. rewrite E2. rewrite L1 in L2. unfold parts_end, lifted in L2 |- *.
      assert (X : rev (before_bad l) ++ match k with LObject h => h :: done | _ => done end =
        rev (match k with LObject h => h :: before_bad l | _ => before_bad l end) ++ done).
      { destruct k; try reflexivity. cbn [rev]. rewrite <- app_assoc. reflexivity. }
      rewrite X in L2 |- *.
      destruct k; (split; [reflexivity | split; [exact R2 | split; [congruence | exact L2]]]).
    + destruct (drop_all_ran done s1 R1) as (s2 & E2 & R2 & F2 & L2). unfold bind. rewrite E2. cbn [ret].
      exists s2. destruct k; (split; [reflexivity | split; [exact R2 | split; [congruence | rewrite L2, L1; reflexivity]]]).
    + destruct (unwind_ran (result (list Z)) w done s1 R1) as (s2 & E2 & R2 & F2 & L2). rewrite E2.
      exists s2. destruct k; (split; [reflexivity | split; [exact R2 | split; [congruence | rewrite L2, L1; reflexivity]]]).
Qed.

End vm.
