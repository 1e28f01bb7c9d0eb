(** What the calls do not do: consequences of the specification, and the cases in which it does not hold. *)
From Verif Require Import Jcall_Model Jcall_Spec Jcall_Proofs Jcall_Main.
From Coq Require Import List ZArith String Bool.
Import ListNotations.
Open Scope string_scope.
Open Scope list_scope.
Open Scope Z_scope.

(** ** For the users *)

Lemma converts_first : forall l, converts l -> first_bad l = None.
Proof.
  induction l as [| [k c] l IH]; intros C; [reflexivity|]. cbn [first_bad].
  pose proof (C (k, c) (or_introl eq_refl)) as E. cbn in E. subst c. apply IH. intros p P. apply C. right. exact P.
Qed.

Lemma ran_gives : forall A (m : M A) s a l, ran m s (Done a) l -> gives m s a l.
Proof. intros A m s a l (s1 & E & _ & _ & L). exists s1. split; assumption. Qed.
Lemma gives_one : forall A (m : M A) s a b l l', gives m s a l -> gives m s b l' -> a = b /\ l = l'.
Proof. intros A m s a b l l' (s1 & E1 & L1) (s2 & E2 & L2). rewrite E1 in E2. injection E2 as -> ->. split; congruence. Qed.

Section users.
Variable faults : nat -> jni_fn -> fault.
Variable message_of : exc -> option string.
Variable unexpected : string -> Z.
Hypothesis H : healthy faults.

Lemma called : forall f args body s, ready s -> calm_rust body ->
  let '(r, o) := call_spec message_of f args (rust_spec message_of unexpected body) (objs s) in
  gives (call faults message_of unexpected f args body) s r o.
Proof.
  intros f args body s R C. pose proof (calls_right_proof faults message_of unexpected f args body s H R C) as T.
  destruct (call_spec _ _ _ _ _) as [r o]. apply ran_gives, T.
Qed.

Notation does body args s := (rust_spec message_of unexpected body (start args s)).

Lemma value_comes_back : forall f args body s b o, ready s -> calm_rust body -> converts (flat_map p_parts args) ->
  does body args s = (inl (Returned b), o) -> converts (b_parts b) -> b_fails b = None -> f_ret f <> RVoid ->
  gives (call faults message_of unexpected f args body) s (inl (b_val b)) o.
Proof.
  intros f args body s b o R C A E P F V. pose proof (called f args body s R C) as T. unfold call_spec in T.
  rewrite (converts_first _ A) in T. unfold start in E. rewrite E in T. unfold seen in T. rewrite (converts_first _ P), F in T.
  destruct (f_ret f); [contradiction | exact T | exact T].
Qed.
Lemma nothing_comes_back : forall f args body s b o, ready s -> calm_rust body -> converts (flat_map p_parts args) ->
  does body args s = (inl (Returned b), o) -> f_ret f = RVoid ->
  gives (call faults message_of unexpected f args body) s (inl 0) o.
Proof.
  intros f args body s b o R C A E V. pose proof (called f args body s R C) as T. unfold call_spec in T.
  rewrite (converts_first _ A) in T. unfold start in E. rewrite E in T. unfold seen in T. rewrite V in T. exact T.
Qed.
Lemma error_comes_back : forall f args body s b o lift, ready s -> calm_rust body -> converts (flat_map p_parts args) ->
  does body args s = (inl (Failed b), o) -> f_throws f = Some lift -> converts (b_parts b) -> b_fails b = None ->
  gives (call faults message_of unexpected f args body) s (inr (Declared (b_val b))) o.
Proof.
  intros f args body s b o lift R C A E Th P F. pose proof (called f args body s R C) as T. unfold call_spec in T.
  rewrite (converts_first _ A) in T. unfold start in E. rewrite E in T. unfold seen in T.
  rewrite Th, (converts_first _ P), F in T. exact T.
Qed.
Lemma panic_is_internal : forall f args body s w o, ready s -> calm_rust body -> converts (flat_map p_parts args) ->
  does body args s = (inr w, o) ->
  gives (call faults message_of unexpected f args body) s (inr (Internal ("Rust panic: " ++ w))) o.
Proof.
  intros f args body s w o R C A E. pose proof (called f args body s R C) as T. unfold call_spec in T.
  rewrite (converts_first _ A) in T. unfold start in E. rewrite E in T. exact T.
Qed.
Lemma first_not_fine : forall l c, first_bad l = Some c -> c <> Fine.
Proof.
  induction l as [| [k c'] l IH]; cbn [first_bad]; intros c E; [discriminate|].
  destruct c'; [apply IH; exact E | injection E as <-; discriminate | injection E as <-; discriminate].
Qed.

(** An error of the interface is one that the Rust function returned. *)
Lemma declared_was_returned : forall f args body s e o, ready s -> calm_rust body ->
  gives (call faults message_of unexpected f args body) s (inr (Declared e)) o ->
  exists b, fst (does body args s) = inl (Failed b) /\ f_throws f <> None /\ b_val b = e
    \/ fst (does body args s) = inl (Returned b) /\ f_ret f = RPrim /\ b_fails b = Some (Declared e).
Proof.
  intros f args body s e o R C G. pose proof (called f args body s R C) as T. unfold call_spec in T.
  unfold start. destruct (first_bad (flat_map p_parts args)) as [c |].
  - destruct (gives_one _ _ _ _ _ _ _ G T) as [K _]. discriminate K.
  - destruct (rust_spec message_of unexpected body (handles (flat_map p_parts args) ++ objs s)) as [[en | w] o1].
    2: { destruct (gives_one _ _ _ _ _ _ _ G T) as [K _]. discriminate K. }
    destruct (gives_one _ _ _ _ _ _ _ G T) as [K _]. clear -K. cbn [fst].
    unfold seen in K. destruct en as [b | b]; exists b.
    + destruct (f_ret f) eqn:V; [discriminate K | |].
      * destruct (first_bad (b_parts b)); [discriminate K|]. destruct (b_fails b) as [x |] eqn:F; [| discriminate K].
        injection K as ->. right. repeat split.
      * destruct (first_bad (b_parts b)); [discriminate K|]. destruct (b_fails b); discriminate K.
    + destruct (f_throws f) eqn:Th.
      * destruct (first_bad (b_parts b)); [discriminate K|]. destruct (b_fails b); [discriminate K|].
        injection K as K. left. repeat split; [discriminate | congruence].
      * destruct (f_ret f); [discriminate K | |].
        -- destruct (first_bad (b_parts b)); discriminate K.
        -- destruct (first_bad (b_parts b)); [discriminate K|]. destruct (b_fails b); discriminate K.
Qed.

(** The function is not called if an argument is not converted: the objects passed before are released. *)
Lemma bad_argument : forall f args body s c, ready s -> calm_rust body -> first_bad (flat_map p_parts args) = Some c ->
  gives (call faults message_of unexpected f args body) s (inr (Internal (refusal c)))
    (release (rev (before_bad (flat_map p_parts args))) (start args s)).
Proof.
  intros f args body s c R C E. pose proof (called f args body s R C) as T. unfold call_spec in T. rewrite E in T. exact T.
Qed.

(** A method implemented in Kotlin, on any thread. *)
Lemma rust_called : forall body s, ready s -> calm_rust body ->
  let '(r, o) := rust_spec message_of unexpected body (objs s) in
  ran (run_rust faults message_of unexpected body) s (match r with inl e => Done e | inr w => Unwinds w end) o.
Proof. intros body s R C. exact (rust_right_proof faults message_of unexpected body s H R C). Qed.

Lemma flat_converts : forall args, (forall b, In b args -> converts (b_parts b)) -> first_bad (flat_map b_parts args) = None.
Proof.
  intros args A. apply converts_first. intros p P. apply in_flat_map in P. destruct P as (b & B & P). exact (A b B p P).
Qed.
Lemma no_failing : forall args, (forall b, In b args -> b_fails b = None) -> first_failing args = None.
Proof.
  induction args as [| b args IH]; intros A; [reflexivity|]. cbn [first_failing]. rewrite (A b (or_introl eq_refl)).
  apply IH. intros c C. apply A. right. exact C.
Qed.
Lemma converts_quiet : forall l, converts l -> quiet l.
Proof. intros l C p P. rewrite (C p P). exact I. Qed.
Lemma callback_value : forall m h args p s, ready s -> In h (objs s) ->
  (forall b, In b args -> converts (b_parts b) /\ b_fails b = None) -> converts (p_parts p) -> m_ret m <> RVoid ->
  ran (run_rust faults message_of unexpected (RCall m h args (KEnd (KotlinReturned p)) nil got)) s
    (Done (Returned (Built (p_val p) nil None))) (objs s).
Proof.
  intros m h args p s R I0 A P V.
  pose proof (rust_called (RCall m h args (KEnd (KotlinReturned p)) nil got) s R) as T.
  assert (C : calm_rust (RCall m h args (KEnd (KotlinReturned p)) nil got)).
  { cbn. split; [intros b B; apply converts_quiet, (proj1 (A b B)) | split; [apply converts_quiet, P | intros []; exact I]]. }
  specialize (T C). rewrite spec_call_step in T. unfold callback_spec in T.
  rewrite (flat_converts args) in T by (intros b B; apply (A b B)).
  assert (E : existsb (Z.eqb h) (objs s) = true) by (apply existsb_exists; exists h; split; [exact I0 | apply Z.eqb_refl]).
  rewrite E, (no_failing args) in T by (intros b B; apply (A b B)).
  cbn [kotlin_spec] in T. unfold answered in T. rewrite (converts_first _ P) in T.
  destruct (m_ret m); [contradiction | exact T | exact T].
Qed.
Lemma callback_error : forall m h args p s, ready s -> In h (objs s) ->
  (forall b, In b args -> converts (b_parts b) /\ b_fails b = None) -> converts (p_parts p) -> m_throws m = true ->
  ran (run_rust faults message_of unexpected (RCall m h args (KEnd (KotlinFailed p)) nil got)) s
    (Done (Failed (Built (p_val p) nil None))) (objs s).
Proof.
  intros m h args p s R I0 A P V.
  pose proof (rust_called (RCall m h args (KEnd (KotlinFailed p)) nil got) s R) as T.
  assert (C : calm_rust (RCall m h args (KEnd (KotlinFailed p)) nil got)).
  { cbn. split; [intros b B; apply converts_quiet, (proj1 (A b B)) | split; [apply converts_quiet, P | intros []; exact I]]. }
  specialize (T C). rewrite spec_call_step in T. unfold callback_spec in T.
  rewrite (flat_converts args) in T by (intros b B; apply (A b B)).
  assert (E : existsb (Z.eqb h) (objs s) = true) by (apply existsb_exists; exists h; split; [exact I0 | apply Z.eqb_refl]).
  rewrite E, (no_failing args) in T by (intros b B; apply (A b B)).
  cbn [kotlin_spec] in T. unfold answered in T. rewrite V, (converts_first _ P) in T. exact T.
Qed.
Lemma callback_raised : forall m h args x s, ready s -> In h (objs s) ->
  (forall b, In b args -> converts (b_parts b) /\ b_fails b = None) ->
  ran (run_rust faults message_of unexpected (RCall m h args (KEnd (KotlinRaised x)) nil got)) s
    (if m_throws m && m_unexpected m then Done (Failed (Built (unexpected (message message_of x)) nil None))
     else Unwinds ("Error calling UniFFI callback method: " ++ message message_of x)%string) (objs s).
Proof.
  intros m h args x s R I0 A.
  pose proof (rust_called (RCall m h args (KEnd (KotlinRaised x)) nil got) s R) as T.
  assert (C : calm_rust (RCall m h args (KEnd (KotlinRaised x)) nil got)).
  { cbn. split; [intros b B; apply converts_quiet, (proj1 (A b B)) | split; [exact I | intros []; exact I]]. }
  specialize (T C). rewrite spec_call_step in T. unfold callback_spec in T.
  rewrite (flat_converts args) in T by (intros b B; apply (A b B)).
  assert (E : existsb (Z.eqb h) (objs s) = true) by (apply existsb_exists; exists h; split; [exact I0 | apply Z.eqb_refl]).
  rewrite E, (no_failing args) in T by (intros b B; apply (A b B)).
  cbn [kotlin_spec] in T. unfold answered, unexpected_end in T. destruct (m_throws m && m_unexpected m); exact T.
Qed.
End users.

(** ** What fails *)

Definition fresh (l : list Z) : st := ST None 0 false nil false l 0.
Lemma fresh_ready : forall l, ready (fresh l).
Proof. intros l. split; reflexivity. Qed.

(** A program in which the Kotlin implementation throws, and Rust goes on. *)
Definition asks : rust :=
  RCall (Meth RVoid true true "ask") 3 nil (KEnd (KotlinRaised (Other 1))) nil (fun _ => REnd (Returned (Built 5 [(LString, Fine)] None))).
Lemma asks_calm : calm_rust asks.
Proof. cbn. split; [intros b [] | split; [exact I | intros a; exact I]]. Qed.
Definition bad_message (n : nat) (f : jni_fn) : fault :=
  match f with CallMethodA KMessage => Raises (Other 9) | _ => Works end.

(** [getMessage] throws: its exception is thrown from the function although Rust returned a value. *)
Lemma message_escapes : ~ (forall faults f args body s r o,
  only (eq (CallMethodA KMessage)) faults -> ready s -> calm_rust body ->
  gives (call faults none same f args body) s r o ->
  forall b l, rust_spec none same body (start args s) = (inl (Returned b), l) -> converts (flat_map p_parts args) ->
  f_ret f = RVoid -> r = inl 0).
Proof.
  intros K.
  specialize (K bad_message (Func RVoid None "f") nil asks (fresh [3]) (inr (Other 9)) [3]).
  assert (Z0 : inr (Other 9) = inl 0 :> Z + exc).
  { eapply K.
    - intros n f N. destruct f as [| | | | | |k| | | | | | | | | | | | | | | |]; try (exfalso; apply N; reflexivity).
      destruct k; try (exfalso; apply N; reflexivity). reflexivity.
    - apply fresh_ready.
    - exact asks_calm.
    - eexists. split; [vm_compute; reflexivity | reflexivity].
    - reflexivity.
    - intros p [].
    - reflexivity. }
  discriminate Z0.
Qed.


Ltac only_tac := intros n f N; destruct f as [| | |k|k|k|k| | | | | | | | | | | | | | | |];
  try (destruct k); try (exfalso; apply N; reflexivity); try exact I; try reflexivity; eauto.

Lemma message_crashes : ~ survives (eq (CallMethodA KMessage)).
Proof.
  intros K.
  refine (K bad_message (Func (RParts "lift") None "f") nil asks (fresh [3]) _ (fresh_ready _) asks_calm (Misuse NewStringUTF) _);
    [only_tac | vm_compute; reflexivity].
Qed.

Definition gives_string : rust := REnd (Returned (Built 5 [(LString, Fine)] None)).
(** A class or a method is not found: the exception is pending when the panic is reported. *)
Definition bad_lookup (n : nat) (f : jni_fn) : fault := match f with FindClass (KLift _) => Raises (Other 9) | _ => Works end.
Lemma lookup_crashes : ~ survives is_lookup.
Proof.
  intros K.
  refine (K bad_lookup (Func (RParts "lift") None "f") nil gives_string (fresh nil) _ (fresh_ready _) I (Misuse (FindClass KInternal)) _);
    [only_tac | vm_compute; reflexivity].
Qed.
(** There is no memory for a string. *)
Definition bad_string (n : nat) (f : jni_fn) : fault := match f with NewStringUTF => Raises (Other 9) | _ => Works end.
Lemma memory_crashes : ~ survives (eq NewStringUTF).
Proof.
  intros K.
  refine (K bad_string (Func (RParts "lift") None "f") nil gives_string (fresh nil) _ (fresh_ready _) I (Misuse (FindClass (KLift "lift"))) _);
    [only_tac | vm_compute; reflexivity].
Qed.
(** The class of InternalException is not found, even without a pending exception. *)
Definition bad_class (n : nat) (f : jni_fn) : fault := match f with FindClass KInternal => GivesNull | _ => Works end.
Lemma class_unwinds : ~ survives (eq (FindClass KInternal)).
Proof.
  intros K.
  refine (K bad_class (Func RVoid None "f") nil (RPanic "oops" nil) (fresh nil) _ (fresh_ready _) I UnwindsOut _);
    [only_tac | vm_compute; reflexivity].
Qed.
(** There is no global reference for it. *)
Definition bad_global (n : nat) (f : jni_fn) : fault := match f with NewGlobalRef KInternal => GivesNull | _ => Works end.
Lemma global_null : ~ survives (eq (NewGlobalRef KInternal)).
Proof.
  intros K.
  refine (K bad_global (Func RVoid None "f") nil (RPanic "oops" nil) (fresh nil) _ (fresh_ready _) I NullClass _);
    [only_tac | vm_compute; reflexivity].
Qed.
(** A frame cannot be pushed while a panic unwinds. *)
Definition bad_frame (n : nat) (f : jni_fn) : fault := match f with PushLocalFrame => GivesNull | _ => Works end.
Lemma frame_aborts : ~ survives (eq PushLocalFrame).
Proof.
  intros K.
  refine (K bad_frame (Func RVoid None "f") nil (RPanic "oops" [3]) (fresh [3]) _ (fresh_ready _) I PanicInDrop _);
    [only_tac | vm_compute; reflexivity].
Qed.

(** The exception is not thrown: the caller gets a value. *)
Definition bad_throw (n : nat) (f : jni_fn) : fault := match f with ThrowNew => GivesNull | _ => Works end.
Lemma throw_lost : ~ (forall faults f args body s v o, only (eq ThrowNew) faults -> ready s -> calm_rust body ->
  gives (call faults none same f args body) s (inl v) o -> exists b, fst (rust_spec none same body (start args s)) = inl b).
Proof.
  intros K. destruct (K bad_throw (Func RPrim None "f") nil (RPanic "oops" nil) (fresh nil) 0 nil) as (b & E).
  - only_tac.
  - apply fresh_ready.
  - exact I.
  - eexists. split; [vm_compute; reflexivity | reflexivity].
  - vm_compute in E. discriminate E.
Qed.

Lemma fine_healthy : healthy fine_vm.
Proof. intros n f. reflexivity. Qed.

(** Objects that come after an argument that cannot be converted stay. *)
Lemma objects_leak : ~ (forall f args body s c r o, ready s -> calm_rust body -> first_bad (flat_map p_parts args) = Some c ->
  gives (call fine_vm none same f args body) s r o -> o = objs s).
Proof.
  intros K.
  assert (E : [4] = objs (fresh nil)).
  { eapply (K (Func RVoid None "f") [Passed 1 [(LPrim, Refused "no")]; Passed 2 [(LObject 4, Fine)]] gives_string (fresh nil) (Refused "no") (inr (Internal "no")) [4]);
      [apply fresh_ready | exact I | reflexivity |]. eexists. split; [vm_compute; reflexivity | reflexivity]. }
  discriminate E.
Qed.
(** A thread of Rust that has called Kotlin stays attached. *)
Lemma stays_attached : ~ (forall body s o s', ready s -> calm_rust body ->
  run_rust fine_vm none same body s = (o, s') -> attached s' = attached s).
Proof.
  intros K. destruct (run_rust fine_vm none same asks (fresh [3])) as [o s'] eqn:E.
  pose proof (K asks (fresh [3]) o s' (fresh_ready _) asks_calm E) as T.
  assert (D : attached (snd (run_rust fine_vm none same asks (fresh [3]))) = true) by (vm_compute; reflexivity).
  rewrite E in D. cbn [snd] in D. rewrite D in T. discriminate T.
Qed.
(** The conversion of an argument panics on a thread of Rust: the local frame stays. *)
Definition panics_in_argument : rust :=
  RCall (Meth RVoid true true "ask") 3 [Built 1 [(LPrim, Panics "custom")] None] (KEnd (KotlinReturned (Passed 0 nil))) nil
    (fun _ => REnd (Returned (Built 5 nil None))).
Lemma frame_stays : ~ (forall body s o s', ready s -> run_rust fine_vm none same body s = (o, s') -> frames s' = frames s).
Proof.
  intros K. destruct (run_rust fine_vm none same panics_in_argument (fresh [3])) as [o s'] eqn:E.
  pose proof (K panics_in_argument (fresh [3]) o s' (fresh_ready _) E) as T.
  assert (D : frames (snd (run_rust fine_vm none same panics_in_argument (fresh [3]))) = 1%nat) by (vm_compute; reflexivity).
  rewrite E in D. cbn [snd] in D. rewrite D in T. discriminate T.
Qed.
(** The error type can be made from unexpected errors, and yet the caller gets a panic. *)
Lemma argument_panics : ~ (forall m h args impl s o s', ready s -> m_throws m = true -> m_unexpected m = true ->
  run_rust fine_vm none same (RCall m h args impl nil got) s = (o, s') -> exists e, o = Done e).
Proof.
  intros K.
  destruct (run_rust fine_vm none same (RCall (Meth RVoid true true "ask") 3 [Built 1 [(LPrim, Panics "custom")] None]
     (KEnd (KotlinReturned (Passed 0 nil))) nil got) (fresh [3])) as [o s'] eqn:E.
  pose proof (K (Meth RVoid true true "ask") 3 [Built 1 [(LPrim, Panics "custom")] None]
     (KEnd (KotlinReturned (Passed 0 nil))) (fresh [3]) o s' (fresh_ready _) eq_refl eq_refl E) as [e T].
  vm_compute in E. injection E as E _. rewrite <- E in T. discriminate T.
Qed.
(** The conversion of a result panics: the panic leaves a function that the VM called. *)
Lemma result_unwinds : ~ (forall f args body s c, ready s -> fst (call fine_vm none same f args body s) <> Crashed c).
Proof.
  intros K.
  refine (K (Func RVoid None "f") nil
    (RCall (Meth (RParts "lift") true true "ask") 3 nil (KEnd (KotlinReturned (Passed 0 [(LString, Panics "custom")]))) nil
       (fun _ => REnd (Returned (Built 5 nil None)))) (fresh [3]) UnwindsOut (fresh_ready _) _).
  vm_compute. reflexivity.
Qed.

(** ** The functions that call methods *)
Lemma kinds_agree : forall r, r <> Some [FBoolean] -> called_as false r = signature_type false r.
Proof.
  intros [l |] N; [| reflexivity]. destruct l as [| t l]; [reflexivity|].
  destruct l as [| t2 l]; [| destruct t; reflexivity]. destruct t; try reflexivity. exfalso. apply N. reflexivity.
Qed.
Lemma async_kinds_agree : forall r, (forall t, r <> Some [t]) -> called_as true r = signature_type true r.
Proof.
  intros [l |] N; [| reflexivity]. destruct l as [| t l]; [reflexivity|].
  destruct l as [| t2 l]; [exfalso; exact (N t eq_refl) | destruct t; reflexivity].
Qed.
Lemma bool_differs : ~ (forall r, called_as false r = signature_type false r).
Proof. intros K. specialize (K (Some [FBoolean])). discriminate K. Qed.
Lemma async_differs : ~ (forall r, called_as true r = signature_type true r).
Proof. intros K. specialize (K (Some [FInt32])). discriminate K. Qed.
