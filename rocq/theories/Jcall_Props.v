(** C73: calls through JNI end as declared. *)
From Verif Require Import Jcall_Model Jcall_Spec Jcall_Main Jcall_Refute Jcall_Examples.
From Coq Require Import List ZArith String Bool.
Import ListNotations.
Open Scope string_scope.
Open Scope list_scope.
Open Scope Z_scope.

(** Calls in both directions, to any depth, give what they should, no exception stays pending, the local
    frames are those there were and the objects that are left are the right ones: while the VM works and no
    conversion panics on the way to or from a method implemented in Kotlin. *)
Theorem C73_calls_partial : calls_right.
Proof. exact calls_right_proof. Qed.
Print Assumptions C73_calls_partial.
Theorem C73_rust_partial : rust_right.
Proof. exact rust_right_proof. Qed.
Print Assumptions C73_rust_partial.
Example C73_calls_case : healthy fine_vm /\ ready (at_rest [5]) /\ calm_rust outer
  /\ call_spec none adds [Passed 12 [(LObject 12, Fine)]] (rust_spec none same outer) [5] = (inl 34, [5]).
Proof. split; [exact fine_healthy |]. split; [apply at_rest_ready |]. split; [exact outer_calm | exact outer_result]. Qed.

(** The value that Rust returns comes back. *)
Theorem C73_value_partial : forall faults message_of unexpected f args body s b o,
  healthy faults -> ready s -> calm_rust body -> converts (flat_map p_parts args) ->
  rust_spec message_of unexpected body (start args s) = (inl (Returned b), o) ->
  converts (b_parts b) -> b_fails b = None -> f_ret f <> RVoid ->
  gives (call faults message_of unexpected f args body) s (inl (b_val b)) o.
Proof. intros; eapply value_comes_back; eassumption. Qed.
Print Assumptions C73_value_partial.
Example C73_value_case : rust_spec none same succeeds (start [Passed 1 [(LString, Fine)]] (at_rest nil))
  = (inl (Returned (Built 9 [(LString, Fine)] None)), nil).
Proof. reflexivity. Qed.
Theorem C73_void_partial : forall faults message_of unexpected f args body s b o,
  healthy faults -> ready s -> calm_rust body -> converts (flat_map p_parts args) ->
  rust_spec message_of unexpected body (start args s) = (inl (Returned b), o) -> f_ret f = RVoid ->
  gives (call faults message_of unexpected f args body) s (inl 0) o.
Proof. intros; eapply nothing_comes_back; eassumption. Qed.
Print Assumptions C73_void_partial.

(** So does the error, and an error of the interface is one that Rust returned. *)
Theorem C73_error_partial : forall faults message_of unexpected f args body s b o lift,
  healthy faults -> ready s -> calm_rust body -> converts (flat_map p_parts args) ->
  rust_spec message_of unexpected body (start args s) = (inl (Failed b), o) -> f_throws f = Some lift ->
  converts (b_parts b) -> b_fails b = None ->
  gives (call faults message_of unexpected f args body) s (inr (Declared (b_val b))) o.
Proof. intros; eapply error_comes_back; eassumption. Qed.
Print Assumptions C73_error_partial.
Example C73_error_case : call_spec none names [Passed 1 [(LString, Fine)]] (rust_spec none same fails) nil = (inr (Declared 9), nil).
Proof. exact fails_result. Qed.
Theorem C73_declared_partial : forall faults message_of unexpected f args body s e o,
  healthy faults -> ready s -> calm_rust body ->
  gives (call faults message_of unexpected f args body) s (inr (Declared e)) o ->
  exists b, fst (rust_spec message_of unexpected body (start args s)) = inl (Failed b) /\ f_throws f <> None /\ b_val b = e
    \/ fst (rust_spec message_of unexpected body (start args s)) = inl (Returned b) /\ f_ret f = RPrim /\ b_fails b = Some (Declared e).
Proof. intros; eapply declared_was_returned; eassumption. Qed.
Print Assumptions C73_declared_partial.

(** A panic is an InternalException with its message. *)
Theorem C73_panic_partial : forall faults message_of unexpected f args body s w o,
  healthy faults -> ready s -> calm_rust body -> converts (flat_map p_parts args) ->
  rust_spec message_of unexpected body (start args s) = (inr w, o) ->
  gives (call faults message_of unexpected f args body) s (inr (Internal ("Rust panic: " ++ w))) o.
Proof. intros; eapply panic_is_internal; eassumption. Qed.
Print Assumptions C73_panic_partial.
Example C73_panic_case : rust_spec none same inner nil = (inr "inner", nil).
Proof. reflexivity. Qed.

(** An argument that cannot be converted: an InternalException, the function is not called, and the objects
    before it are released. *)
Theorem C73_argument_partial : forall faults message_of unexpected f args body s c,
  healthy faults -> ready s -> calm_rust body -> first_bad (flat_map p_parts args) = Some c ->
  gives (call faults message_of unexpected f args body) s (inr (Internal (refusal c)))
    (release (rev (before_bad (flat_map p_parts args))) (start args s)).
Proof. intros; eapply bad_argument; eassumption. Qed.
Print Assumptions C73_argument_partial.
Example C73_argument_case : call_spec none names two (rust_spec none same succeeds) [6] = (inr (Internal "bad"), [6]).
Proof. exact two_result. Qed.

(** Rust gets what the Kotlin implementation returns, the error it throws, or for anything else the error
    made from it, and a panic if there is none. *)
Theorem C73_callback_value : forall faults message_of unexpected m h args p s,
  healthy faults -> ready s -> In h (objs s) -> (forall b, In b args -> converts (b_parts b) /\ b_fails b = None) ->
  converts (p_parts p) -> m_ret m <> RVoid ->
  ran (run_rust faults message_of unexpected (RCall m h args (KEnd (KotlinReturned p)) nil got)) s
    (Done (Returned (Built (p_val p) nil None))) (objs s).
Proof. intros; apply callback_value; assumption. Qed.
Print Assumptions C73_callback_value.
Theorem C73_callback_error : forall faults message_of unexpected m h args p s,
  healthy faults -> ready s -> In h (objs s) -> (forall b, In b args -> converts (b_parts b) /\ b_fails b = None) ->
  converts (p_parts p) -> m_throws m = true ->
  ran (run_rust faults message_of unexpected (RCall m h args (KEnd (KotlinFailed p)) nil got)) s
    (Done (Failed (Built (p_val p) nil None))) (objs s).
Proof. intros; apply callback_error; assumption. Qed.
Print Assumptions C73_callback_error.
Theorem C73_callback_other : forall faults message_of unexpected m h args x s,
  healthy faults -> ready s -> In h (objs s) -> (forall b, In b args -> converts (b_parts b) /\ b_fails b = None) ->
  ran (run_rust faults message_of unexpected (RCall m h args (KEnd (KotlinRaised x)) nil got)) s
    (if m_throws m && m_unexpected m then Done (Failed (Built (unexpected (message message_of x)) nil None))
     else Unwinds ("Error calling UniFFI callback method: " ++ message message_of x)%string) (objs s).
Proof. intros; apply callback_raised; assumption. Qed.
Print Assumptions C73_callback_other.
Example C73_callback_case : In 12 (objs (at_rest [12])) /\ m_ret describe <> RVoid /\ m_throws describe = true.
Proof. split; [left; reflexivity |]. split; [discriminate | reflexivity]. Qed.

(** A [getMessage] that throws: its exception comes out of a function that returned. *)
Theorem C73_message_refuted : ~ (forall faults f args body s r o,
  only (eq (CallMethodA KMessage)) faults -> ready s -> calm_rust body ->
  gives (call faults none same f args body) s r o ->
  forall b l, rust_spec none same body (start args s) = (inl (Returned b), l) -> converts (flat_map p_parts args) ->
  f_ret f = RVoid -> r = inl 0).
Proof. exact message_escapes. Qed.
Print Assumptions C73_message_refuted.
(** Calls do not survive a failure of the VM: of [getMessage], of a lookup, of memory for a string, of the
    lookup of InternalException, of a reference for it, of a local frame. *)
Theorem C73_message_crash_refuted : ~ survives (eq (CallMethodA KMessage)).
Proof. exact message_crashes. Qed.
Print Assumptions C73_message_crash_refuted.
Theorem C73_lookup_refuted : ~ survives is_lookup.
Proof. exact lookup_crashes. Qed.
Print Assumptions C73_lookup_refuted.
Theorem C73_memory_refuted : ~ survives (eq NewStringUTF).
Proof. exact memory_crashes. Qed.
Print Assumptions C73_memory_refuted.
Theorem C73_class_refuted : ~ survives (eq (FindClass KInternal)).
Proof. exact class_unwinds. Qed.
Print Assumptions C73_class_refuted.
Theorem C73_reference_refuted : ~ survives (eq (NewGlobalRef KInternal)).
Proof. exact global_null. Qed.
Print Assumptions C73_reference_refuted.
Theorem C73_frame_refuted : ~ survives (eq PushLocalFrame).
Proof. exact frame_aborts. Qed.
Print Assumptions C73_frame_refuted.
(** A panic comes back as a value if its exception cannot be thrown. *)
Theorem C73_throw_refuted : ~ (forall faults f args body s v o, only (eq ThrowNew) faults -> ready s -> calm_rust body ->
  gives (call faults none same f args body) s (inl v) o -> exists b, fst (rust_spec none same body (start args s)) = inl b).
Proof. exact throw_lost. Qed.
Print Assumptions C73_throw_refuted.

(** Objects that come after an argument that cannot be converted are never released. *)
Theorem C73_objects_refuted : ~ (forall f args body s c r o, ready s -> calm_rust body -> first_bad (flat_map p_parts args) = Some c ->
  gives (call fine_vm none same f args body) s r o -> o = objs s).
Proof. exact objects_leak. Qed.
Print Assumptions C73_objects_refuted.
(** A thread stays attached to the VM. *)
Theorem C73_attached_refuted : ~ (forall body s o s', ready s -> calm_rust body ->
  run_rust fine_vm none same body s = (o, s') -> attached s' = attached s).
Proof. exact stays_attached. Qed.
Print Assumptions C73_attached_refuted.
(** A conversion that panics leaves a frame behind, is no error although the error type could hold it, and may
    leave a native method. *)
Theorem C73_frames_refuted : ~ (forall body s o s', ready s -> run_rust fine_vm none same body s = (o, s') -> frames s' = frames s).
Proof. exact frame_stays. Qed.
Print Assumptions C73_frames_refuted.
Theorem C73_conversion_refuted : ~ (forall m h args impl s o s', ready s -> m_throws m = true -> m_unexpected m = true ->
  run_rust fine_vm none same (RCall m h args impl nil got) s = (o, s') -> exists e, o = Done e).
Proof. exact argument_panics. Qed.
Print Assumptions C73_conversion_refuted.
Theorem C73_unwinds_refuted : ~ (forall f args body s c, ready s -> fst (call fine_vm none same f args body s) <> Crashed c).
Proof. exact result_unwinds. Qed.
Print Assumptions C73_unwinds_refuted.

(** The methods are called with the JNI function for their result, but for boolean results, and for
    asynchronous methods with a primitive result. *)
Theorem C73_kinds_partial : forall r, r <> Some [FBoolean] -> called_as false r = signature_type false r.
Proof. exact kinds_agree. Qed.
Print Assumptions C73_kinds_partial.
Theorem C73_async_kinds_partial : forall r, (forall t, r <> Some [t]) -> called_as true r = signature_type true r.
Proof. exact async_kinds_agree. Qed.
Print Assumptions C73_async_kinds_partial.
Example C73_kinds_case : called_as false (Some [FInt64]) = JLong /\ called_as true None = JVoid.
Proof. split; reflexivity. Qed.
Theorem C73_bool_refuted : ~ (forall r, called_as false r = signature_type false r).
Proof. exact bool_differs. Qed.
Print Assumptions C73_bool_refuted.
Theorem C73_async_refuted : ~ (forall r, called_as true r = signature_type true r).
Proof. exact async_differs. Qed.
Print Assumptions C73_async_refuted.
