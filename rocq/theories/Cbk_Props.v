(** Property C42: foreign implementations of Rust traits. *)
From Verif Require Import Base Meta_Types Cbk_Model Cbk_Spec Cbk_Proofs Cbk_Examples.
From Coq Require Import Permutation.
Local Open Scope string_scope.
Local Open Scope Z_scope.

(** Whatever else the crate contains and in whatever order its metadata is found, both generators give
    the methods in an order in which each slot that Rust reads for a method holds that method. *)
Theorem C42_slots : forall cb trait sigs items, good_trait sigs -> describes items trait sigs ->
  exists methods,
    ci_methods cb trait items = Ok methods /\ pl_methods trait items = Ok methods /\
    (forall s, In s sigs -> exists k,
       position (s_ident s) (rust_vtable sigs) = Some k /\
       nth_error (foreign_vtable methods) k = Some (EMethod (f_name (s_meta s)))).
Proof.
  exact (fun cb trait sigs items G D => ex_intro _ (map s_meta sigs)
    (conj (ci_in_order cb trait sigs items G D) (conj (pl_in_order trait sigs items G D)
      (fun s I => slots_agree sigs s G I)))).
Qed.
Print Assumptions C42_slots.

(** Freeing and cloning have their own slots. *)
Theorem C42_special_slots : forall sigs ms,
  position (S_ "uniffi_free") (rust_vtable sigs) = Some 0%nat /\
  nth_error (foreign_vtable ms) 0 = Some EFree /\
  position (S_ "uniffi_clone") (rust_vtable sigs) = Some 1%nat /\
  nth_error (foreign_vtable ms) 1 = Some EClone.
Proof. exact special_slots. Qed.
Print Assumptions C42_special_slots.

(** What the Rust macros record is the position of each method. *)
Theorem C42_recorded_positions : forall trait sigs, Z.of_nat (length sigs) < 2 ^ 32 ->
  trait_items trait sigs = positioned sigs trait.
Proof. exact items_positioned. Qed.
Print Assumptions C42_recorded_positions.

(** A trait defined in UDL has plain methods, without positions.  The Rust trait implementation is
    generated from the same UDL: whoever reads the items, in whatever order, has the same order. *)
Theorem C42_udl_order : forall trait mp ms items items',
  Forall (fun f => f_mp f = mp) ms -> NoDup (map f_name ms) ->
  Permutation (filter (method_of trait) items) (map (MMethod trait) ms) ->
  Permutation (filter (method_of trait) items') (map (MMethod trait) ms) ->
  exists order, Permutation order ms /\
    ci_methods false trait items = Ok order /\ ci_methods false trait items' = Ok order /\
    pl_methods trait items = Ok order /\ pl_methods trait items' = Ok order.
Proof. exact udl_same_order. Qed.
Print Assumptions C42_udl_order.

(** Calling a method through the proxy calls that method of the object the handle stands for, once,
    with the same arguments, and Rust sees what it returned or raised. *)
Theorem C42_call : forall (T V E F W X O : Type) (same : T -> V -> W -> Prop) (same_error : E -> X -> Prop)
    r_lower r_lift r_lift_error from_unexpected f_lift f_lower f_lower_error
    (call : O -> str -> list W -> outcome W X) ffi_default unit_value (unit_ffi : F),
  converters_fit same same_error r_lower r_lift r_lift_error f_lift f_lower f_lower_error ->
  forall l sigs s types map_ h o vs ws r,
  good_trait sigs -> In s sigs -> map_ h = Some o ->
  all_same same (m_args (types (f_name (s_meta s)))) vs ws ->
  expected same same_error from_unexpected unit_value (types (f_name (s_meta s)))
    (call o (f_name (s_meta s)) ws) r ->
  proxy_call r_lower r_lift r_lift_error from_unexpected f_lift f_lower f_lower_error call
    ffi_default unit_value unit_ffi
    l sigs (foreign_vtable (map s_meta sigs)) types map_ (s_ident s) h (types (f_name (s_meta s))) vs =
    Some ([Invoke o (f_name (s_meta s)) ws], r).
Proof. exact @call_works. Qed.
Print Assumptions C42_call.

(** If an argument cannot be lifted the method is not called, and Rust sees an unexpected error. *)
Theorem C42_bad_argument : forall (T V E F W X O : Type)
    r_lower r_lift r_lift_error from_unexpected (f_lift : T -> F -> W + exn X) f_lower f_lower_error
    (call : O -> str -> list W -> outcome W X) ffi_default (unit_value : V) (unit_ffi : F),
  forall l sigs s types map_ h o vs msg,
  good_trait sigs -> In s sigs -> map_ h = Some o ->
  let m := types (f_name (s_meta s)) in
  lift_all f_lift (m_args m) (map (fun tv => r_lower (fst tv) (snd tv)) (combine (m_args m) vs)) = inr (Other msg) ->
  proxy_call (E := E) r_lower r_lift r_lift_error from_unexpected f_lift f_lower f_lower_error call
    ffi_default unit_value unit_ffi
    l sigs (foreign_vtable (map s_meta sigs)) types map_ (s_ident s) h m vs =
    Some ([], if m_throws m then match from_unexpected with Some c => RError (c msg) | None => RPanics end else RPanics).
Proof. exact @call_bad_arg. Qed.
Print Assumptions C42_bad_argument.

(** If the result cannot be lowered, Rust sees an unexpected error too. *)
Theorem C42_bad_result : forall (T V E F W X O : Type) (same : T -> V -> W -> Prop) (same_error : E -> X -> Prop)
    r_lower r_lift r_lift_error from_unexpected f_lift f_lower f_lower_error
    (call : O -> str -> list W -> outcome W X) ffi_default unit_value (unit_ffi : F),
  converters_fit same same_error r_lower r_lift r_lift_error f_lift f_lower f_lower_error ->
  forall l sigs s types map_ h o vs ws t w msg,
  good_trait sigs -> In s sigs -> map_ h = Some o ->
  let m := types (f_name (s_meta s)) in
  all_same same (m_args m) vs ws -> m_ret m = Some t ->
  call o (f_name (s_meta s)) ws = Returns w -> f_lower t w = inr (Other msg) ->
  proxy_call r_lower r_lift r_lift_error from_unexpected f_lift f_lower f_lower_error call
    ffi_default unit_value unit_ffi
    l sigs (foreign_vtable (map s_meta sigs)) types map_ (s_ident s) h m vs =
    Some ([Invoke o (f_name (s_meta s)) ws],
          if m_throws m then match from_unexpected with Some c => RError (c msg) | None => RPanics end else RPanics).
Proof. exact @call_bad_result. Qed.
Print Assumptions C42_bad_result.

(** If Rust cannot lift the result, it is an unexpected error too. *)
Theorem C42_unliftable_result : forall (T V E F W X O : Type) (same : T -> V -> W -> Prop) (same_error : E -> X -> Prop)
    r_lower r_lift r_lift_error from_unexpected f_lift f_lower f_lower_error
    (call : O -> str -> list W -> outcome W X) ffi_default unit_value (unit_ffi : F),
  converters_fit same same_error r_lower r_lift r_lift_error f_lift f_lower f_lower_error ->
  forall l sigs s types map_ h o vs ws t w f msg,
  good_trait sigs -> In s sigs -> map_ h = Some o ->
  let m := types (f_name (s_meta s)) in
  all_same same (m_args m) vs ws -> m_ret m = Some t ->
  call o (f_name (s_meta s)) ws = Returns w -> f_lower t w = inl f -> r_lift t f = inr msg ->
  proxy_call r_lower r_lift r_lift_error from_unexpected f_lift f_lower f_lower_error call
    ffi_default unit_value unit_ffi
    l sigs (foreign_vtable (map s_meta sigs)) types map_ (s_ident s) h m vs =
    Some ([Invoke o (f_name (s_meta s)) ws],
          if m_throws m then match from_unexpected with Some c => RError (c msg) | None => RPanics end else RPanics).
Proof. exact @call_unliftable. Qed.
Print Assumptions C42_unliftable_result.

(** Likewise an error that Rust cannot lift. *)
Theorem C42_unliftable_error : forall (T V E F W X O : Type) (same : T -> V -> W -> Prop) (same_error : E -> X -> Prop)
    r_lower r_lift r_lift_error from_unexpected f_lift f_lower f_lower_error
    (call : O -> str -> list W -> outcome W X) ffi_default unit_value (unit_ffi : F),
  converters_fit same same_error r_lower r_lift r_lift_error f_lift f_lower f_lower_error ->
  forall l sigs s types map_ h o vs ws x b msg,
  good_trait sigs -> In s sigs -> map_ h = Some o ->
  let m := types (f_name (s_meta s)) in
  all_same same (m_args m) vs ws -> m_throws m = true ->
  call o (f_name (s_meta s)) ws = Raises (Declared x) -> f_lower_error x = inl b -> r_lift_error b = inr msg ->
  proxy_call r_lower r_lift r_lift_error from_unexpected f_lift f_lower f_lower_error call
    ffi_default unit_value unit_ffi
    l sigs (foreign_vtable (map s_meta sigs)) types map_ (s_ident s) h m vs =
    Some ([Invoke o (f_name (s_meta s)) ws],
          match from_unexpected with
          | Some c => RError (c (S_ "Error lifting from rust buffer: " ++ msg)%list)
          | None => RPanics
          end).
Proof. exact @call_unliftable_error. Qed.
Print Assumptions C42_unliftable_error.

(** Kotlin and Swift report every exception. *)
Theorem C42_every_exception_partial : forall (T V E F W X O : Type) (same : T -> V -> W -> Prop)
    (same_error : E -> X -> Prop)
    r_lower r_lift r_lift_error from_unexpected f_lift f_lower f_lower_error
    (call : O -> str -> list W -> outcome W X) ffi_default unit_value (unit_ffi : F),
  converters_fit same same_error r_lower r_lift r_lift_error f_lift f_lower f_lower_error ->
  forall l sigs s types map_ h o vs ws msg,
  l <> Python -> good_trait sigs -> In s sigs -> map_ h = Some o ->
  let m := types (f_name (s_meta s)) in
  all_same same (m_args m) vs ws ->
  call o (f_name (s_meta s)) ws = Raises (Fatal msg) ->
  proxy_call r_lower r_lift r_lift_error from_unexpected f_lift f_lower f_lower_error call
    ffi_default unit_value unit_ffi
    l sigs (foreign_vtable (map s_meta sigs)) types map_ (s_ident s) h m vs =
    Some ([Invoke o (f_name (s_meta s)) ws],
          if m_throws m then match from_unexpected with Some c => RError (c msg) | None => RPanics end else RPanics).
Proof. exact @call_fatal. Qed.
Print Assumptions C42_every_exception_partial.

(** Python does not: an exception that is not an [Exception] is lost, and Rust sees a result. *)
Theorem C42_python_interrupt_refuted : exists (call : Z -> str -> list Z -> outcome Z bytes) vs,
  call 100 (S_ "drop") vs = Raises (Fatal (S_ "KeyboardInterrupt")) /\
  proxy_call (E := bytes) (X := bytes) (fun _ v => v) (fun _ f => inl f) (fun b => inl b) (Some (fun r => r))
    (fun _ f => inl f) (fun _ w => inl w) (fun x => inl x) call (fun _ => 0) 0 0
    Python store (foreign_vtable (map s_meta store)) (fun _ => two_args true)
    (fun h => if h =? 5 then Some 100 else None) (S_ "r_drop") 5 (two_args true) vs =
  Some ([Invoke 100 (S_ "drop") vs], RValue 0).
Proof. exact (ex_intro _ divider (ex_intro _ [8; 99] python_interrupt)). Qed.
Print Assumptions C42_python_interrupt_refuted.

(** No operation ever uses a handle that is not in the map: neither a call nor a second free. *)
Theorem C42_never_stale : forall xs h, ~ In (Stale h) (log (run xs)).
Proof. exact never_stale. Qed.
Print Assumptions C42_never_stale.

Theorem C42_freed_at_most_once : forall xs h, (count (freed h) (log (run xs)) <= 1)%nat.
Proof. exact freed_at_most_once. Qed.
Print Assumptions C42_freed_at_most_once.

(** Not while Rust holds the proxy. *)
Theorem C42_held_not_freed : forall xs h, In h (proxies (run xs)) -> count (freed h) (log (run xs)) = 0%nat.
Proof. exact held_not_freed. Qed.
Print Assumptions C42_held_not_freed.

(** Calls reach the object that was passed. *)
Theorem C42_own_object : forall xs h o o',
  In (Called h o) (log (run xs)) -> In (Passed h o') (log (run xs)) -> o = o'.
Proof. exact reaches_own_object. Qed.
Print Assumptions C42_own_object.

(** Once dropped it has been freed, if all objects were lifted. *)
Theorem C42_freed_when_dropped_partial : forall xs h o, lifted_all xs ->
  In (Passed h o) (log (run xs)) -> ~ In h (proxies (run xs)) -> count (freed h) (log (run xs)) = 1%nat.
Proof. exact freed_when_dropped. Qed.
Print Assumptions C42_freed_when_dropped_partial.

Theorem C42_no_leak_partial : forall xs, lifted_all xs -> proxies (run xs) = [] -> hmap (run xs) = [].
Proof. exact map_empty. Qed.
Print Assumptions C42_no_leak_partial.

(** An object that is passed in a call where an earlier argument cannot be lifted is never freed. *)
Theorem C42_leak_refuted : exists xs h o,
  proxies (run xs) = [] /\ hmap (run xs) = [(h, o)] /\ count (freed h) (log (run xs)) = 0%nat.
Proof. exact (ex_intro _ [PassFails [20; 21] 1] (ex_intro _ 3 (ex_intro _ 21 never_lifted_leaks))). Qed.
Print Assumptions C42_leak_refuted.
