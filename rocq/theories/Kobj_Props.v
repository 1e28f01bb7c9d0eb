(** * C20: Kotlin objects may be destroyed concurrently with calls

    The full property also lets threads pass the object as an argument; that part is
    false of the code ([C20_passed_after_destroy_refuted],
    [C20_passed_while_destroyed_refuted]): lowering an argument clones the handle
    without touching the call counter.  The theorems named [_partial] cover every
    schedule of calls, destructions and garbage collection. *)

From Verif Require Import Base Kobj_Model Kobj_Spec Kobj_Proofs Kobj_Examples.

(** No call, and no clean-up, ever touches a Rust object that is already dropped. *)
Theorem C20_never_used_after_free_partial :
  forall n xs s, run (init n) xs = Some s -> no_pass xs -> forall t, ~ In (EBad t) (log s).
Proof. exact never_bad. Qed.
Print Assumptions C20_never_used_after_free_partial.

Theorem C20_destructor_at_most_once_partial :
  forall n xs s, run (init n) xs = Some s -> no_pass xs -> drops s <= 1.
Proof. exact drop_once. Qed.
Print Assumptions C20_destructor_at_most_once_partial.

(** The destructor never runs while a call is using the object, and nothing reaches
    the object after it ran. *)
Theorem C20_destructor_ordered_partial :
  forall n xs s, run (init n) xs = Some s -> no_pass xs -> well_ordered (log s).
Proof. exact ordered. Qed.
Print Assumptions C20_destructor_ordered_partial.

(** Once the object was destroyed or collected and all calls returned, the
    destructor did run. *)
Theorem C20_destructor_runs_partial :
  forall n xs s, run (init n) xs = Some s -> no_pass xs -> all_idle s -> destroyed s = true \/ gone s = true -> drops s = 1.
Proof. exact no_leak. Qed.
Print Assumptions C20_destructor_runs_partial.

(** After that, calls are rejected with an exception and do not reach Rust. *)
Theorem C20_later_calls_rejected_partial :
  forall n xs s t, run (init n) xs = Some s -> no_pass xs -> all_idle s -> destroyed s = true ->
    gone s = false -> t < length (ths s) ->
    exists s', run s [Call t Method; Go t] = Some s' /\ log s' = EReject t :: ECall t Method :: log s.
Proof. exact rejected_after. Qed.
Print Assumptions C20_later_calls_rejected_partial.

(** Passing a destroyed object as an argument uses the freed Rust object, even
    with a single thread. *)
Theorem C20_passed_after_destroy_refuted :
  forall n, exists s, run (init (S n)) [Call 0 Destroy; Go 0; Go 0; Go 0; Call 0 Pass; Go 0] = Some s /\ In (EBad 0) (log s).
Proof. exact pass_after_destroy. Qed.
Print Assumptions C20_passed_after_destroy_refuted.

(** So does passing an object that another thread destroys meanwhile. *)
Theorem C20_passed_while_destroyed_refuted :
  forall n, exists s, run (init (S (S n))) [Call 0 Pass; Call 1 Destroy; Go 1; Go 1; Go 1; Go 0] = Some s /\ In (EBad 0) (log s).
Proof. exact pass_races. Qed.
Print Assumptions C20_passed_while_destroyed_refuted.
