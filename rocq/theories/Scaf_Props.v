(** * C14, C15: what a scaffolding call reports

    Read with [Scaf_Spec]. *)

From Verif Require Import Base Buf_Model Buf_Spec Scaf_Model Scaf_Spec Scaf_Proofs.

(** Whatever the function does (a value, a declared error, a panic, also while lowering
    its result) is what the foreign code sees, and in the failing cases the return slot
    holds the default.  Partial: the status given by the caller must say success if the
    function returns a value, see [C14_stale_status_refuted]. *)
Theorem C14_one_outcome_partial :
  forall V E R (debug : E -> bytes) (f : fn V E R) args st h vs h1 o,
    lifts args h vs h1 -> produces f vs h1 o -> code st = Success \/ failing o ->
    reports f (scaffold debug f args st h) o.
Proof. exact (@one_outcome). Qed.
Print Assumptions C14_one_outcome_partial.

(** That covers every function, except for panic payloads whose own destructor panics. *)
Theorem C14_every_outcome_covered_partial :
  forall V E R (f : fn V E R) vs h, gentle f vs h -> exists o, produces f vs h o.
Proof. exact (@covered). Qed.
Print Assumptions C14_every_outcome_covered_partial.

(** The buffer in the default return slot may be freed without effect. *)
Theorem C14_default_harmless :
  forall w st h, rustbuffer_free w null_buf st h = (h, Returned st tt).
Proof. exact free_default. Qed.
Print Assumptions C14_default_harmless.

(** A payload whose destructor panics with an ordinary payload is still reported, without
    its message. *)
Theorem C14_payload_drop_panics_once :
  forall V E R (f : fn V E R) st cb h h1 k k', cb h = (h1, CPanic (Bomb k (Plain k'))) ->
    exists h', rust_call (dflt f) st cb h = (h', Returned (ST UnexpectedError (error_buf st)) (dflt f)).
Proof. exact (@single_bomb). Qed.
Print Assumptions C14_payload_drop_panics_once.

(** If that second payload's destructor panics too, the call unwinds across the FFI. *)
Theorem C14_payload_drop_refuted :
  forall V E R (debug : E -> bytes) (f : fn V E R) args st h vs h1 k k' q,
    lifts args h vs h1 -> body f vs = FPanics (Bomb k (Bomb k' q)) ->
    snd (scaffold debug f args st h) = Unwound.
Proof. exact (@double_bomb). Qed.
Print Assumptions C14_payload_drop_refuted.

(** A successful call leaves the caller's status as it was, so a stale one is believed. *)
Theorem C14_stale_status_refuted :
  forall V E R (debug : E -> bytes) (f : fn V E R) args st h vs h1 h2 v r,
    lifts args h vs h1 -> body f vs = FRet v -> lower_ok f v h1 = (h2, Done r) ->
    code st = Error ->
    scaffold debug f args st h = (h2, Returned st r) /\ check_status h2 st r = DeclaredError (contents h2 (error_buf st)).
Proof. exact (@stale_success). Qed.
Print Assumptions C14_stale_status_refuted.

(** Asynchronous functions lift their arguments outside [catch_unwind]: a lift that
    panics takes the process down. *)
Theorem C14_async_lift_panic_refuted :
  forall V E R (debug : E -> bytes) (f : fn V E R) args st h h1 p,
    lift_args args h = (h1, LiftPanics p) -> snd (scaffold_async debug f args st h) = Unwound.
Proof. exact (@async_aborts). Qed.
Print Assumptions C14_async_lift_panic_refuted.

(** All arguments lift, or there is a first one that does not. *)
Theorem C15_cases :
  forall V E (args : list (arg V E)) h,
    (exists vs h1, lifts args h vs h1) \/ (exists a h2 r, first_failure args h a h2 r).
Proof. exact (@lift_cases). Qed.
Print Assumptions C15_cases.

(** In the first case the function is called exactly once with the values. *)
Theorem C15_called_once :
  forall V E (args : list (arg V E)) h vs h1, lifts args h vs h1 -> calls args h = [vs].
Proof. exact (@called_once). Qed.
Print Assumptions C15_called_once.

(** In the second it is not called, *)
Theorem C15_not_called_on_failure :
  forall V E (args : list (arg V E)) h a h2 r, first_failure args h a h2 r -> calls args h = [].
Proof. exact (@not_called). Qed.
Print Assumptions C15_not_called_on_failure.

(** (these are all the calls there are: the outcome depends on nothing else the function
    might do) *)
Theorem C15_no_other_call :
  forall V E R (debug : E -> bytes) (f g : fn V E R) args st h,
    (forall vs, In vs (calls args h) -> body f vs = body g vs) ->
    fallible f = fallible g -> lower_ok f = lower_ok g -> lower_error f = lower_error g -> dflt f = dflt g ->
    scaffold debug f args st h = scaffold debug g args st h.
Proof. exact (@only_calls). Qed.
Print Assumptions C15_no_other_call.

(** and the outcome is that of the first failing argument, whatever the prior status. *)
Theorem C15_failure_reported :
  forall V E R (debug : E -> bytes) (f : fn V E R) args st h a h2 r o,
    first_failure args h a h2 r -> reported_as debug f (aname a) h2 r o ->
    reports f (scaffold debug f args st h) o.
Proof. exact (@failure_reported). Qed.
Print Assumptions C15_failure_reported.

(** Asynchronous functions report the same, as long as no lift panics. *)
Theorem C15_async_same_outcome :
  forall V E R (debug : E -> bytes) (f : fn V E R) args h,
    (forall h1 p, lift_args args h <> (h1, LiftPanics p)) ->
    scaffold_async debug f args fresh h = scaffold debug f args fresh h.
Proof. exact (@async_same). Qed.
Print Assumptions C15_async_same_outcome.
