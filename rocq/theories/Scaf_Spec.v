(** * What the properties about scaffolding calls say *)

From Verif Require Import Base Buf_Model Buf_Spec Scaf_Model.

Section Types.
Context {V E R : Type}.

(** The arguments lift, in this order, to [vs]. *)
Inductive lifts : list (arg V E) -> heap -> list V -> heap -> Prop :=
| lifts_nil h : lifts [] h [] h
| lifts_cons a rest h h1 h2 v vs :
    alift a h = (h1, LOk v) -> lifts rest h1 vs h2 -> lifts (a :: rest) h (v :: vs) h2.

(** [a] is the first argument that does not lift; the lift of [a] leaves [h2] and says [r]. *)
Definition first_failure (args : list (arg V E)) (h : heap) (a : arg V E) (h2 : heap) (r : lres V E) : Prop :=
  (forall v, r <> LOk v) /\
  exists pre post vs h1, args = pre ++ a :: post /\ lifts pre h vs h1 /\ alift a h1 = (h2, r).

(** An empty message is reported by a generic text. *)
Definition shown (m : bytes) : bytes := match m with [] => lit "Unknown rust panic" | _ => m end.

(** What a call of [f] with the values [vs] amounts to. *)
Inductive produces (f : fn V E R) (vs : list V) (h : heap) : outcome R -> Prop :=
| p_value v h' r : body f vs = FRet v -> lower_ok f v h = (h', Done r) -> produces f vs h (Value r)
| p_error e h' b : body f vs = FErr e -> lower_error f e h = (h', Done b) -> produces f vs h (DeclaredError (contents h' b))
| p_panic k : body f vs = FPanics (Plain k) -> produces f vs h (Unexpected (shown (message (Plain k))))
| p_value_panic v h' k : body f vs = FRet v -> lower_ok f v h = (h', Panics (Plain k)) ->
    produces f vs h (Unexpected (shown (message (Plain k))))
| p_error_panic e h' k : body f vs = FErr e -> lower_error f e h = (h', Panics (Plain k)) ->
    produces f vs h (Unexpected (shown (message (Plain k)))).

(** The function panics, if at all, with a payload whose destructor does not panic. *)
Definition gentle (f : fn V E R) (vs : list V) (h : heap) : Prop :=
  (forall p, body f vs = FPanics p -> exists k, p = Plain k) /\
  (forall v h' p, body f vs = FRet v -> lower_ok f v h = (h', Panics p) -> exists k, p = Plain k) /\
  (forall e h' p, body f vs = FErr e -> lower_error f e h = (h', Panics p) -> exists k, p = Plain k).

Definition failing (o : outcome R) : Prop := forall r, o <> Value r.

(** The call returns, the foreign code sees [o], and in the failing cases the return
    slot holds the default. *)
Definition reports (f : fn V E R) (r : heap * ret R) (o : outcome R) : Prop :=
  exists h' st' v, r = (h', Returned st' v) /\ check_status h' st' v = o /\ (failing o -> v = dflt f).

(** How a failed lift is to be reported. *)
Inductive reported_as (debug : E -> bytes) (f : fn V E R) (name : bytes) (h : heap) : lres V E -> outcome R -> Prop :=
| r_declared e h' b : fallible f = true -> lower_error f e h = (h', Done b) ->
    reported_as debug f name h (LErr (User e)) (DeclaredError (contents h' b))
| r_foreign e : fallible f = false -> reported_as debug f name h (LErr (User e)) (Unexpected (failed_message name (debug e)))
| r_other d : reported_as debug f name h (LErr (Other d)) (Unexpected (failed_message name d))
| r_panic k : reported_as debug f name h (LPanic (Plain k)) (Unexpected (shown (message (Plain k)))).

End Types.
