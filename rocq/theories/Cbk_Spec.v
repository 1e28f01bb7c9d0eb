(** What the properties of foreign implementations are stated with. *)
From Verif Require Import Base Meta_Types Cbk_Model.
From Coq Require Import Permutation.
Local Open Scope Z_scope.

(** * Vtables *)

(** Is the item a method of this trait? *)
Definition method_of (trait : str) (m : metadata) : bool :=
  match m with
  | MMethod t _ | MTraitMethod t _ _ => bytes_eqb t trait
  | _ => false
  end.

(** The metadata of a crate that defines the trait with these methods: anything, in any order, where
    the methods of the trait are these, each with its position. *)
Definition positioned (sigs : list sig) (trait : str) : list metadata :=
  map (fun p => MTraitMethod trait (Z.of_nat (fst p)) (s_meta (snd p)))
      (combine (seq 0 (length sigs)) sigs).
Definition describes (items : list metadata) (trait : str) (sigs : list sig) : Prop :=
  Permutation (filter (method_of trait) items) (positioned sigs trait).

(** A trait that Rust accepts: the fields of the vtable have different names; so have the methods on
    the foreign side.  All are in one module. *)
Definition good_trait (sigs : list sig) : Prop :=
  NoDup (S_ "uniffi_free" :: S_ "uniffi_clone" :: map s_ident sigs) /\
  NoDup (map (fun s => f_name (s_meta s)) sigs) /\
  (exists mp, Forall (fun s => f_mp (s_meta s) = mp) sigs) /\
  Z.of_nat (length sigs) < 2 ^ 32.

(** * Handles *)

Definition count {A} (p : A -> bool) (l : list A) : nat := length (filter p l).
Definition freed (h : Z) (e : event) : bool := match e with Freed h' => h' =? h | _ => false end.
Definition passed (h : Z) (e : event) : bool := match e with Passed h' _ => h' =? h | _ => false end.

(** Every argument of every call could be lifted. *)
Definition lifted_all (xs : list op) : Prop :=
  Forall (fun x => match x with PassFails os n => length os <= n | _ => True end)%nat xs.

(** * Calls *)
Section Calls.
Context {T V E F W X O : Type}.

(** [same t v w]: v in Rust and w in the foreign language are the same value of type t.
    [same_error e x]: likewise for errors. *)
Variable same : T -> V -> W -> Prop.
Variable same_error : E -> X -> Prop.
Variable from_unexpected : option (bytes -> E).
Variable unit_value : V.

Inductive all_same : list T -> list V -> list W -> Prop :=
| AS_nil : all_same [] [] []
| AS_cons t v w ts vs ws : same t v w -> all_same ts vs ws -> all_same (t :: ts) (v :: vs) (w :: ws).

(** What the Rust caller must see for what the foreign method does. *)
Inductive expected (m : mtype T) : outcome W X -> rust_result V E -> Prop :=
| Ex_value t v w : m_ret m = Some t -> same t v w -> expected m (Returns w) (RValue v)
| Ex_unit w : m_ret m = None -> expected m (Returns w) (RValue unit_value)
| Ex_error x e : m_throws m = true -> same_error e x ->
    expected m (Raises (Declared x)) (RError e)
| Ex_undeclared x : m_throws m = false -> expected m (Raises (Declared x)) RPanics
| Ex_unexpected msg c : m_throws m = true -> from_unexpected = Some c ->
    expected m (Raises (Other msg)) (RError (c msg))
| Ex_panic msg : m_throws m = false \/ from_unexpected = None ->
    expected m (Raises (Other msg)) RPanics.
End Calls.

(** The converters of the two sides fit together. *)
Record converters_fit {T V E F W X} (same : T -> V -> W -> Prop) (same_error : E -> X -> Prop)
    (r_lower : T -> V -> F) (r_lift : T -> F -> V + bytes) (r_lift_error : bytes -> E + bytes)
    (f_lift : T -> F -> W + exn X) (f_lower : T -> W -> F + exn X)
    (f_lower_error : X -> bytes + exn X) : Prop := Fit {
  fit_arg : forall t v w, same t v w -> f_lift t (r_lower t v) = inl w;
  fit_ret : forall t v w, same t v w -> exists f, f_lower t w = inl f /\ r_lift t f = inl v;
  fit_err : forall e x, same_error e x -> exists b, f_lower_error x = inl b /\ r_lift_error b = inl e
}.
