(** What the two readers of metadata build: an API as a tree.  The first (the component interface, from
    which Kotlin, Swift and Ruby bindings are generated) keeps the items; the second (the initial tree
    of the pipeline, from which Python and the newer Kotlin bindings are generated) also translates
    the types they mention. *)
From Verif Require Import Base Meta_Types.

(** A type definition with its members: uniffi_bindgen/src/interface/object.rs, record.rs, enum_.rs,
    callbacks.rs and pipeline/initial/nodes.rs l.164-264.  [A] is what is kept of an item.  Lists a
    definition does not have are empty. *)
Record view (A : Type) := View {
  v_item : A; v_constructors : list A; v_methods : list A; v_traits : list A; v_impls : list A }.
Arguments View {A}. Arguments v_item {A}. Arguments v_constructors {A}. Arguments v_methods {A}.
Arguments v_traits {A}. Arguments v_impls {A}.

(** The functions and type definitions of a crate: interface/mod.rs l.92-118 and nodes.rs l.26-35.
    The order of the lists is not modelled, but for methods. *)
Record api (A : Type) := Api { a_functions : list A; a_types : list (view A) }.
Arguments Api {A}. Arguments a_functions {A}. Arguments a_types {A}.

Definition view_map {A B} (f : A -> B) (v : view A) : view B :=
  View (f (v_item v)) (map f (v_constructors v)) (map f (v_methods v)) (map f (v_traits v))
       (map f (v_impls v)).
Definition api_map {A B} (f : A -> B) (a : api A) : api B :=
  Api (map f (a_functions a)) (map (view_map f) (a_types a)).

(** nodes.rs l.288-346 [Type]: named types have a namespace instead of a module path, and also the
    name they have in Rust. *)
Inductive ity :=
| IBase (t : ty)
| IInterface (ns name orig : str) (imp : obj_impl)
| IRecord (ns name orig : str)
| IEnum (ns name orig : str)
| ICallback (ns name orig : str)
| IBox (i : ity)
| IOption (i : ity)
| ISeq (i : ity)
| ISet (i : ity)
| IMap (k v : ity)
| ICustom (ns name orig : str) (builtin : ity).

(** An item of the pipeline's tree: the item and its types, translated. *)
Definition shown := (metadata * list ity)%type.
