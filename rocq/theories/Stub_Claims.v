(** Statements about libraries built from UDL files (C72). *)
From Verif Require Import Base Meta_Types Group_Model Api_Types Api_Spec Api_Model.
From Verif Require Import Univ_Spec Excl_Types Excl_Spec Excl_Model Src_Model Stub_Model Stub_Spec Udl_Types Udl_Model Stub_Items.

(** The items of [g] are those of a UDL file, and [a] is the interface made of them.  What is supposed
    of the items is what C62 supposes. *)
Definition from_udl (g : Group_Model.group) (a : api metadata) : Prop :=
  udl (Group_Model.g_crate g) (Group_Model.g_items g) /\ of_group g /\
  objects_differ (Group_Model.g_items g) /\ numbered (Group_Model.g_items g) /\
  interface (Group_Model.g_items g) = Ok a.
Definition a_type (m : metadata) : Prop := match m with MCustom _ _ _ _ => False | _ => True end.

(** [Q] is supposed of the items.  Whether a definition is `[Remote]` and which methods take
    `[Self=ByArc]` is of no matter. *)
Section Claims.
  Variable Q : list metadata -> Prop.

  (** The library exports the functions that the items ask for and no others. *)
  Definition exports_right : Prop :=
    forall g a remote arc, from_udl g a -> Q (Group_Model.g_items g) ->
    exists l, scaffolding (Group_Model.g_crate g) remote arc a = Some l /\ exports_exactly (Group_Model.g_items g) l.
  (** Only that all are there; only that no others are there. *)
  Definition exports_all : Prop :=
    forall g a remote arc, from_udl g a -> Q (Group_Model.g_items g) ->
    exists l, scaffolding (Group_Model.g_crate g) remote arc a = Some l /\
    forall m s, Excl_Spec.exports (Group_Model.g_items g) m s -> In s l.
  Definition exports_only : Prop :=
    forall g a remote arc, from_udl g a -> Q (Group_Model.g_items g) ->
    exists l, scaffolding (Group_Model.g_crate g) remote arc a = Some l /\
    forall s, In s l -> exists m, Excl_Spec.exports (Group_Model.g_items g) m s.
  (** The generated Rust is accepted. *)
  Definition accepted : Prop :=
    forall g a remote arc, from_udl g a -> Q (Group_Model.g_items g) ->
    scaffolding (Group_Model.g_crate g) remote arc a <> None.

  (** The Rust that is generated for a definition or a function describes it again. *)
  Definition described_again : Prop :=
    forall g a remote arc, from_udl g a -> Q (Group_Model.g_items g) ->
    (forall v, In v (a_types a) -> a_type (v_item v) ->
       exists mss, read_back (Group_Model.g_crate g) remote arc a v = Some mss /\
       same_parts (Group_Model.g_items g) (parts v) (concat mss)) /\
    (forall m, In m (a_functions a) ->
       exists x, read_back_fn (Group_Model.g_crate g) m = Some [[x]] /\ again (Group_Model.g_items g) m x).

  (** The bindings for Kotlin, Swift and Ruby, whatever is configured, declare functions of the
      library, *)
  Definition ci_linked : Prop :=
    forall g a remote arc conf b, from_udl g a -> Q (Group_Model.g_items g) -> keeps_traits conf (Group_Model.g_items g) ->
    ci_bindings conf (Group_Model.g_items g) = Ok b ->
    exists l, scaffolding (Group_Model.g_crate g) remote arc a = Some l /\ forall s, In s (b_declared b) -> In s l.
  (** so do those for Python; *)
  Definition pl_linked : Prop :=
    forall gs r g n a remote arc conf b, grouped gs -> no_dashes gs ->
    (forall g, In g gs -> owned (Group_Model.g_items g) /\ types_differ (Group_Model.g_items g) /\ numbered (Group_Model.g_items g)) ->
    pipeline gs = Ok r -> In g gs -> In n r -> n_crate n = Group_Model.g_crate g ->
    from_udl g a -> Q (Group_Model.g_items g) -> pl_bindings conf n = Ok b ->
    exists l, scaffolding (Group_Model.g_crate g) remote arc a = Some l /\ forall s, In s (b_declared b) -> In s l.
  (** and the tables they fill are those that Rust reads: the same methods at the same places. *)
  Definition ci_tables_fit : Prop :=
    forall g a remote arc conf b y t, from_udl g a -> Q (Group_Model.g_items g) ->
    keeps_traits conf (Group_Model.g_items g) -> whole_traits conf (Group_Model.g_items g) ->
    ci_bindings conf (Group_Model.g_items g) = Ok b -> In y (b_types b) -> y_table y = Some t ->
    exists v ms, In v (a_types a) /\ v_item v = y_item y /\
    read_back (Group_Model.g_crate g) remote arc a v = Some [ms] /\ Stub_Model.table_of ms = Some (method_names (t_slots t)).
  Definition pl_tables_fit : Prop :=
    forall gs r g n a remote arc conf b y t, grouped gs -> no_dashes gs ->
    (forall g, In g gs -> owned (Group_Model.g_items g) /\ types_differ (Group_Model.g_items g) /\ numbered (Group_Model.g_items g)) ->
    pipeline gs = Ok r -> In g gs -> In n r -> n_crate n = Group_Model.g_crate g ->
    from_udl g a -> Q (Group_Model.g_items g) -> pl_bindings conf n = Ok b ->
    In y (b_types b) -> callback (y_item y) -> y_table y = Some t ->
    exists v ms, In v (a_types a) /\ v_item v = y_item y /\
    read_back (Group_Model.g_crate g) remote arc a v = Some [ms] /\ Stub_Model.table_of ms = Some (method_names (t_slots t)).
End Claims.

(** The traits that Rust reads a table for are those that foreign code may implement. *)
Definition tables_for_foreign : Prop :=
  forall g a remote arc v, from_udl g a -> In v (a_types a) ->
  exists mss, read_back (Group_Model.g_crate g) remote arc a v = Some mss /\
  (foreign (v_item v) <-> exists ms t, In ms mss /\ Stub_Model.table_of ms = Some t).

(** Rust can read the values of an error unless they are sent flat, and those too if foreign code may throw
    them. *)
Definition errors_readable : Prop :=
  forall g a remote arc v e, from_udl g a -> In v (a_types a) -> v_item v = MEnum e ->
  (forallb can_read (stubs_of (Group_Model.g_crate g) remote arc a v) = true <->
   (sent_flat (Group_Model.g_items g) e -> thrown_to_rust (Group_Model.g_items g) e)).
(** Rust can read what a function takes. *)
Definition arguments_readable : Prop :=
  forall g a remote arc v e, from_udl g a -> In v (a_types a) -> v_item v = MEnum e -> passed_to_rust (Group_Model.g_items g) e ->
  forallb can_read (stubs_of (Group_Model.g_crate g) remote arc a v) = true.

(** The items of every UDL file that is read are of this kind. *)
Definition files_give_udl : Prop :=
  forall c lit docstring ds g, read_udl c lit docstring ds = UOk g -> udl c (metas c (Udl_Types.g_items g)).
