(** Statements about bindings made under a configuration (C63). *)
From Verif Require Import Base Meta_Types Group_Model Api_Types Api_Spec Api_Model.
From Verif Require Import Univ_Spec Excl_Types Excl_Spec Excl_Model.

(** [Q] is supposed of a configuration, a crate and its items, [R] is said of the bindings made. *)
Definition premise := conf -> str -> list metadata -> Prop.
Definition conclusion := conf -> str -> list metadata -> bindings -> Prop.

(** For Kotlin, Swift and Ruby; what is supposed of the items is what C62 supposes. *)
Definition ci_true (Q : premise) (R : conclusion) : Prop :=
  forall g c b, of_group g -> plain_constructors (g_items g) -> objects_differ (g_items g) ->
  numbered (g_items g) -> Q c (g_crate g) (g_items g) ->
  ci_bindings c (g_items g) = Ok b -> R c (g_crate g) (g_items g) b.

(** For Python. *)
Definition pl_true (Q : premise) (R : conclusion) : Prop :=
  forall gs r g n c b, grouped gs -> no_dashes gs ->
  (forall g, In g gs -> owned (g_items g) /\ types_differ (g_items g) /\ numbered (g_items g)) ->
  pipeline gs = Ok r -> In g gs -> In n r -> n_crate n = g_crate g -> Q c (g_crate g) (g_items g) ->
  pl_bindings c n = Ok b -> R c (g_crate g) (g_items g) b.

(** Both show the same. *)
Definition both_same (Q : premise) : Prop :=
  forall gs r g n c b b', grouped gs -> no_dashes gs ->
  (forall g, In g gs -> owned (g_items g) /\ types_differ (g_items g) /\ numbered (g_items g)) ->
  pipeline gs = Ok r -> In g gs -> In n r -> n_crate n = g_crate g ->
  plain_constructors (g_items g) -> objects_differ (g_items g) -> Q c (g_crate g) (g_items g) ->
  ci_bindings c (g_items g) = Ok b -> pl_bindings c n = Ok b' -> same_shown b b'.

Definition any : premise := fun _ _ _ => True.
