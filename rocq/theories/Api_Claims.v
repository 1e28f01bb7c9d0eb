(** Statements about the two builders of the API (C62). *)
From Verif Require Import Base Meta_Types Group_Model Api_Types Api_Spec Api_Model.
From Verif Require Import Univ_Spec.
From Coq Require Import Permutation.

(** The component interface accepts the items of a crate. *)
Definition accepted (g : group) : Prop := exists a, interface (g_items g) = Ok a.

(** Namespaces of crates. *)
Definition space_of (g : group) : str * str := (g_crate g, g_namespace g).
Definition space_shown (n : namespace) : str * str := (n_crate n, n_name n).

(** A component interface holds what the items of its crate say. *)
Definition interface_true (P : list metadata -> Prop) : Prop :=
  forall g a, of_group g -> plain_constructors (g_items g) -> P (g_items g) ->
  interface (g_items g) = Ok a -> says (g_items g) a.

(** The tree has one namespace for each crate and holds what the crate's items say. *)
Definition pipeline_true (P : list metadata -> Prop) : Prop :=
  forall gs r, grouped gs -> no_dashes gs -> (forall g, In g gs -> P (g_items g)) -> pipeline gs = Ok r ->
  Permutation (map space_shown r) (map space_of gs) /\
  forall g n, In g gs -> In n r -> n_crate n = g_crate g -> says (g_items g) (api_map fst (n_api n)).

(** Types in the tree name the namespace of their crate and the name in Rust of their definition. *)
Definition types_true (Q : list group -> Prop) (P : list metadata -> Prop) : Prop :=
  forall gs r n, grouped gs -> Q gs -> (forall g, In g gs -> P (g_items g)) -> pipeline gs = Ok r ->
  In n r -> well_typed gs (n_api n).

(** Where both accept, they hold the same. *)
Definition builders_agree (P : list metadata -> Prop) : Prop :=
  forall gs r, grouped gs -> no_dashes gs ->
  (forall g, In g gs -> plain_constructors (g_items g) /\ P (g_items g)) ->
  (forall g, In g gs -> accepted g) -> pipeline gs = Ok r ->
  Permutation (map space_shown r) (map space_of gs) /\
  forall n, In n r -> well_typed gs (n_api n) /\
  forall g a, In g gs -> n_crate n = g_crate g -> interface (g_items g) = Ok a ->
  same_api a (api_map fst (n_api n)).

(** What is true to the items is determined by them. *)
Definition determined : Prop := forall items a b, says items a -> says items b -> same_api a b.

(** The pipeline accepts what the component interface does. *)
Definition pipeline_accepts (Q : list group -> Prop) (P : list metadata -> Prop) : Prop :=
  forall gs, grouped gs -> Q gs ->
  (forall g, In g gs -> plain_constructors (g_items g) /\ P (g_items g) /\ accepted g) ->
  exists r, pipeline gs = Ok r.

(** The component interface accepts what the pipeline does. *)
Definition interface_accepts (P : list metadata -> Prop) : Prop :=
  forall gs r g, grouped gs -> no_dashes gs -> crates_there gs ->
  (forall g, In g gs -> plain_constructors (g_items g) /\ P (g_items g)) ->
  pipeline gs = Ok r -> In g gs -> accepted g.
