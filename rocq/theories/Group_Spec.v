(** What grouping should do. *)
From Verif Require Import Base Meta_Types Group_Model.
From Coq Require Import Permutation.

(** The item says that crate [c] has the namespace [n]. *)
Definition declares (m : metadata) (c n : str) : Prop :=
  match m with
  | MNamespace c' n' => c' = c /\ n' = n
  | MUdlFile c' n' _ => c' = c /\ n' = n
  | _ => False
  end.

(** The item is part of the API of crate [c]; namespace items only declare. *)
Definition of_crate (m : metadata) (c : str) : Prop :=
  is_namespace m = false /\ exists mp, module_path m = Ok mp /\ crate_of_path mp = c.

(** No crate has two namespaces. *)
Definition one_namespace (items : list metadata) : Prop :=
  forall a b c n n', In a items -> In b items -> declares a c n -> declares b c n' -> n = n'.

(** Two results with the same groups, up to the order of groups and of items in a group. *)
Definition same_groups (a b : groups) : Prop :=
  forall c, match get c a, get c b with
            | Some g, Some h => g_crate g = g_crate h /\ g_namespace g = g_namespace h /\
                                Permutation (g_items g) (g_items h)
            | None, None => True
            | _, _ => False
            end.
