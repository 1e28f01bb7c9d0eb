(** Both builders of the API present what the items say (C62). *)
From Verif Require Import Base Meta_Types Group_Model Api_Types Api_Spec Api_Model Api_Claims Api_Agree Api_Ready Api_Refute.
From Verif Require Import Univ_Spec.

(** A component interface holds exactly what the items of its crate say: each function and each type once, each
    type with exactly its members, trait methods by their numbers; where no two objects have one name. *)
Theorem C62_interface_partial :
  interface_true (fun items => objects_differ items /\ numbered items).
Proof. exact interface_true_proof. Qed.
Print Assumptions C62_interface_partial.

(** So does the tree of the pipeline, with one namespace for each crate; where members have types and no two types
    have one name. *)
Theorem C62_pipeline_partial :
  pipeline_true (fun items => owned items /\ types_differ items /\ numbered items).
Proof. exact pipeline_true_proof. Qed.
Print Assumptions C62_pipeline_partial.

(** All types in the tree name the namespace of their crate and the name in Rust of their definition; where no
    function has the name of a type. *)
Theorem C62_types_partial :
  types_true no_dashes (fun items => types_differ items /\ functions_differ items).
Proof. exact types_true_proof. Qed.
Print Assumptions C62_types_partial.

(** The items determine the API. *)
Theorem C62_determined :
  determined.
Proof. exact determined_proof. Qed.
Print Assumptions C62_determined.

(** What both accept they present alike. *)
Theorem C62_agree_partial :
  builders_agree (fun items => objects_differ items /\ numbered items).
Proof. exact builders_agree_proof. Qed.
Print Assumptions C62_agree_partial.

(** The pipeline accepts what the component interface accepts; where all crates are there, have namespaces of
    their own, and no type has two members of one name or both kinds of methods. *)
Theorem C62_accepted_partial :
  pipeline_accepts (fun gs => no_dashes gs /\ crates_there gs /\ NoDup (map g_namespace gs))
                   (fun items => objects_differ items /\ members_differ items /\ not_mixed items).
Proof. exact pipeline_accepts_proof. Qed.
Print Assumptions C62_accepted_partial.

(** Two objects of one name are both kept. *)
Theorem C62_objects_refuted :
  ~ interface_true numbered.
Proof. exact objects_refuted. Qed.
Print Assumptions C62_objects_refuted.

(** The pipeline drops members that have no type. *)
Theorem C62_orphans_refuted :
  ~ pipeline_true (fun items => types_differ items /\ numbered items).
Proof. exact orphans_refuted. Qed.
Print Assumptions C62_orphans_refuted.

(** It keeps two types of one name when they are of different kinds. *)
Theorem C62_kinds_refuted :
  ~ pipeline_true (fun items => owned items /\ numbered items).
Proof. exact kinds_refuted. Qed.
Print Assumptions C62_kinds_refuted.

(** A function with the name of a type changes the type's name in Rust. *)
Theorem C62_functions_refuted :
  ~ types_true no_dashes types_differ.
Proof. exact functions_refuted. Qed.
Print Assumptions C62_functions_refuted.

(** A type of a crate with a dash is taken for one of another crate. *)
Theorem C62_dashes_refuted :
  ~ types_true (fun gs => forall g, In g gs -> no_dash (g_crate g))
                (fun items => types_differ items /\ functions_differ items).
Proof. exact dashes_refuted. Qed.
Print Assumptions C62_dashes_refuted.

(** The component interface refuses constructors of records, which the pipeline accepts; *)
Theorem C62_constructors_refuted :
  ~ interface_accepts (fun items => owned items /\ types_differ items /\ functions_differ items /\
                                    numbered items /\ members_differ items).
Proof. exact constructors_refuted. Qed.
Print Assumptions C62_constructors_refuted.

(** and functions with the name of a type. *)
Theorem C62_function_names_refuted :
  ~ interface_accepts (fun items => owned items /\ types_differ items /\ numbered items).
Proof. exact function_names_refuted. Qed.
Print Assumptions C62_function_names_refuted.

(** The pipeline refuses types of crates without items; *)
Theorem C62_crates_refuted :
  ~ pipeline_accepts (fun gs => no_dashes gs /\ NoDup (map g_namespace gs))
                     (fun items => objects_differ items /\ members_differ items /\ not_mixed items).
Proof. exact crates_refuted. Qed.
Print Assumptions C62_crates_refuted.

(** two crates of one namespace; *)
Theorem C62_namespaces_refuted :
  ~ pipeline_accepts (fun gs => no_dashes gs /\ crates_there gs)
                     (fun items => objects_differ items /\ members_differ items /\ not_mixed items).
Proof. exact namespaces_refuted. Qed.
Print Assumptions C62_namespaces_refuted.

(** two methods of one name; *)
Theorem C62_members_refuted :
  ~ pipeline_accepts (fun gs => no_dashes gs /\ crates_there gs /\ NoDup (map g_namespace gs))
                     (fun items => objects_differ items /\ not_mixed items).
Proof. exact members_refuted. Qed.
Print Assumptions C62_members_refuted.

(** methods beside methods of a trait.  The component interface accepts them. *)
Theorem C62_mixed_refuted :
  ~ pipeline_accepts (fun gs => no_dashes gs /\ crates_there gs /\ NoDup (map g_namespace gs))
                     (fun items => objects_differ items /\ members_differ items).
Proof. exact mixed_refuted. Qed.
Print Assumptions C62_mixed_refuted.
