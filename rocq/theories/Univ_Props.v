(** C38: every type an API mentions is known to the generator, and a name has one meaning. *)
From Verif Require Import Base Meta_Types Meta_Eq Reach_Spec Univ_Model Univ_Spec Univ_Proofs
  Univ_Examples.
Local Open Scope string_scope.

(** Every type written anywhere in an item is known.  Missing: types that are in a box. *)
Theorem C38_types_known_partial : forall items i u,
  plain_constructors items -> add_metadata items = Ok i -> mentioned_unboxed items u ->
  exists t, In t (known (types i)) /\ same_type u t.
Proof. exact types_known. Qed.
Print Assumptions C38_types_known_partial.

(** Nothing else is known, but for strings. *)
Theorem C38_nothing_else : forall items i t,
  add_metadata items = Ok i -> In t (known (types i)) ->
  t = TString \/ exists u, mentioned items u /\ same_type u t.
Proof. exact nothing_else_spec. Qed.
Print Assumptions C38_nothing_else.

(** A name stands for one type.  Missing: types that are in a box. *)
Theorem C38_one_type_per_name_partial : forall items i t t' n,
  plain_constructors items -> add_metadata items = Ok i ->
  mentioned_unboxed items t -> mentioned_unboxed items t' ->
  name_of t = Some n -> name_of t' = Some n ->
  crate_and_sort t = crate_and_sort t' /\ exists d, same_type t d /\ same_type t' d.
Proof. exact one_type_per_name. Qed.
Print Assumptions C38_one_type_per_name_partial.

(** Functions have different names. *)
Theorem C38_function_names : forall items i,
  add_metadata items = Ok i ->
  NoDup (flat_map (fun m => match m with MFunc f => [f_name f] | _ => [] end) items).
Proof. exact function_names_distinct. Qed.
Print Assumptions C38_function_names.

(** A function is not named like a type, whichever comes first. *)
Theorem C38_function_not_type_partial : forall items i f t,
  plain_constructors items -> add_metadata items = Ok i ->
  In (MFunc f) items -> mentioned_unboxed items t -> name_of t <> Some (f_name f).
Proof. exact function_not_type. Qed.
Print Assumptions C38_function_not_type_partial.

(** Constructors are accepted on objects only, as the manual says (records.md, enumerations.md). *)
Theorem C38_constructors_on_objects : forall items i self f t,
  plain_constructors items -> add_metadata items = Ok i ->
  In (MConstructor self f) items -> mentioned_unboxed items t -> name_of t = Some self ->
  exists mp, t = TObject mp self IStruct /\ same_crate mp (f_mp f).
Proof. exact constructor_owner. Qed.
Print Assumptions C38_constructors_on_objects.

(** Records have different names, and so have enums. *)
Theorem C38_definitions_once : forall items i,
  add_metadata items = Ok i ->
  NoDup (flat_map (fun m => match m with MRecord r => [r_name r] | _ => [] end) items) /\
  NoDup (flat_map (fun m => match m with MEnum e => [e_name e] | _ => [] end) items).
Proof. exact definitions_once. Qed.
Print Assumptions C38_definitions_once.

(** A method comes after the object, record or enum it belongs to. *)
Theorem C38_methods_owned : forall items i pre self f post,
  add_metadata items = Ok i -> items = (pre ++ MMethod self f :: post)%list ->
  exists m, In m pre /\ owner self m.
Proof. exact method_owned. Qed.
Print Assumptions C38_methods_owned.

(** The methods of a callback interface come after it, numbered from zero with none left out, and in
    this order. *)
Theorem C38_trait_methods : forall items i pre mp n doc post,
  plain_constructors items -> add_metadata items = Ok i ->
  items = (pre ++ MCallback mp n doc :: post)%list -> no_callback n pre -> no_callback n post ->
  method_numbers n post = count_up (length (method_numbers n post)) /\
  forall k f, ~ In (MTraitMethod n k f) pre.
Proof.
  exact (fun items i pre mp n doc post P A E B C =>
    conj (trait_numbers items i pre mp n doc post A E C)
         (fun k f => trait_method_first items i pre mp n doc post k f P A E B)).
Qed.
Print Assumptions C38_trait_methods.

(** A type in a box may stay unknown. *)
Theorem C38_box_refuted : exists items i u,
  plain_constructors items /\ add_metadata items = Ok i /\ mentioned items u /\
  forall t, In t (known (types i)) -> ~ same_type u t.
Proof.
  destruct boxed_unknown as [P [M [i [H N]]]].
  exists boxed, i, (TRecord (S_ "b") (S_ "Ext")). auto.
Qed.
Print Assumptions C38_box_refuted.

(** A name may stand for two types if one of them is in a box. *)
Theorem C38_two_types_refuted : exists items i t t',
  plain_constructors items /\ add_metadata items = Ok i /\ mentioned items t /\ mentioned items t' /\
  name_of t = name_of t' /\ name_of t <> None /\ crate_and_sort t <> crate_and_sort t'.
Proof.
  destruct boxed_two_types as [P [M [M' [[i H] N]]]].
  exists boxed_clash, i, (TRecord (S_ "a") (S_ "R")), (TRecord (S_ "b") (S_ "R")).
  split; [exact P|]. split; [exact H|]. split; [exact M|]. split; [exact M'|].
  split; [reflexivity|]. split; [discriminate | exact N].
Qed.
Print Assumptions C38_two_types_refuted.

(** The trait an object is said to implement may stay unknown. *)
Theorem C38_trait_impl_refuted : exists items i m u,
  add_metadata items = Ok i /\ In m items /\ In u (implemented m) /\
  forall t, In t (known (types i)) -> ~ same_type u t.
Proof.
  destruct trait_unknown as [i [H N]].
  exists with_trait, i, (MTraitImpl (TObject (S_ "a") (S_ "O") IStruct) (TObject (S_ "b") (S_ "T") (ITrait RustOnly))),
    (TObject (S_ "b") (S_ "T") (ITrait RustOnly)).
  split; [exact H|]. split; [right; left; reflexivity|]. split; [left; reflexivity | exact N].
Qed.
Print Assumptions C38_trait_impl_refuted.
