(** What the theorems about UDL files leave out. *)
From Verif Require Import Base Meta_Types Lit_Spec Udl_Types Udl_Spec Udl_Model.
From Coq Require Import Permutation.
Open Scope string_scope.
(** No definition takes a builtin type's name. *)
Definition unshadowed (file : list def) : Prop := forall x t, In (x, t) builtins -> ~ is_declared file (S_ x).
(** Variants of enums that are written as interfaces have neither attributes nor [static]. *)
Definition plain_variants (file : list def) : Prop :=
  forall a x i doc ms o, In (DIface a x i doc ms) file -> flag a "Enum" \/ flag a "Error" -> In (MemOp o) ms ->
    op_attrs o = None /\ op_modifier o <> Some Static.
(** No attribute has two values. *)
Definition once (a : wattrs) : Prop :=
  (forall x y q y' q', In (AIs x y q) (attrs_of a) -> In (AIs x y' q') (attrs_of a) -> y = y') /\
  (forall x l l', In (AList x l) (attrs_of a) -> In (AList x l') (attrs_of a) -> l = l').
Definition member_attrs (b : member) : wattrs :=
  match b with MemCons a _ _ => a | MemOp o => op_attrs o | MemOther => None end.
Definition attr_lists (d : def) : list wattrs :=
  match d with
  | DNamespace a _ _ ms | DIface a _ _ _ ms | DCallback a _ _ _ ms => a :: map member_attrs ms
  | DEnum a _ _ _ | DDict a _ _ _ _ | DTypedef a _ _ => [a]
  | DOther => []
  end.
Definition attrs_once (file : list def) : Prop := forall d a, In d file -> In a (attr_lists d) -> once a.
(** No traits on enums that are written as [enum]. *)
Definition no_enum_traits (file : list def) : Prop :=
  forall a x doc vs l, In (DEnum a x doc vs) file -> ~ lists a "Traits" l.
(** The types that custom types are made of are defined before them. *)
Definition customs_after (c : str) (file : list def) : Prop :=
  (forall pre a t x post, file = (pre ++ DTypedef a t x :: post)%list -> is_custom a -> exists b, type_is c pre t b).
(** Errors of constructors are defined. *)
Definition constructors_throw_known (file : list def) : Prop :=
  forall a x i doc ms b args d e, In (DIface a x i doc ms) file -> In (MemCons b args d) ms -> is_set b "Throws" e -> is_declared file e.
Definition plainly_written (file : list def) : Prop := unshadowed file /\ plain_variants file /\ attrs_once file /\ no_enum_traits file.

(** *** The claims, for files with [H] *)
(** All metadata is what the file says. *)
Definition reads_soundly (H : list def -> Prop) : Prop := forall c value_of doc_of file g M,
  H file -> read_udl c value_of doc_of file = UOk g -> In M (g_items g) -> says c value_of doc_of file M.
(** All that the file says is in the metadata. *)
Definition reads_fully (H : list def -> Prop) : Prop := forall c value_of doc_of file g M,
  H file -> read_udl c value_of doc_of file = UOk g -> says c value_of doc_of file M -> In M (g_items g).
(** No definition is left out. *)
Definition reads_all (H : list def -> Prop) : Prop := forall c value_of doc_of file g d,
  H file -> read_udl c value_of doc_of file = UOk g -> In d file -> covers c value_of doc_of file (g_items g) d.
(** The namespace. *)
Definition reads_namespace : Prop := forall c value_of doc_of file g,
  read_udl c value_of doc_of file = UOk g -> namespace_is doc_of file (g_namespace g) (g_doc g).
(** Legal files are read. *)
Definition accepts (H : str -> list def -> Prop) : Prop := forall c value_of doc_of file,
  H c file -> legal c value_of doc_of file -> exists g, read_udl c value_of doc_of file = UOk g.
(** The order of definitions does not matter. *)
Definition order_free (H : list def -> Prop) : Prop := forall c value_of doc_of file1 file2 g1 g2, Permutation file1 file2 ->
  H file1 -> read_udl c value_of doc_of file1 = UOk g1 -> read_udl c value_of doc_of file2 = UOk g2 ->
  forall M, In M (g_items g1) <-> In M (g_items g2).
(** Nor does reading panic. *)
Definition never_panics (H : list def -> Prop) : Prop := forall c value_of doc_of file,
  H file -> read_udl c value_of doc_of file <> UPanic.
(** A name is a record once. *)
Definition one_record (H : list def -> Prop) : Prop := forall c value_of doc_of file g x r fs doc r' fs' doc',
  H file -> read_udl c value_of doc_of file = UOk g -> In (IRecord x r fs doc) (g_items g) -> In (IRecord x r' fs' doc') (g_items g) ->
  fs = fs'.
(** The words for types of elsewhere that the error message lists: finder.rs l.30-35. *)
Definition advised : list string :=
  ["enum"; "record"; "dictionary"; "struct"; "object"; "impl"; "interface"; "trait"; "callback"; "trait_with_foreign"].
Definition words_accepted : Prop := forall c value_of doc_of crate w x, In w advised ->
  exists g, read_udl c value_of doc_of [DNamespace None (S_ "ns") None []; DTypedef (Some [AIs (S_ "External") crate true]) (WId (S_ w)) x] = UOk g.
Close Scope string_scope.
