(** What a definition needs, and being in the right order.  Independent of the sorter. *)
From Coq Require Import Relation_Operators.
From Verif Require Import Base Meta_Types Canon_Model Sort_Model.

(** [x] comes before [y]. *)
Definition before {A} (l : list A) (x y : A) : Prop :=
  exists l1 l2 l3, l = l1 ++ x :: l2 ++ y :: l3.

(** A signature mentions a type. *)
Definition in_callable (c : callable) (t : ty) : Prop :=
  In t (c_args c) \/ c_ret c = Some t \/ c_throws c = Some t.

(** Definition [d] mentions type [t]. *)
Definition mentions (d : type_definition) (t : ty) : Prop :=
  match d with
  | TDSimple _ | TDExternal _ => False
  | TDBox _ i | TDOptional _ i | TDSequence _ i | TDSet _ i | TDCustom _ i => t = i
  | TDMap _ k v => t = k \/ t = v
  | TDRecord _ fs => In t fs
  | TDEnum _ vs => exists v, In v vs /\ In t v
  | TDInterface _ impls ms vt =>
      In t impls \/ (exists c, In c ms /\ in_callable c t) \/
      (exists vms c, vt = Some vms /\ In c vms /\ in_callable c t)
  | TDCallback _ ms => exists c, In c ms /\ in_callable c t
  end.

(** [x] needs [y]: it mentions the type that [y] defines. *)
Definition needs (x y : type_definition) : Prop := mentions x (self_type y).

(** [x] needs [y], directly or through others among [defs]. *)
Definition needs_within (defs : list type_definition) (x y : type_definition) : Prop :=
  clos_trans _ (fun a b => In a defs /\ In b defs /\ needs a b) x y.

(** The types [defs] define or mention can be told apart by the name of their converter (C37). *)
Definition in_defs (defs : list type_definition) (t : ty) : Prop :=
  exists d, In d defs /\ (self_type d = t \/ mentions d t).
Definition names_distinct (defs : list type_definition) : Prop :=
  forall t t', in_defs defs t -> in_defs defs t' -> canonical_name t = canonical_name t' -> t = t'.

(** An FFI type names a struct or function type, possibly behind references. *)
Inductive points_to : ffi_type -> str -> Prop :=
| pt_struct n : points_to (FStruct n) n
| pt_function n : points_to (FFunction n) n
| pt_ref t n : points_to t n -> points_to (FRef t) n
| pt_mut t n : points_to t n -> points_to (FMutRef t) n.

Definition ffi_needs (x y : ffi_definition) : Prop :=
  match x with
  | FDStruct _ fs => exists t, In t fs /\ points_to t (ffi_item_name y)
  | FDRustFunction _ args ret | FDFunctionType _ args ret =>
      exists t, (In t args \/ ret = Some t) /\ points_to t (ffi_item_name y)
  end.

Definition ffi_needs_within (defs : list ffi_definition) (x y : ffi_definition) : Prop :=
  clos_trans _ (fun a b => In a defs /\ In b defs /\ ffi_needs a b) x y.
