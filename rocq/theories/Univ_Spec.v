(** What it means that a type is known. *)
From Verif Require Import Base Meta_Types Meta_Eq Reach_Spec.
From Verif Require Names_Model.

(** The types written in an item: what it defines, its fields, arguments, results, errors. *)
Definition optional (t : option ty) : list ty := match t with Some t => [t] | None => [] end.
Definition signature_of (f : fn_meta) : list ty :=
  map p_ty (f_inputs f) ++ optional (f_ret f) ++ optional (f_throws f).
Definition signature (m : metadata) : list ty :=
  match m with
  | MNamespace _ _ | MUdlFile _ _ _ => []
  | MFunc f | MMethod _ f | MTraitMethod _ _ f => signature_of f
  | MConstructor self f => TObject (f_mp f) self IStruct :: signature_of f
  | MObject o => [TObject (o_mp o) (o_name o) (o_imp o)]
  | MCallback mp n _ => [TCallback mp n]
  | MRecord r => TRecord (r_mp r) (r_name r) :: map fd_ty (r_fields r)
  | MEnum e => TEnum (e_mp e) (e_name e) ::
               flat_map (fun v => map fd_ty (v_fields v)) (e_variants e)
  | MCustom mp n b _ => [TCustom mp n b]
  | MUniffiTrait (UTDebug _ f | UTDisplay _ f | UTHash _ f | UTOrd _ f) => signature_of f
  | MUniffiTrait (UTEq _ e _ n) => signature_of e ++ signature_of n
  | MTraitImpl _ _ => []
  end.

(** The trait an item says is implemented. *)
Definition implemented (m : metadata) : list ty :=
  match m with MTraitImpl _ t => [t] | _ => [] end.

(** A constructor item returns no type (see [metadata]). *)
Definition plain_constructors (items : list metadata) : Prop :=
  forall self f, In (MConstructor self f) items -> f_ret f = None.

(** [u] is written somewhere in the items. *)
Definition mentioned (items : list metadata) (u : ty) : Prop :=
  exists m t, In m items /\ In t (signature m) /\ inside u t.

(** Somewhere not in a box: no [Box] between the item and [u] nor in [u]. *)
Fixpoint boxless (t : ty) : bool :=
  match t with
  | TBox _ => false
  | TOption t | TSeq t | TSet t | TCustom _ _ t => boxless t
  | TMap k v => boxless k && boxless v
  | _ => true
  end.
Definition mentioned_unboxed (items : list metadata) (u : ty) : Prop :=
  exists m t, In m items /\ In t (signature m) /\ boxless t = true /\ inside u t.

(** The same type, as generated code sees it: submodules do not count, nor do boxes. *)
Definition same_crate (mp mp' : str) : Prop := Names_Model.crate_name mp = Names_Model.crate_name mp'.
Inductive same_type : ty -> ty -> Prop :=
| st_refl t : same_type t t
| st_object mp mp' n i : same_crate mp mp' -> same_type (TObject mp n i) (TObject mp' n i)
| st_record mp mp' n : same_crate mp mp' -> same_type (TRecord mp n) (TRecord mp' n)
| st_enum mp mp' n : same_crate mp mp' -> same_type (TEnum mp n) (TEnum mp' n)
| st_callback mp mp' n : same_crate mp mp' -> same_type (TCallback mp n) (TCallback mp' n)
| st_custom mp mp' n t t' : same_crate mp mp' -> same_type t t' ->
    same_type (TCustom mp n t) (TCustom mp' n t')
| st_option t t' : same_type t t' -> same_type (TOption t) (TOption t')
| st_seq t t' : same_type t t' -> same_type (TSeq t) (TSeq t')
| st_set t t' : same_type t t' -> same_type (TSet t) (TSet t')
| st_map k k' v v' : same_type k k' -> same_type v v' -> same_type (TMap k v) (TMap k' v')
| st_box t t' : same_type t t' -> same_type (TBox t) t'.

(** The name of a user-defined type. *)
Definition name_of (t : ty) : option str :=
  match t with
  | TObject _ n _ | TRecord _ n | TEnum _ n | TCustom _ n _ | TCallback _ n => Some n
  | _ => None
  end.

(** The crate of a user-defined type, and which sort of type it is. *)
Definition crate_and_sort (t : ty) : option (str * nat) :=
  match t with
  | TObject mp _ _ => Some (Names_Model.crate_name mp, 0)
  | TRecord mp _ => Some (Names_Model.crate_name mp, 1)
  | TEnum mp _ => Some (Names_Model.crate_name mp, 2)
  | TCustom mp _ _ => Some (Names_Model.crate_name mp, 3)
  | TCallback mp _ => Some (Names_Model.crate_name mp, 4)
  | _ => None
  end.

(** The numbers of the methods of a trait, in the order of the items. *)
Definition method_numbers (trait_name : str) (items : list metadata) : list Z :=
  flat_map (fun m => match m with
                     | MTraitMethod n k _ => if str_eq_dec n trait_name then [k] else []
                     | _ => []
                     end) items.
Definition no_callback (n : str) (items : list metadata) : Prop :=
  forall mp doc, ~ In (MCallback mp n doc) items.
(** Zero, one, two... *)
Definition count_up (k : nat) : list Z := map Z.of_nat (seq 0 k).

(** A type that can have methods. *)
Definition owner (self : str) (m : metadata) : Prop :=
  match m with
  | MObject o => o_name o = self
  | MRecord r => r_name r = self
  | MEnum e => e_name e = self
  | _ => False
  end.
