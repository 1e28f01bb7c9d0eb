(** When the types of a component can be told apart by name. *)
From Verif Require Import Base Meta_Types.

(** The name of a user-defined type. *)
Definition user_name (t : ty) : option str :=
  match t with
  | TObject _ n _ | TCallback _ n | TRecord _ n | TEnum _ n | TCustom _ n _ => Some n
  | _ => None
  end.

(** The user-defined types a type is made of. *)
Inductive part : ty -> ty -> Prop :=
| part_self t : user_name t <> None -> part t t
| part_option t u : part t u -> part (TOption t) u
| part_seq t u : part t u -> part (TSeq t) u
| part_set t u : part t u -> part (TSet t) u
| part_box t u : part t u -> part (TBox t) u
| part_key k v u : part k u -> part (TMap k v) u
| part_value k v u : part v u -> part (TMap k v) u.

(** Among the types of the component a name belongs to one user-defined type. *)
Definition one_type_per_name (types : list ty) : Prop :=
  forall t t' u u', In t types -> In t' types -> part t u -> part t' u' ->
  user_name u = user_name u' -> u = u'.

(** The keys of maps are not made of user-defined types. *)
Fixpoint builtin_keys (t : ty) : Prop :=
  match t with
  | TOption t | TSeq t | TSet t | TBox t => builtin_keys t
  | TMap k v => (forall u, ~ part k u) /\ builtin_keys v
  | _ => True
  end.

(** A box is a pointer on the Rust side only: foreign code sees what is in it. *)
Fixpoint unboxed (t : ty) : ty :=
  match t with
  | TBox t => unboxed t
  | TOption t => TOption (unboxed t)
  | TSeq t => TSeq (unboxed t)
  | TSet t => TSet (unboxed t)
  | TMap k v => TMap (unboxed k) (unboxed v)
  | t => t
  end.
