(** What "distinct items" and "the same name" mean for C33. *)
From Verif Require Import Base Meta_Types Names_Model.

(** What a C symbol stands for. *)
Inductive kind :=
| KFunc | KConstructor | KMethod | KClone | KFree | KVtable
| KFuncSum | KConstructorSum | KMethodSum.
(** Kind, module, owning type (empty for functions), and name (empty for clone, free and the like). *)
Record entity := Entity { en_kind : kind; en_mp : str; en_type : str; en_name : str }.

Definition symbol (e : entity) : str :=
  let mp := en_mp e in let o := en_type e in let n := en_name e in
  match en_kind e with
  | KFunc => fn_symbol_name mp n
  | KConstructor => constructor_symbol_name mp o n
  | KMethod => method_symbol_name mp o n
  | KClone => clone_fn_symbol_name mp o
  | KFree => free_fn_symbol_name mp o
  | KVtable => init_callback_vtable_fn_symbol_name mp o
  | KFuncSum => fn_checksum_symbol_name mp n
  | KConstructorSum => constructor_checksum_symbol_name mp o n
  | KMethodSum => method_checksum_symbol_name mp o n
  end.

(** An entity's kind says which of its parts exist. *)
Definition well_formed (e : entity) : Prop :=
  match en_kind e with
  | KFunc | KFuncSum => en_type e = []
  | KClone | KFree | KVtable => en_name e = []
  | _ => True
  end.

Definition occurs (p s : str) : Prop := exists a b, s = a ++ p ++ b.

(** The naming discipline under which symbols are distinct: no underscore in the names of types, and
    no crate whose name looks like the middle of a symbol. *)
Definition disciplined (e : entity) : Prop :=
  ~ In x5f (en_type e) /\
  ~ occurs (S_ "_fn_") (crate_name (en_mp e)) /\ ~ occurs (S_ "_checksum_") (crate_name (en_mp e)).

(** Equal up to the letter case of names and to where in the crate the item is. *)
Definition same_up_to_case (e e' : entity) : Prop :=
  en_kind e = en_kind e' /\ crate_name (en_mp e) = crate_name (en_mp e') /\
  lower (en_type e) = lower (en_type e') /\ lower (en_name e) = lower (en_name e').

(** The symbols a callable of the bindings refers to. *)
Definition called (c : callable) : list str := [c_ffi c; c_checksum_fn c].

(** The module an item was recorded in. *)
Definition item_mp (m : metadata) : str :=
  match m with
  | MFunc f | MConstructor _ f | MMethod _ f | MTraitMethod _ _ f => f_mp f
  | MObject o => o_mp o
  | MCallback mp _ _ => mp
  | _ => []
  end.
