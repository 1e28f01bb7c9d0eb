(** Well-formed UDL items, and what their signature is. *)
From Verif Require Import Base Utf8 Meta_Types Meta_Spec Names_Model Csum_Model.
Open Scope Z_scope.

(** All strings are UTF-8, and the integers are [u64]/[i64] values. *)
Fixpoint ty_strings (t : ty) : Prop :=
  match t with
  | TObject mp n _ | TRecord mp n | TEnum mp n | TCallback mp n => utf8 mp /\ utf8 n
  | TBox t | TOption t | TSeq t | TSet t => ty_strings t
  | TMap k v => ty_strings k /\ ty_strings v
  | TCustom mp n t => utf8 mp /\ utf8 n /\ ty_strings t
  | _ => True
  end.
Fixpoint lit_fits (l : literal) : Prop :=
  match l with
  | LString s => utf8 s
  | LUInt z _ t => 0 <= z < 2 ^ 64 /\ ty_strings t
  | LInt z _ t => - 2 ^ 63 <= z < 2 ^ 63 /\ ty_strings t
  | LFloat s t | LEnum s t => utf8 s /\ ty_strings t
  | LSome d => default_fits d
  | _ => True
  end
with default_fits (d : default) : Prop :=
  match d with DDefault => True | DLit l => lit_fits l end.
Definition arg_fits (a : uarg) : Prop :=
  utf8 (p_name (ua_param a)) /\ ty_strings (p_ty (ua_param a)) /\
  opt_all default_fits (p_default (ua_param a)).
Definition ufn_fits (f : ufn) : Prop :=
  utf8 (u_name f) /\ utf8 (u_mp f) /\ utf8 (u_self f) /\
  Forall arg_fits (u_args f) /\ Z.of_nat (length (u_args f)) < 2 ^ 64 /\
  opt_all ty_strings (u_ret f) /\ opt_all ty_strings (u_throws f).

(** The same signature: name, async, arguments (in order: names, types, passing, defaults), return
    type (constructors have none of their own) and error type; for functions and constructors also
    where they belong. *)
Definition same_signature (k : ukind) (f g : ufn) : Prop :=
  u_name f = u_name g /\ u_async f = u_async g /\ u_args f = u_args g /\ u_throws f = u_throws g /\
  match k with
  | UFunc => u_mp f = u_mp g /\ u_ret f = u_ret g
  | UMethod => u_ret f = u_ret g /\ u_by_arc f = u_by_arc g
  | UConstructor => u_mp f = u_mp g /\ u_self f = u_self g
  end.
