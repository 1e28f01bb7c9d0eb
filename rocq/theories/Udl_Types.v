(** UDL files as the parser (weedle2) gives them, and the metadata that is made of them.
    Simplifications: punctuation is left out; forms that no conversion looks into are one constructor
    ([AOther], [WBad], [MemOther], [DOther]); types with attributes are [WBad]. *)
From Verif Require Import Base Meta_Types Lit_Spec.

(** weedle2/src/attribute.rs l.11-58. *)
Inductive wattr :=
| ANoArgs (x : str)                      (* [Async] *)
| AIs (x y : str) (quoted : bool)        (* [Throws=E], [External="c"] *)
| AList (x : str) (l : list str)         (* [Traits=(Debug, Eq)] *)
| AOther.
(** An attribute list, if there is one. *)
Definition wattrs := option (list wattr).
(** weedle2/src/types.rs. *)
Inductive wty :=
| WId (x : str) | WBool | WFloat (unrestricted : bool) | WDouble (unrestricted : bool)
| WDom                                   (* [DOMString] *)
| WError                                 (* [Error] *)
| WSeq (t : wty) | WMap (k v : wty)
| WNull (t : wty)                        (* [t?] *)
| WBad.
Inductive wret := RUndefined | RType (t : wty).
(** weedle2/src/argument.rs. *)
Inductive warg :=
| WArg (a : wattrs) (optional : bool) (t : wty) (x : str) (d : option udl)
| WVariadic.
Inductive modifier := Stringifier | Static.
(** weedle2/src/interface.rs l.43-62, namespace.rs: operations of interfaces and namespaces. *)
Record wop := WOp {
  op_attrs : wattrs; op_modifier : option modifier; op_special : bool; op_ret : wret; op_name : option str;
  op_args : list warg; op_doc : option str }.
Inductive member :=
| MemCons (a : wattrs) (args : list warg) (doc : option str)
| MemOp (o : wop)
| MemOther.
(** weedle2/src/dictionary.rs. *)
Record wfield := WField { wf_attrs : wattrs; wf_ty : wty; wf_name : str; wf_default : option udl; wf_doc : option str }.
(** weedle2/src/lib.rs [Definition]; [inherits]: whether there is an inheritance. *)
Inductive def :=
| DNamespace (a : wattrs) (x : str) (doc : option str) (ms : list member)
| DEnum (a : wattrs) (x : str) (doc : option str) (vs : list (str * option str))
| DDict (a : wattrs) (x : str) (inherits : bool) (doc : option str) (fs : list wfield)
| DIface (a : wattrs) (x : str) (inherits : bool) (doc : option str) (ms : list member)
| DCallback (a : wattrs) (x : str) (inherits : bool) (doc : option str) (ms : list member)
| DTypedef (a : wattrs) (t : wty) (x : str)
| DOther.

(** *** Metadata: uniffi_meta/src/lib.rs l.139-236, l.334-466, with what only UDL files say ([optional],
    [remote], [takes_self_by_arc]).  The module path is the crate's name but for custom types. *)
Record ufn := UFn {
  u_name : str; u_async : bool; u_inputs : list (param * bool); u_ret : option ty; u_throws : option ty;
  u_doc : option str }.
Inductive uitem :=
| IFunc (f : ufn)
| IObject (x : str) (imp : obj_impl) (remote : bool) (doc : option str)
| ICallback (x : str) (doc : option str)
| IRecord (x : str) (remote : bool) (fs : list field) (doc : option str)
| IEnum (x : str) (sh : shape) (remote : bool) (vs : list variant) (non_exhaustive : bool) (doc : option str)
| ICons (self : str) (f : ufn)
| IMethod (self : str) (f : ufn) (arc : bool)
| ITraitMethod (self : str) (index : nat) (f : ufn) (arc : bool)
| ICustom (mp x : str) (t : ty)
| ITraitOf (self : str) (k : str) (methods : list ufn).
Record group := Group { g_namespace : str; g_doc : option str; g_items : list uitem }.
