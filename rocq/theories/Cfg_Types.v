(** Rust sources with attributes, and what the source-reading front end (uniffi_parse_rs) makes of them.
    uniffi_parse_rs/src/compile_env.rs l.12-17, items.rs l.14-76; the attributes and items are those of
    the parser library (syn), cut down to what conditional compilation can change.
    Simplifications: the path of an attribute is one string ([uniffi::export]); the arguments of a list
    are attributes again (syn fails otherwise); types, bodies and visibilities are left out. *)
From Verif Require Import Base Meta_Types.

(** An attribute without its brackets: [name], [name = value], [name(a, b)]. *)
Inductive mval := Vstr (s : str) | Vother.
Inductive meta :=
| MWord (n : str)
| MVal (n : str) (v : mval)
| MList (n : str) (l : list meta).
Definition mname (m : meta) : str := match m with MWord n | MVal n _ | MList n _ => n end.

(** The environment sources are read for: features of the crate, and the target as the library that
    parses target triples describes it: names of architecture, system, environment and vendor; byte
    order ([Some true] for little) and width of pointers, when known. *)
Record env := Env {
  e_features : list str; e_arch : str; e_os : str; e_env : str; e_vendor : str;
  e_little : option bool; e_width : option str }.

(** Declarations. Arguments, fields and variants carry attributes too. *)
Record part := Part { p_attrs : list meta; p_name : str }.
Record func := Func { f_attrs : list meta; f_name : str; f_args : list part }.
Record variant := Variant { v_attrs : list meta; v_name : str; v_fields : list part }.
Inductive mac := McCustom | McScaffolding | McOther.
Inductive decl :=
| DFn (f : func)
| DStruct (a : list meta) (n : str) (fields : list part)
| DEnum (a : list meta) (n : str) (vs : list variant)
| DTrait (a : list meta) (n : str) (fs : list func)
(* [cb]: an implementation of [From<UnexpectedUniFFICallbackError>] *)
| DImpl (a : list meta) (cb : bool) (n : str) (fs : list func)
(* [inner]: the attributes at the head of the file, for a module in a file of its own *)
| DMod (a : list meta) (inner : option (list meta)) (n : str) (ds : list decl)
| DUse (a : list meta) (n : str)
| DType (a : list meta) (n : str)
| DMacro (a : list meta) (m : mac) (n : str).

(** What is kept of them. The attributes that remain after conditional compilation are kept with each
    item: names, documentation and defaults are read from those. *)
Record xpart := XPart { xp_metas : list meta; xp_name : str }.
Record xfunc := XFunc { xf_metas : list meta; xf_name : str; xf_args : list str }.
Record xvariant := XVariant { xv_metas : list meta; xv_name : str; xv_fields : list xpart }.
Inductive out :=
| XFn (f : xfunc)
| XRecord (a : list meta) (n : str) (fs : list xpart)
| XObject (a : list meta) (n : str)
| XEnum (a : list meta) (err : bool) (n : str) (vs : list xvariant)
| XTrait (a : list meta) (n : str) (fs : list xfunc)
| XImpl (a : list meta) (n : str) (ctors : list xfunc) (fs : list xfunc)
| XCallbackError (n : str)
| XCustom (n : str)
| XScaffolding (n : str)
| XMod (docs : list meta) (n : str) (xs : list out)
| XOther (n : str)                   (* a type without any of UniFFI's derives *)
| XUse (n : str)
| XType (n : str).

Section Meta_ind.
  Variable P : meta -> Prop.
  Hypothesis HW : forall n, P (MWord n).
  Hypothesis HV : forall n v, P (MVal n v).
  Hypothesis HL : forall n l, Forall P l -> P (MList n l).
  Fixpoint meta_ind' (m : meta) : P m :=
    match m with
    | MWord n => HW n
    | MVal n v => HV n v
    | MList n l => HL n l ((fix go l := match l return Forall P l with
        | [] => Forall_nil _ | x :: l => Forall_cons _ (meta_ind' x) (go l) end) l)
    end.
End Meta_ind.
Section Decl_ind.
  Variable P : decl -> Prop.
  Hypothesis HMod : forall a i n ds, Forall P ds -> P (DMod a i n ds).
  Hypothesis HRest : forall d, match d with DMod _ _ _ _ => False | _ => True end -> P d.
  Fixpoint decl_ind' (d : decl) : P d :=
    match d with
    | DMod a i n ds => HMod a i n ds ((fix go l := match l return Forall P l with
        | [] => Forall_nil _ | x :: l => Forall_cons _ (decl_ind' x) (go l) end) ds)
    | d => HRest d ltac:(exact I)
    end.
End Decl_ind.
