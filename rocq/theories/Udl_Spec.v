(** What a UDL file says, definition by definition; no order of definitions, no state, no passes here. *)
From Verif Require Import Base Meta_Types Lit_Spec Udl_Types.

Open Scope string_scope.
(** *** Attributes *)
Definition attrs_of (a : wattrs) : list wattr := match a with Some l => l | None => [] end.
Definition flag (a : wattrs) (x : string) : Prop := In (ANoArgs (S_ x)) (attrs_of a).
Definition is_set (a : wattrs) (x : string) (y : str) : Prop := exists q, In (AIs (S_ x) y q) (attrs_of a).
Definition lists (a : wattrs) (x : string) (l : list str) : Prop := In (AList (S_ x) l) (attrs_of a).
Definition word (l : list string) (w : wattr) : Prop := exists x, In x l /\ w = ANoArgs (S_ x).
Definition assigns (l : list string) (w : wattr) : Prop := exists x y q, In x l /\ w = AIs (S_ x) y q.
Definition traits_attr (w : wattr) : Prop := exists l, w = AList (S_ "Traits") l.
(** Which attributes are for which definitions. *)
Definition fn_attr (w : wattr) : Prop := word ["Async"] w \/ assigns ["Throws"] w.
Definition cons_attr (w : wattr) : Prop := word ["Async"] w \/ assigns ["Throws"; "Name"] w.
Definition by_arc : wattr := AIs (S_ "Self") (S_ "ByArc") false.
Definition method_attr (w : wattr) : Prop := word ["Async"] w \/ assigns ["Throws"] w \/ w = by_arc.
Definition arg_attr (w : wattr) : Prop := word ["ByRef"; "ByMutRef"] w.
Definition dict_attr (w : wattr) : Prop := word ["Remote"] w \/ traits_attr w.
Definition enum_attr (w : wattr) : Prop := word ["Enum"; "Error"; "NonExhaustive"; "Remote"] w \/ traits_attr w.
Definition iface_enum_attr (w : wattr) : Prop := word ["Enum"; "Error"; "Remote"] w \/ traits_attr w.
Definition iface_attr (w : wattr) : Prop := word ["Trait"; "WithForeign"; "Remote"] w \/ traits_attr w.
(** None twice, all of them for this. *)
Definition only (ok : wattr -> Prop) (a : wattrs) : Prop := NoDup (attrs_of a) /\ Forall ok (attrs_of a).
Definition says_if (b : bool) (P : Prop) : Prop := b = true <-> P.

(** *** Types *)
Definition builtins : list (string * ty) :=
  [("string", TString); ("bytes", TBytes); ("u8", TU8); ("i8", TI8); ("u16", TU16); ("i16", TI16); ("u32", TU32);
   ("i32", TI32); ("u64", TU64); ("i64", TI64); ("f32", TF32); ("f64", TF64); ("timestamp", TTimestamp);
   ("duration", TDuration)].
(** A name, with or without a question mark. *)
Definition named (t : wty) (x : str) : Prop := t = WId x \/ t = WNull (WId x).
Definition def_name (d : def) : option str :=
  match d with
  | DEnum _ x _ _ | DDict _ x _ _ _ | DIface _ x _ _ _ | DCallback _ x _ _ _ | DTypedef _ _ x => Some x
  | DNamespace _ _ _ _ | DOther => None
  end.
Definition is_declared (file : list def) (x : str) : Prop := exists d, In d file /\ def_name d = Some x.
Inductive imp_is (a : wattrs) : obj_impl -> Prop :=
| ii_struct : ~ flag a "Trait" -> ~ flag a "WithForeign" -> imp_is a IStruct
| ii_trait : flag a "Trait" -> ~ flag a "WithForeign" -> imp_is a (ITrait RustOnly)
| ii_both : flag a "Trait" -> flag a "WithForeign" -> imp_is a (ITrait Both).
Definition is_custom (a : wattrs) : Prop := flag a "Custom" \/ exists c, is_set a "Custom" c.
(** Types of elsewhere, by the word that says what they are. *)
Inductive stands_for (mp x : str) : string -> ty -> Prop :=
| sf_record w : In w ["dictionary"; "record"; "struct"] -> stands_for mp x w (TRecord mp x)
| sf_enum : stands_for mp x "enum" (TEnum mp x)
| sf_object w : In w ["interface"; "impl"] -> stands_for mp x w (TObject mp x IStruct)
| sf_trait : stands_for mp x "trait" (TObject mp x (ITrait RustOnly))
| sf_foreign w : In w ["callback"; "trait_with_foreign"] -> stands_for mp x w (TObject mp x (ITrait Both)).

Section Says.
  (** The crate; the values of defaults (C53); docstrings (C54); the file. *)
  Variable c : str.
  Variable value_of : udl -> ty -> option literal.
  Variable doc_of : str -> str.
  Variable file : list def.

  Definition crate_is (a : wattrs) (mp : str) : Prop :=
    is_set a "External" mp \/ is_set a "Custom" mp \/
    ((forall m, ~ is_set a "External" m) /\ (forall m, ~ is_set a "Custom" m) /\ mp = c).
  Definition typedef_attrs (a : wattrs) : Prop :=
    attrs_of a = [] \/ exists w, attrs_of a = [w] /\ (w = ANoArgs (S_ "Custom") \/ assigns ["External"; "Custom"] w).
  Inductive type_is : wty -> ty -> Prop :=
  | ti_own x t : declares x t -> type_is (WId x) t
  | ti_builtin x t : In (x, t) builtins -> ~ is_declared file (S_ x) -> type_is (WId (S_ x)) t
  | ti_bool : type_is WBool TBool
  | ti_float : type_is (WFloat false) TF32
  | ti_double : type_is (WDouble false) TF64
  | ti_seq t T : type_is t T -> type_is (WSeq t) (TSeq T)
  | ti_null t T : type_is t T -> type_is (WNull t) (TOption T)
  | ti_map k K v V : key_is k K -> type_is v V -> type_is (WMap k v) (TMap K V)
  with key_is : wty -> ty -> Prop :=
  | ki_dom : key_is WDom TString
  | ki_type t T : type_is t T -> key_is t T
  with declares : str -> ty -> Prop :=
  | dc_dict a x i doc fs : In (DDict a x i doc fs) file -> declares x (TRecord c x)
  | dc_enum a x doc vs : In (DEnum a x doc vs) file -> declares x (TEnum c x)
  | dc_enum_iface a x i doc ms : In (DIface a x i doc ms) file -> flag a "Enum" \/ flag a "Error" -> declares x (TEnum c x)
  | dc_object a x i doc ms imp : In (DIface a x i doc ms) file -> ~ flag a "Enum" -> ~ flag a "Error" -> imp_is a imp ->
      declares x (TObject c x imp)
  | dc_callback a x i doc ms : In (DCallback a x i doc ms) file -> declares x (TCallback c x)
  | dc_custom a t x mp b : In (DTypedef a t x) file -> typedef_attrs a -> is_custom a -> crate_is a mp -> type_is t b ->
      declares x (TCustom mp x b)
  | dc_outside a t x w mp T : In (DTypedef a t x) file -> typedef_attrs a -> ~ is_custom a -> crate_is a mp ->
      named t (S_ w) -> stands_for mp x w T -> declares x T.

  (** *** Functions, methods and their parts *)
  Inductive default_is (T : ty) : option udl -> option default -> Prop :=
  | di_none : default_is T None None
  | di_some u l : value_of u T = Some l -> default_is T (Some u) (Some (DLit l)).
  Inductive pass_is (a : wattrs) : pass_by -> Prop :=
  | pi_value : ~ flag a "ByRef" -> ~ flag a "ByMutRef" -> pass_is a ByValue
  | pi_ref : flag a "ByRef" -> ~ flag a "ByMutRef" -> pass_is a ByRef
  | pi_mut : ~ flag a "ByRef" -> flag a "ByMutRef" -> pass_is a ByMutRef.
  Inductive arg_is : warg -> param * bool -> Prop :=
  | ai a o t x d T D P : only arg_attr a -> type_is t T -> default_is T d D -> pass_is a P ->
      arg_is (WArg a o t x d) (Param x T P D, o).
  Inductive ret_is : wret -> option ty -> Prop :=
  | ri_undefined : ret_is RUndefined None
  | ri_void t : named t (S_ "void") -> ret_is (RType t) None
  | ri_type t T : ~ named t (S_ "void") -> type_is t T -> ret_is (RType t) (Some T).
  Inductive throws_is (a : wattrs) : option ty -> Prop :=
  | th_nothing : (forall e, ~ is_set a "Throws" e) -> throws_is a None
  | th_error e T : is_set a "Throws" e -> declares e T -> throws_is a (Some T).
  Definition callable (a : wattrs) (r : wret) (args : list warg) (doc : option str) (f : ufn) : Prop :=
    says_if (u_async f) (flag a "Async") /\ throws_is a (u_throws f) /\ ret_is r (u_ret f) /\
    Forall2 arg_is args (u_inputs f) /\ u_doc f = option_map doc_of doc /\
    (u_async f = true -> forall p, In p (u_inputs f) -> p_pass (fst p) <> ByMutRef).
  Definition fn_is (o : wop) (f : ufn) : Prop :=
    op_name o = Some (u_name f) /\ only fn_attr (op_attrs o) /\ callable (op_attrs o) (op_ret o) (op_args o) (op_doc o) f.
  Definition cons_is (a : wattrs) (args : list warg) (doc : option str) (f : ufn) : Prop :=
    only cons_attr a /\ (is_set a "Name" (u_name f) \/ ((forall x, ~ is_set a "Name" x) /\ u_name f = S_ "new")) /\
    callable a RUndefined args doc f.
  Definition method_is (o : wop) (f : ufn) (arc : bool) : Prop :=
    op_special o = false /\ op_modifier o = None /\ op_name o = Some (u_name f) /\ u_name f <> S_ "new" /\
    only method_attr (op_attrs o) /\ says_if arc (In by_arc (attrs_of (op_attrs o))) /\
    callable (op_attrs o) (op_ret o) (op_args o) (op_doc o) f.

  (** *** Records and enums *)
  Inductive field_is : wfield -> field -> Prop :=
  | fi t x d doc T D : type_is t T -> default_is T d D ->
      field_is (WField None t x d doc) (Field x None T D (option_map doc_of doc)).
  Inductive vfield_is : warg -> field -> Prop :=
  | vfi o t x T : type_is t T -> vfield_is (WArg None o t x None) (Field x None T None None).
  (** [Name(type field, …);] is read as an operation without a name that returns [Name]. *)
  Inductive variant_name : wret -> str -> Prop :=
  | vn_name t x : named t x -> variant_name (RType t) x
  | vn_error : variant_name (RType WError) (S_ "Error").
  Definition variant_is (o : wop) (v : variant) : Prop :=
    op_attrs o = None /\ op_modifier o = None /\ op_special o = false /\ op_name o = None /\
    variant_name (op_ret o) (v_name v) /\ v_orig v = None /\ v_discr v = None /\
    Forall2 vfield_is (op_args o) (v_fields v) /\ v_doc v = option_map doc_of (op_doc o).
  Inductive member_variant : member -> variant -> Prop :=
  | mv o v : variant_is o v -> member_variant (MemOp o) v.
  Inductive shape_is (flat : bool) (a : wattrs) : shape -> Prop :=
  | sh_error : flag a "Error" -> shape_is flat a (ShError flat)
  | sh_enum : ~ flag a "Error" -> shape_is flat a ShEnum.
  Definition plain_variant (e : str * option str) : variant := Variant (fst e) None None [] (option_map doc_of (snd e)).

  (** *** Traits that bindings make methods of; they take nothing or another value *)
  Definition trait_fn (x : string) (other : option ty) (r : ty) : ufn :=
    UFn (S_ x) false (match other with Some t => [(Param (S_ "other") t ByRef None, false)] | None => [] end) (Some r) None None.
  Definition traits (t : ty) : list (string * list ufn) :=
    [("Debug", [trait_fn "uniffi_trait_debug" None TString]); ("Display", [trait_fn "uniffi_trait_display" None TString]);
     ("Eq", [trait_fn "uniffi_trait_eq_eq" (Some t) TBool; trait_fn "uniffi_trait_eq_ne" (Some t) TBool]);
     ("Hash", [trait_fn "uniffi_trait_hash" None TU64]); ("Ord", [trait_fn "uniffi_trait_ord_cmp" (Some t) TI8])].
  Definition trait_is (a : wattrs) (t : ty) (k : str) (fs : list ufn) : Prop :=
    exists l w, lists a "Traits" l /\ In k l /\ k = S_ w /\ In (w, fs) (traits t).

  (** *** The file's metadata *)
  Definition docs := option_map doc_of.
  Inductive says : uitem -> Prop :=
  | sy_func x doc ms o f : In (DNamespace None x doc ms) file -> In (MemOp o) ms -> fn_is o f -> says (IFunc f)
  | sy_record a x doc fs r gs : In (DDict a x false doc fs) file -> only dict_attr a -> says_if r (flag a "Remote") ->
      Forall2 field_is fs gs -> says (IRecord x r gs (docs doc))
  | sy_enum a x doc vs sh r ne : In (DEnum a x doc vs) file -> only enum_attr a -> shape_is true a sh ->
      says_if r (flag a "Remote") -> says_if ne (flag a "NonExhaustive") ->
      says (IEnum x sh r (map plain_variant vs) ne (docs doc))
  | sy_enum_iface a x doc ms sh r vs : In (DIface a x false doc ms) file -> only iface_enum_attr a ->
      flag a "Enum" \/ flag a "Error" -> shape_is false a sh -> says_if r (flag a "Remote") ->
      Forall2 member_variant ms vs -> says (IEnum x sh r vs false (docs doc))
  | sy_object a x doc ms imp r : In (DIface a x false doc ms) file -> only iface_attr a -> imp_is a imp ->
      says_if r (flag a "Remote") -> says (IObject x imp r (docs doc))
  | sy_cons a x doc ms b args d f : In (DIface a x false doc ms) file -> only iface_attr a -> In (MemCons b args d) ms ->
      cons_is b args d f -> says (ICons x f)
  | sy_method a x doc ms o f arc : In (DIface a x false doc ms) file -> only iface_attr a -> In (MemOp o) ms ->
      method_is o f arc -> says (IMethod x f arc)
  | sy_callback x doc ms : In (DCallback None x false doc ms) file -> says (ICallback x (docs doc))
  | sy_callback_method x doc ms i o f arc : In (DCallback None x false doc ms) file -> nth_error ms i = Some (MemOp o) ->
      method_is o f arc -> says (ITraitMethod x i f arc)
  | sy_custom x mp b : declares x (TCustom mp x b) -> says (ICustom mp x b)
  | sy_record_trait a x doc fs k ms : In (DDict a x false doc fs) file -> only dict_attr a ->
      trait_is a (TRecord c x) k ms -> says (ITraitOf x k ms)
  | sy_enum_iface_trait a x doc ms k fs : In (DIface a x false doc ms) file -> only iface_enum_attr a ->
      flag a "Enum" \/ flag a "Error" -> trait_is a (TEnum c x) k fs -> says (ITraitOf x k fs)
  | sy_object_trait a x doc ms imp k fs : In (DIface a x false doc ms) file -> only iface_attr a -> imp_is a imp ->
      trait_is a (TObject c x imp) k fs -> says (ITraitOf x k fs)
  | sy_enum_trait a x doc vs k ms : In (DEnum a x doc vs) file -> only enum_attr a ->
      trait_is a (TEnum c x) k ms -> says (ITraitOf x k ms).

  (** *** Nothing of the file is left out: what an API's metadata must hold for a definition *)
  Definition traits_covered (items : list uitem) (a : wattrs) (x : str) : Prop :=
    forall l k, lists a "Traits" l -> In k l -> exists fs, In (ITraitOf x k fs) items.
  Definition covers (items : list uitem) (d : def) : Prop :=
    match d with
    | DNamespace _ _ _ ms => forall b, In b ms -> exists o f, b = MemOp o /\ fn_is o f /\ In (IFunc f) items
    | DDict a x _ doc fs => (exists r gs, Forall2 field_is fs gs /\ In (IRecord x r gs (docs doc)) items) /\ traits_covered items a x
    | DEnum a x doc vs =>
        (exists sh r ne, In (IEnum x sh r (map plain_variant vs) ne (docs doc)) items) /\ traits_covered items a x
    | DIface a x _ doc ms =>
        ((flag a "Enum" \/ flag a "Error") /\ (exists sh r vs, Forall2 member_variant ms vs /\ In (IEnum x sh r vs false (docs doc)) items) \/
         ~ flag a "Enum" /\ ~ flag a "Error" /\ (exists imp r, In (IObject x imp r (docs doc)) items) /\
         forall b, In b ms ->
           (exists c args d f, b = MemCons c args d /\ cons_is c args d f /\ In (ICons x f) items) \/
           (exists o f arc, b = MemOp o /\ method_is o f arc /\ In (IMethod x f arc) items)) /\
        traits_covered items a x
    | DCallback _ x _ doc ms =>
        In (ICallback x (docs doc)) items /\
        forall i b, nth_error ms i = Some b -> exists o f arc, b = MemOp o /\ method_is o f arc /\ In (ITraitMethod x i f arc) items
    | DTypedef a t x => exists T, declares x T /\ (is_custom a -> exists mp b, T = TCustom mp x b /\ In (ICustom mp x b) items)
    | DOther => False
    end.
  Definition namespace_is (x : str) (doc : option str) : Prop :=
    (exists d ms, In (DNamespace None x d ms) file /\ doc = docs d) /\
    forall a y d ms, In (DNamespace a y d ms) file -> y = x.

  (** *** Files that should be accepted *)
  Definition known_traits (a : wattrs) : Prop :=
    forall l k, lists a "Traits" l -> In k l -> exists w, k = S_ w /\ In w ["Debug"; "Display"; "Eq"; "Hash"; "Ord"].
  Inductive member_ok (imp : obj_impl) : member -> str -> Prop :=
  | mo_cons a args d f : imp = IStruct -> cons_is a args d f -> member_ok imp (MemCons a args d) (u_name f)
  | mo_method o f arc : method_is o f arc -> member_ok imp (MemOp o) (u_name f).
  Definition def_ok (d : def) : Prop :=
    match d with
    | DNamespace a _ _ ms => a = None /\ forall b, In b ms -> exists o f, b = MemOp o /\ fn_is o f
    | DDict a x i _ fs => only dict_attr a /\ known_traits a /\ i = false /\ exists gs, Forall2 field_is fs gs
    | DEnum a _ _ _ => only enum_attr a /\ known_traits a
    | DIface a _ i _ ms => i = false /\ known_traits a /\
        (only iface_enum_attr a /\ (flag a "Enum" \/ flag a "Error") /\ ~ (flag a "Enum" /\ flag a "Error") /\
           (exists vs, Forall2 member_variant ms vs) \/
         only iface_attr a /\ ~ (flag a "Remote" /\ flag a "WithForeign") /\
           exists imp names, imp_is a imp /\ Forall2 (member_ok imp) ms names /\ NoDup names)
    | DCallback a _ i _ ms => a = None /\ i = false /\ forall b, In b ms -> exists o f arc, b = MemOp o /\ method_is o f arc
    | DTypedef a t x => typedef_attrs a /\ (is_custom a \/ exists w T, named t (S_ w) /\ stands_for c x w T)
    | DOther => False
    end.
End Says.
(** Names are defined once. *)
Definition legal (c : str) (value_of : udl -> ty -> option literal) (doc_of : str -> str) (file : list def) : Prop :=
  (exists x doc, namespace_is doc_of file x doc) /\
  (forall d, In d file -> def_ok c value_of doc_of file d) /\
  (forall pre d e post x, file = (pre ++ d :: post)%list -> In e post -> def_name d = Some x -> def_name e <> Some x).
Close Scope string_scope.
