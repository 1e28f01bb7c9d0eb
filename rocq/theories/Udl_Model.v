(** Model of the reading of UDL files: uniffi_udl/src/{attributes,collectors,finder,resolver}.rs and
    uniffi_udl/src/converters/*.rs.  Simplifications: errors are without their messages; the set of items is
    a list, with neither its order nor the dropping of equal ones. *)
From Verif Require Import Base Meta_Types Lit_Spec Udl_Types.

(** [anyhow::Result], and panics. *)
Inductive ures (A : Type) := UOk (a : A) | UErr | UPanic.
Arguments UOk {A}. Arguments UErr {A}. Arguments UPanic {A}.
Definition ubind {A B} (x : ures A) (f : A -> ures B) : ures B :=
  match x with UOk a => f a | UErr => UErr | UPanic => UPanic end.
Notation "'let?' x := e 'in' f" := (ubind e (fun x => f)) (at level 200, x name, right associativity).
Definition of_opt {A} (x : option A) : ures A := match x with Some a => UOk a | None => UErr end.
Definition bail_if (b : bool) : ures unit := if b then UErr else UOk tt.
(** converters/mod.rs l.39-44: [collect::<Result<_>>]. *)
Fixpoint map_u {A B} (f : A -> ures B) (l : list A) : ures (list B) :=
  match l with
  | [] => UOk []
  | a :: r => let? b := f a in let? bs := map_u f r in UOk (b :: bs)
  end.
(** A [match] on a string. *)
Fixpoint find_str {A} (x : str) (l : list (str * A)) : option A :=
  match l with
  | [] => None
  | (y, a) :: r => if bytes_eqb x y then Some a else find_str x r
  end.
Definition word_is (w : string) (x : str) : bool := bytes_eqb x (S_ w).

(** *** attributes.rs *)
(** l.25-46 [Attribute]. *)
Inductive attr :=
| AtByRef | AtByMutRef | AtEnum | AtError | AtName (x : str) | AtSelfByArc | AtThrows (x : str)
| AtTraits (l : list str) | AtExternal (c : str) | AtRemote | AtCustom (c : option str) | AtTrait | AtWithForeign
| AtAsync | AtNonExhaustive.
(** l.66-78. *)
Definition no_args : list (str * attr) :=
  [(S_ "ByRef", AtByRef); (S_ "ByMutRef", AtByMutRef); (S_ "Enum", AtEnum); (S_ "Error", AtError);
   (S_ "Custom", AtCustom None); (S_ "Trait", AtTrait); (S_ "WithForeign", AtWithForeign); (S_ "Async", AtAsync);
   (S_ "NonExhaustive", AtNonExhaustive); (S_ "Remote", AtRemote)].
(** l.80-97, l.584-597 [SelfType::try_from]. *)
Definition with_value (y : str) (quoted : bool) : list (str * ures attr) :=
  [(S_ "Name", UOk (AtName y)); (S_ "Throws", UOk (AtThrows y));
   (S_ "Self", if negb quoted && word_is "ByArc" y then UOk AtSelfByArc else UErr);
   (S_ "External", UOk (AtExternal y)); (S_ "Custom", UOk (AtCustom (Some y)))].
(** l.59-117 [Attribute::try_from]. *)
Definition parse_attr (w : wattr) : ures attr :=
  match w with
  | ANoArgs x => of_opt (find_str x no_args)
  | AIs x y q => let? r := of_opt (find_str x (with_value y q)) in r
  | AList x l => if word_is "Traits" x then UOk (AtTraits l) else UErr
  | AOther => UErr
  end.
(** Equality of weedle's attributes, which are compared as they are written. *)
Fixpoint strs_eqb (a b : list str) : bool :=
  match a, b with [], [] => true | x :: a', y :: b' => bytes_eqb x y && strs_eqb a' b' | _, _ => false end.
Definition wattr_eqb (a b : wattr) : bool :=
  match a, b with
  | ANoArgs x, ANoArgs y => bytes_eqb x y
  | AIs x y q, AIs x' y' q' => bytes_eqb x x' && bytes_eqb y y' && Bool.eqb q q'
  | AList x l, AList x' l' => bytes_eqb x x' && strs_eqb l l'
  | AOther, AOther => true
  | _, _ => false
  end.
Fixpoint duplicated (l : list wattr) : bool :=
  match l with [] => false | a :: r => existsb (wattr_eqb a) r || duplicated r end.
(** l.125-152 [parse_attributes]; no list is no attributes (l.190-199 and others). *)
Definition parse_attributes (ok : attr -> bool) (a : wattrs) : ures (list attr) :=
  match a with
  | None => UOk []
  | Some l =>
      let? _ := bail_if (duplicated l) in
      let? r := map_u parse_attr l in
      let? _ := bail_if (negb (forallb ok r)) in UOk r
  end.
Definition is_remote (a : attr) := match a with AtRemote => true | _ => false end.
Definition is_error (a : attr) := match a with AtError => true | _ => false end.
Definition is_enum (a : attr) := match a with AtEnum => true | _ => false end.
Definition is_trait (a : attr) := match a with AtTrait => true | _ => false end.
Definition is_foreign (a : attr) := match a with AtWithForeign => true | _ => false end.
Definition is_traits (a : attr) := match a with AtTraits _ => true | _ => false end.
Definition is_non_exhaustive (a : attr) := match a with AtNonExhaustive => true | _ => false end.
Definition is_async (a : attr) := match a with AtAsync => true | _ => false end.
Definition is_by_ref (a : attr) := match a with AtByRef => true | _ => false end.
Definition is_by_mut_ref (a : attr) := match a with AtByMutRef => true | _ => false end.
Definition is_by_arc (a : attr) := match a with AtSelfByArc => true | _ => false end.
Definition is_custom_attr (a : attr) := match a with AtCustom _ => true | _ => false end.
Definition has := @existsb attr.
(** [find_map]. *)
Fixpoint find_map {A} (f : attr -> option A) (l : list attr) : option A :=
  match l with [] => None | a :: r => match f a with Some x => Some x | None => find_map f r end end.
(** l.165-173, l.221-229, l.411-419 [get_uniffi_traits], [get_traits]. *)
Definition get_traits (l : list attr) : list str :=
  match find_map (fun a => match a with AtTraits x => Some x | _ => None end) l with Some x => x | None => [] end.
(** l.270-277 and others [get_throws_err]. *)
Definition get_throws : list attr -> option str := find_map (fun a => match a with AtThrows x => Some x | _ => None end).
(** l.490-495 [get_name]. *)
Definition get_name : list attr -> option str := find_map (fun a => match a with AtName x => Some x | _ => None end).
(** l.606-615 [get_crate_name]. *)
Definition get_crate_name : list attr -> option str :=
  find_map (fun a => match a with AtExternal x | AtCustom (Some x) => Some x | _ => None end).
(** l.176-188. *)
Definition dict_attrs := parse_attributes (fun a => match a with AtRemote | AtTraits _ => true | _ => false end).
(** l.232-249. *)
Definition enum_attrs := parse_attributes (fun a => match a with
  | AtError | AtNonExhaustive | AtRemote | AtEnum | AtTraits _ => true | _ => false end).
(** l.290-301. *)
Definition fn_attrs := parse_attributes (fun a => match a with AtThrows _ | AtAsync => true | _ => false end).
(** l.344-360. *)
Definition arg_attrs (a : wattrs) : ures (list attr) :=
  let? l := parse_attributes (fun a => match a with AtByRef | AtByMutRef => true | _ => false end) a in
  let? _ := bail_if (has is_by_ref l && has is_by_mut_ref l) in UOk l.
(** l.333-341 [pass_by]. *)
Definition pass_by_of (l : list attr) : pass_by :=
  if has is_by_mut_ref l then ByMutRef else if has is_by_ref l then ByRef else ByValue.
(** l.422-453. *)
Definition iface_attrs (a : wattrs) : ures (list attr) :=
  let? l := parse_attributes (fun a => match a with
    | AtEnum | AtError | AtTrait | AtWithForeign | AtTraits _ | AtRemote => true | _ => false end) a in
  let? _ := bail_if (has is_enum l && negb (Nat.eqb (length l) 1 || has (fun a => is_traits a || is_remote a) l)) in
  let? _ := bail_if (has is_remote l && has is_foreign l) in UOk l.
(** l.401-410 [object_impl]. *)
Definition object_impl (l : list attr) : ures obj_impl :=
  match has is_trait l, has is_foreign l with
  | true, true => UOk (ITrait Both)
  | true, false => UOk (ITrait RustOnly)
  | false, false => UOk IStruct
  | false, true => UErr
  end.
(** l.502-515. *)
Definition cons_attrs := parse_attributes (fun a => match a with AtThrows _ | AtName _ | AtAsync => true | _ => false end).
(** l.551-562. *)
Definition method_attrs := parse_attributes (fun a => match a with
  | AtSelfByArc | AtThrows _ | AtAsync => true | _ => false end).
(** l.624-638. *)
Definition typedef_attrs_of (a : wattrs) : ures (list attr) :=
  let? l := parse_attributes (fun a => match a with AtExternal _ | AtCustom _ => true | _ => false end) a in
  let? _ := bail_if (Nat.ltb 1 (length l)) in UOk l.

(** *** Types *)
(** collectors.rs l.223-232 [TypeCollector]: the types by their names. *)
Notation tmap := (list (str * ty)).
(** resolver.rs l.196-214 [resolve_builtin_type]. *)
Definition builtin_types : list (str * ty) :=
  [(S_ "string", TString); (S_ "bytes", TBytes); (S_ "u8", TU8); (S_ "i8", TI8); (S_ "u16", TU16); (S_ "i16", TI16);
   (S_ "u32", TU32); (S_ "i32", TI32); (S_ "u64", TU64); (S_ "i64", TI64); (S_ "f32", TF32); (S_ "f64", TF64);
   (S_ "timestamp", TTimestamp); (S_ "duration", TDuration)].
(** resolver.rs l.37-193 [resolve_type_expression]. *)
Fixpoint resolve (m : tmap) (t : wty) : ures ty :=
  match t with
  | WId x => match find_str x builtin_types with Some T => UOk T | None => of_opt (find_str x m) end
  | WBool => UOk TBool
  | WFloat u => if u then UErr else UOk TF32
  | WDouble u => if u then UErr else UOk TF64
  | WSeq t => let? T := resolve m t in UOk (TSeq T)
  | WMap k v =>
      let? K := match k with WDom => UOk TString | _ => resolve m k end in
      let? V := resolve m v in UOk (TMap K V)
  | WNull t => let? T := resolve m t in UOk (TOption T)
  | WDom | WError | WBad => UErr
  end.
(** An identifier, with or without a question mark. *)
Definition ident_of (t : wty) : option str :=
  match t with WId x | WNull (WId x) => Some x | _ => None end.
(** collectors.rs l.109-126 [resolve_return_type_expression]. *)
Definition resolve_ret (m : tmap) (r : wret) : ures (option ty) :=
  match r with
  | RUndefined => UOk None
  | RType t =>
      if match ident_of t with Some x => word_is "void" x | None => false end then UOk None
      else let? T := resolve m t in UOk (Some T)
  end.

(** *** finder.rs *)
(** collectors.rs l.250-275 [add_type_definition]. *)
Definition add_type (x : str) (T : ty) (m : tmap) : ures tmap :=
  match find_str x m with
  | Some U => if ty_eqb T U && match T with TRecord _ _ | TEnum _ _ => true | _ => false end then UOk m else UErr
  | None => UOk ((x, T) :: m)
  end.
(** finder.rs l.138-198: types of elsewhere. *)
Definition outside (mp x : str) : list (str * ty) :=
  [(S_ "dictionary", TRecord mp x); (S_ "record", TRecord mp x); (S_ "struct", TRecord mp x); (S_ "enum", TEnum mp x);
   (S_ "interface", TObject mp x IStruct); (S_ "impl", TObject mp x IStruct); (S_ "trait", TObject mp x (ITrait RustOnly));
   (S_ "callback", TObject mp x (ITrait Both)); (S_ "trait_with_foreign", TObject mp x (ITrait Both))].
Definition or_crate (c : str) (o : option str) : str := match o with Some x => x | None => c end.
Definition find_def (c : str) (d : def) (m : tmap) : ures tmap :=
  match d with
  (* l.84-110 *)
  | DIface a x _ _ _ =>
      let? l := iface_attrs a in
      if has is_enum l || has is_error l then add_type x (TEnum c x) m
      else let? i := object_impl l in add_type x (TObject c x i) m
  (* l.112-137 *)
  | DDict _ x _ _ _ => add_type x (TRecord c x) m
  | DEnum _ x _ _ => add_type x (TEnum c x) m
  (* l.139-198 *)
  | DTypedef a t x =>
      let? l := typedef_attrs_of a in
      let mp := or_crate c (get_crate_name l) in
      let? T := if has is_custom_attr l then let? b := resolve m t in UOk (TCustom mp x b)
                else let? w := of_opt (ident_of t) in of_opt (find_str w (outside mp x)) in
      add_type x T m
  (* l.200-214 *)
  | DCallback a x _ _ _ =>
      match a with Some _ => UErr | None => add_type x (TCallback c x) m end
  | DNamespace _ _ _ _ | DOther => UOk m
  end.
(** finder.rs l.63-70. *)
Fixpoint find_defs (c : str) (l : list def) (m : tmap) : ures tmap :=
  match l with
  | [] => UOk m
  | d :: r => let? m' := find_def c d m in find_defs c r m'
  end.

Section Convert.
  (** The crate's name, [literal::convert_default_value] (C53), [convert_docstring] (C54), the types found. *)
  Variable c : str.
  Variable lit : udl -> ty -> option literal.
  Variable docstring : str -> str.
  Variable m : tmap.

  (** *** converters/callables.rs *)
  Definition conv_default (d : option udl) (T : ty) : ures (option default) :=
    match d with
    | None => UOk None
    | Some u => let? v := of_opt (lit u T) in UOk (Some (DLit v))
    end.
  (** l.29-55: fields of variants. *)
  Definition conv_vfield (a : warg) : ures field :=
    match a with
    | WArg at_ _ t x d =>
        let? T := resolve m t in
        let? _ := bail_if (match d with Some _ => true | None => false end) in
        let? _ := bail_if (match at_ with Some _ => true | None => false end) in
        UOk (Field x None T None None)
    | WVariadic => UErr
    end.
  (** l.57-85: arguments. *)
  Definition conv_arg (a : warg) : ures (param * bool) :=
    match a with
    | WArg at_ o t x d =>
        let? T := resolve m t in
        let? D := conv_default d T in
        let? l := arg_attrs at_ in
        UOk (Param x T (pass_by_of l) D, o)
    | WVariadic => UErr
    end.
  (** l.22-27 [reject_async_by_mut_ref]. *)
  Definition reject_async_by_mut_ref (async : bool) (ins : list (param * bool)) : ures unit :=
    bail_if (async && existsb (fun p => match p_pass (fst p) with ByMutRef => true | _ => false end) ins).
  Definition conv_throws (l : list attr) : ures (option ty) :=
    match get_throws l with
    | None => UOk None
    | Some e => let? T := of_opt (find_str e m) in UOk (Some T)
    end.
  (** l.96-126: functions. *)
  Definition conv_fn (o : wop) : ures ufn :=
    let? r := resolve_ret m (op_ret o) in
    let? x := of_opt (op_name o) in
    let? l := fn_attrs (op_attrs o) in
    let? t := conv_throws l in
    let? ins := map_u conv_arg (op_args o) in
    let? _ := reject_async_by_mut_ref (has is_async l) ins in
    UOk (UFn x (has is_async l) ins r t (option_map docstring (op_doc o))).
  (** l.87-94. *)
  Definition conv_ns_member (b : member) : ures ufn :=
    match b with MemOp o => conv_fn o | _ => UErr end.
  (** l.128-154: constructors; an unknown error is a panic. *)
  Definition conv_cons (a : wattrs) (args : list warg) (doc : option str) : ures ufn :=
    let? l := cons_attrs a in
    let? t := match get_throws l with
              | None => UOk None
              | Some e => match find_str e m with Some T => UOk (Some T) | None => UPanic end
              end in
    let? ins := map_u conv_arg args in
    let? _ := reject_async_by_mut_ref (has is_async l) ins in
    UOk (UFn (match get_name l with Some x => x | None => S_ "new" end) (has is_async l) ins None t
      (option_map docstring doc)).
  (** l.156-204 and l.206-254: methods of interfaces and of callback interfaces; whether they take [Arc<Self>]. *)
  Definition conv_method (o : wop) : ures (ufn * bool) :=
    let? _ := bail_if (op_special o) in
    let? _ := bail_if (match op_modifier o with Some _ => true | None => false end) in
    let? r := resolve_ret m (op_ret o) in
    let? l := method_attrs (op_attrs o) in
    let? t := conv_throws l in
    let? x := of_opt (op_name o) in
    let? _ := bail_if (word_is "new" x) in
    let? ins := map_u conv_arg (op_args o) in
    let? _ := reject_async_by_mut_ref (has is_async l) ins in
    UOk (UFn x (has is_async l) ins r t (option_map docstring (op_doc o)), has is_by_arc l).

  (** *** converters/mod.rs *)
  (** l.46-93: variants of enums that are written as interfaces. *)
  Definition conv_variant (b : member) : ures variant :=
    match b with
    | MemOp o =>
        let? _ := bail_if (op_special o) in
        let? _ := bail_if (match op_modifier o with Some Stringifier => true | _ => false end) in
        let? _ := bail_if (match op_name o with Some _ => true | None => false end) in
        let? x := match op_ret o with
                  | RType WError => UOk (S_ "Error")
                  | RType t => of_opt (ident_of t)
                  | RUndefined => UErr
                  end in
        let? fs := map_u conv_vfield (op_args o) in
        UOk (Variant x None None fs (option_map docstring (op_doc o)))
    | _ => UErr
    end.
  (** l.185-266 [make_uniffi_traits] and the same table in interface.rs l.21-144. *)
  Definition trait_method (x : string) (ins : list (param * bool)) (r : ty) : ufn := UFn (S_ x) false ins (Some r) None None.
  Definition other_arg (t : ty) : list (param * bool) := [(Param (S_ "other") t ByRef None, false)].
  Definition make_trait (t : ty) (k : str) : ures (list ufn) :=
    of_opt (find_str k
      [(S_ "Debug", [trait_method "uniffi_trait_debug" [] TString]);
       (S_ "Display", [trait_method "uniffi_trait_display" [] TString]);
       (S_ "Eq", [trait_method "uniffi_trait_eq_eq" (other_arg t) TBool; trait_method "uniffi_trait_eq_ne" (other_arg t) TBool]);
       (S_ "Hash", [trait_method "uniffi_trait_hash" [] TU64]);
       (S_ "Ord", [trait_method "uniffi_trait_ord_cmp" (other_arg t) TI8])]).
  Definition make_traits (self : str) (t : ty) (ks : list str) : ures (list uitem) :=
    map_u (fun k => let? fs := make_trait t k in UOk (ITraitOf self k fs)) ks.
  (** l.125-145: fields of dictionaries. *)
  Definition conv_field (f : wfield) : ures field :=
    let? _ := bail_if (match wf_attrs f with Some _ => true | None => false end) in
    let? T := resolve m (wf_ty f) in
    let? D := conv_default (wf_default f) T in
    UOk (Field (wf_name f) None T D (option_map docstring (wf_doc f))).
  (** l.95-123: dictionaries. *)
  Definition conv_dict (a : wattrs) (x : str) (inherits : bool) (doc : option str) (fs : list wfield) : ures (list uitem) :=
    let? l := dict_attrs a in
    let? _ := bail_if inherits in
    let? ts := make_traits x (TRecord c x) (get_traits l) in
    let? gs := map_u conv_field fs in
    UOk (ts ++ [IRecord x (has is_remote l) gs (option_map docstring doc)]).
  (** l.147-183: callback interfaces. *)
  Fixpoint conv_callback_members (x : str) (i : nat) (ms : list member) : ures (list uitem) :=
    match ms with
    | [] => UOk []
    | MemOp o :: r =>
        let? f := conv_method o in
        let? fs := conv_callback_members x (S i) r in UOk (ITraitMethod x i (fst f) (snd f) :: fs)
    | _ :: _ => UErr
    end.
  Definition conv_callback (a : wattrs) (x : str) (inherits : bool) (doc : option str) (ms : list member) : ures (list uitem) :=
    let? _ := bail_if (match a with Some _ => true | None => false end) in
    let? _ := bail_if inherits in
    let? fs := conv_callback_members x 0 ms in
    UOk (fs ++ [ICallback x (option_map docstring doc)]).

  (** *** converters/enum_.rs *)
  (** l.14-48. *)
  Definition conv_enum (a : wattrs) (x : str) (doc : option str) (vs : list (str * option str)) : ures (list uitem) :=
    let? l := enum_attrs a in
    UOk [IEnum x (if has is_error l then ShError true else ShEnum) (has is_remote l)
      (map (fun v => Variant (fst v) None None [] (option_map docstring (snd v))) vs)
      (has is_non_exhaustive l) (option_map docstring doc)].
  (** l.50-99. *)
  Definition conv_enum_iface (a : wattrs) (x : str) (inherits : bool) (doc : option str) (ms : list member) : ures (list uitem) :=
    let? _ := bail_if inherits in
    let? l := enum_attrs a in
    let? ts := make_traits x (TEnum c x) (get_traits l) in
    let? vs := map_u conv_variant ms in
    UOk (ts ++ [IEnum x (if has is_error l then ShError false else ShEnum) (has is_remote l) vs
      (has is_non_exhaustive l) (option_map docstring doc)]).

  (** *** converters/interface.rs l.15-158 *)
  Fixpoint conv_members (x : str) (imp : obj_impl) (names : list str) (ms : list member) : ures (list uitem) :=
    match ms with
    | [] => UOk []
    | MemCons a args doc :: r =>
        let? f := conv_cons a args doc in
        let? _ := bail_if (match imp with ITrait _ => true | IStruct => false end) in
        let? _ := bail_if (existsb (bytes_eqb (u_name f)) names) in
        let? fs := conv_members x imp (u_name f :: names) r in UOk (ICons x f :: fs)
    | MemOp o :: r =>
        let? f := conv_method o in
        let? _ := bail_if (existsb (bytes_eqb (u_name (fst f))) names) in
        let? fs := conv_members x imp (u_name (fst f) :: names) r in UOk (IMethod x (fst f) (snd f) :: fs)
    | MemOther :: _ => UErr
    end.
  Definition conv_object (a : wattrs) (x : str) (inherits : bool) (doc : option str) (ms : list member) : ures (list uitem) :=
    let? _ := bail_if inherits in
    let? l := iface_attrs a in
    let? imp := object_impl l in
    let? fs := conv_members x imp [] ms in
    let? ts := make_traits x (TObject c x imp) (get_traits l) in
    UOk (fs ++ ts ++ [IObject x imp (has is_remote l) (option_map docstring doc)]).

  (** *** collectors.rs l.160-220 [process]; [ns] is the first namespace's name *)
  Definition process (ns : str) (d : def) : ures (list uitem) :=
    match d with
    | DNamespace a x _ ms =>
        let? _ := bail_if (match a with Some _ => true | None => false end) in
        let? _ := bail_if (negb (bytes_eqb x ns)) in
        let? fs := map_u conv_ns_member ms in UOk (map IFunc fs)
    | DEnum a x doc vs => conv_enum a x doc vs
    | DDict a x i doc fs => conv_dict a x i doc fs
    | DIface a x i doc ms =>
        let? l := iface_attrs a in
        if has is_enum l || has is_error l then conv_enum_iface a x i doc ms else conv_object a x i doc ms
    | DCallback a x i doc ms => conv_callback a x i doc ms
    | DTypedef _ _ _ => UOk []
    | DOther => UErr
    end.
  Definition process_all (ns : str) (ds : list def) : ures (list uitem) :=
    let? l := map_u (process ns) ds in UOk (concat l).
End Convert.

(** collectors.rs l.76-83 [find_namespace]. *)
Fixpoint find_namespace (ds : list def) : option str :=
  match ds with
  | [] => None
  | DNamespace _ x _ _ :: _ => Some x
  | _ :: r => find_namespace r
  end.
(** l.214: each namespace sets the docstring. *)
Definition namespace_doc (docstring : str -> str) (ds : list def) : option str :=
  fold_left (fun o d => match d with DNamespace _ _ doc _ => option_map docstring doc | _ => o end) ds None.
(** l.54-72. *)
Definition custom_items (m : tmap) : list uitem :=
  concat (map (fun e => match snd e with TCustom mp x b => [ICustom mp x b] | _ => [] end) m).
(** l.29-74 [from_webidl], l.136-149, after the parse. *)
Definition read_udl (c : str) (lit : udl -> ty -> option literal) (docstring : str -> str) (ds : list def) : ures group :=
  let? ns := of_opt (find_namespace ds) in
  let? m := find_defs c ds [] in
  let? l := process_all c lit docstring m ns ds in
  UOk (Group ns (namespace_doc docstring ds) (l ++ custom_items m)).
