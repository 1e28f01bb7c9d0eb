(** The two ways an exported item becomes a description the bindings are generated from: the macros
    of uniffi_macros write metadata into the library, which uniffi_meta reads back; uniffi_parse_rs
    reads the item's source.

    Both start from the parsed item.  Left out: `cfg` (an item is what is left after it, C57), which
    of the attributes and derives are uniffi's (C56), and what the types mean (C60): a type is given
    by its description.  A doc comment is given trimmed: both sides call [trim] on the literal
    (uniffi_macros/src/util.rs l.316, uniffi_parse_rs/src/attrs/docstring.rs l.15). *)
From Verif Require Import Base Utf8 Meta_Types Meta_Model.
Open Scope Z_scope.

(** * Source items *)

(** An identifier; [id_raw] when it is written with `r#`. *)
Record ident := Id { id_name : str; id_raw : bool }.
Definition ident_eqb (a b : ident) : bool :=
  bytes_eqb (id_name a) (id_name b) && Bool.eqb (id_raw a) (id_raw b).
(** syn's [IdentExt::unraw] and [Ident]'s [to_string]. *)
Definition unraw (i : ident) : str := id_name i.
Definition ident_string (i : ident) : str := if id_raw i then [x72; x23] ++ id_name i else id_name i.

(** A default value as written.  [suffix]: the number has a suffix, as in `1u8`.  A float is given by
    its digits without the suffix ([base10_digits]).  [VOther]: any other literal. *)
Inductive dval :=
| VNone | VSome (v : dval) | VEmpty
| VInt (z : Z) (suffix : bool) | VFloat (s : str) (suffix : bool)
| VStr (s : str) | VBool (b : bool) | VOther.

(** The words that stand alone inside an attribute. *)
Inductive flag :=
| GFlat | GTryRead | GHandle | GRust | GForeign | GWithForeign | GCallback | GRemote
| GDebug | GDisplay | GEq | GHash | GOrd | GOther.

(** One of the comma separated pieces of an attribute: `name = "…"`, `default`, `default = …`,
    `default(a = …, b)` (with the comma after the last pair, if any), `async_runtime = "…"`. *)
Inductive arg :=
| AName (s : str)
| ADefault (v : option dval)
| ADefaults (l : list (ident * option dval)) (comma : bool)
| AAsync (s : str)
| AFlag (f : flag).
(** The pieces between the parentheses; [ag_comma]: there is a comma after the last. *)
Record args := Args { ag_list : list arg; ag_comma : bool }.

(** What `repr(…)` lists: an integer type the bindings know, `usize`/`isize`, anything else. *)
Inductive repr := RTy (t : ty) | RSize | ROther.

Inductive attr :=
| AtUniffi (a : args)        (* #[uniffi(…)] *)
| AtUniffiBare               (* #[uniffi] *)
| AtExport (a : option args) (* #[uniffi::export], #[uniffi::export(…)] *)
| AtCtor (a : option args)   (* #[uniffi::constructor] … *)
| AtMethod (a : option args) (* #[uniffi::method] … *)
| AtDoc (s : str)            (* #[doc = "…"], /// … *)
| AtDocExpr                  (* #[doc = include_str!(…)] *)
| AtDocList                  (* #[doc(hidden)] *)
| AtRepr (l : list repr)
| AtNonExhaustive
| AtOther.

Record sfield := SField { sf_id : option ident; sf_attrs : list attr; sf_ty : ty }.
(** A variant's value: a literal number, a negated literal number (not zero), another expression. *)
Inductive dexpr := DxInt (z : Z) | DxNegInt (z : Z) | DxOther.
Record svariant := SVariant {
  sv_id : ident; sv_attrs : list attr; sv_discr : option dexpr; sv_fields : list sfield }.
(** A parameter: the receiver ([arc]: `self: Arc<Self>`), or a pattern (a plain name or not) with a
    type, how it is passed, and whether the type is written with `Self`. *)
Inductive fnarg :=
| FReceiver (arc : bool)
| FTyped (id : option ident) (t : ty) (pb : pass_by) (self : bool).
(** A function, method or constructor; [sn_body]: it has a body (in a trait: a default one). *)
Record sfn := SFn {
  sn_id : ident; sn_attrs : list attr; sn_async : bool; sn_args : list fnarg;
  sn_ret : option ty; sn_throws : option ty; sn_body : bool }.
(** What stands inside an `impl` block or a trait. *)
Inductive member := MbFn (f : sfn) | MbOther.

(** The items with a uniffi derive or `#[uniffi::export]`; [remote]: `#[uniffi::remote(…)]` instead
    of a derive.  An `impl` block: the type's name if it is written as a single identifier, the type it
    means, the trait if any. *)
Inductive item :=
| ItRecord (remote : bool) (id : ident) (attrs : list attr) (fields : list sfield)
| ItEnum (error remote : bool) (id : ident) (attrs : list attr) (variants : list svariant)
| ItObject (remote : bool) (id : ident) (attrs : list attr)
| ItFn (f : sfn)
| ItImpl (id : option ident) (self_ty : ty) (tr : option ty) (attrs : list attr)
         (members : list member)
| ItTrait (id : ident) (attrs : list attr) (members : list member).

(** Where an item is: the module that defines it, the public module it can be named in, and, when it
    gets there by a `pub use`, the name it has there (C59). *)
Record place := Place { pl_here : str; pl_pub : str; pl_as : option str }.

(** ** Shared plumbing *)
Definition bind {A B} (o : option A) (f : A -> option B) : option B :=
  match o with Some x => f x | None => None end.
Notation "x <-- p ;; q" := (bind p (fun x => q)) (at level 61, p at next level, right associativity).
Fixpoint traverse {A B} (f : A -> option B) (l : list A) : option (list B) :=
  match l with
  | [] => Some []
  | x :: r => y <-- f x ;; ys <-- traverse f r ;; Some (y :: ys)
  end.
Definition get_or {A} (o : option A) (d : A) : A := match o with Some x => x | None => d end.
Definition guard (b : bool) : option unit := if b then Some tt else None.

(** * The macros: uniffi_macros/src

    [None]: the macro reports an error, or what it generates does not compile. *)

(** util.rs l.211-221 [either_attribute_arg]. *)
Definition either {A} (a b : option A) : option (option A) :=
  match a, b with
  | Some _, Some _ => None
  | Some x, None | None, Some x => Some (Some x)
  | None, None => Some None
  end.

(** util.rs l.171-174 [parse_comma_separated]: each piece, then [merge] from the left. *)
Fixpoint m_pieces {A} (one : arg -> option A) (merge : A -> A -> option A) (acc : A) (l : list arg)
  : option A :=
  match l with
  | [] => Some acc
  | a :: r => x <-- one a ;; acc' <-- merge acc x ;; m_pieces one merge acc' r
  end.

(** util.rs l.200-209 [parse_uniffi_attr_args]: the `uniffi` attributes are merged. *)
Fixpoint m_uniffi {A} (one : arg -> option A) (merge : A -> A -> option A) (empty acc : A)
    (l : list attr) : option A :=
  match l with
  | [] => Some acc
  | AtUniffi a :: r =>
      x <-- m_pieces one merge empty (ag_list a) ;; acc' <-- merge acc x ;;
      m_uniffi one merge empty acc' r
  | AtUniffiBare :: _ => None
  | _ :: r => m_uniffi one merge empty acc r
  end.

(** record.rs l.22-43 [RecordAttr], object.rs l.23-44 [ObjectAttr], enum_.rs l.468-486
    [VariantAttr]: only `name`. *)
Definition one_name (a : arg) : option (option str) :=
  match a with AName s => Some (Some s) | _ => None end.
Definition m_name (l : list attr) : option (option str) := m_uniffi one_name either None None l.

(** util.rs l.306-326 [extract_docstring]; no text is no documentation: reader.rs l.137-139. *)
Fixpoint m_docs (l : list attr) : option (list str) :=
  match l with
  | [] => Some []
  | AtDoc s :: r => ds <-- m_docs r ;; Some (s :: ds)
  | AtDocExpr :: _ => None
  | _ :: r => m_docs r
  end.
Fixpoint join (l : list str) : str :=
  match l with
  | [] => []
  | [s] => s
  | s :: r => s ++ [x0a] ++ join r
  end.
Definition m_doc (l : list attr) : option (option str) :=
  ds <-- m_docs l ;; Some (match join ds with [] => None | s => Some s end).

(** default.rs l.70-136 [metadata_calls].  Only the digits of a number are written; the reader
    (reader.rs l.579-661) makes it a number of the type, with a custom type unwrapped once. *)
Definition number (t : ty) (z : Z) : literal :=
  match t with
  | TU8 | TU16 | TU32 => LUInt z Decimal_ t
  | TU64 => if z <? 0 then LInt z Decimal_ TI64 else LUInt z Decimal_ TU64
  | _ => LInt z Decimal_ t
  end.
Definition inner_type (t : ty) : ty := match unwrap_custom t with TOption u => u | u => u end.
Fixpoint m_value (t : ty) (v : dval) {struct v} : option literal :=
  match v with
  | VNone => Some LNone
  | VSome v => l <-- m_value (inner_type t) v ;; Some (LSome (DLit l))
  | VEmpty => Some LEmptySeq
  | VInt z suffix => if suffix then None else Some (number (unwrap_custom t) z)
  | VFloat s suffix => if suffix then None else Some (LFloat s (unwrap_custom t))
  | VStr s => Some (LString s)
  | VBool b => Some (LBool b)
  | VOther => None
  end.
Definition m_default (t : ty) (v : option dval) : option default :=
  match v with None => Some DDefault | Some v => l <-- m_value t v ;; Some (DLit l) end.
(** default.rs l.138-149 [default_value_metadata_calls]. *)
Definition m_opt_default (t : ty) (d : option (option dval)) : option (option default) :=
  match d with None => Some None | Some v => x <-- m_default t v ;; Some (Some x) end.

(** record.rs l.154-188 [FieldAttributeArguments]: the default and the name. *)
Definition one_field (a : arg) : option (option (option dval) * option str) :=
  match a with
  | AName s => Some (None, Some s)
  | ADefault v => Some (Some v, None)
  | _ => None
  end.
Definition merge_field (a b : option (option dval) * option str)
  : option (option (option dval) * option str) :=
  d <-- either (fst a) (fst b) ;; n <-- either (snd a) (snd b) ;; Some (d, n).
(** record.rs l.203-229 (fields without a name: [unwrap] l.215 panics) and enum_.rs l.367-391;
    [named]: names are required. *)
Definition m_field (named : bool) (f : sfield) : option field :=
  at_ <-- m_uniffi one_field merge_field (None, None) (None, None) (sf_attrs f) ;;
  _ <-- guard (negb named || match sf_id f with Some _ => true | None => false end) ;;
  doc <-- m_doc (sf_attrs f) ;;
  d <-- m_opt_default (sf_ty f) (fst at_) ;;
  Some (Field (get_or (snd at_) (match sf_id f with Some i => unraw i | None => [] end))
              (match sf_id f, snd at_ with Some i, Some _ => Some (unraw i) | _, _ => None end)
              (sf_ty f) d doc).

(** util.rs l.139-151 [orig_name_metadata]. *)
Definition m_orig (i : ident) (name : option str) : option str :=
  match name with Some _ => Some (unraw i) | None => None end.

(** record.rs l.93-105, l.190-246 [expand_record]. *)
Definition m_record (here : str) (i : ident) (l : list attr) (fs : list sfield)
  : option record_meta :=
  n <-- m_name l ;; doc <-- m_doc l ;; fs' <-- traverse (m_field true) fs ;;
  Some (Rec here (get_or n (unraw i)) (m_orig i n) fs' doc).

(** enum_.rs l.424-460 [EnumAttr]: `flat_error`, `with_try_read` and the name.  Of
    `handle_unknown_callback_error` the word itself is not consumed (l.437-439), so that the comma or
    the end expected after it is not found. *)
Record eargs := EA { ea_flat : option unit; ea_try : option unit; ea_name : option str }.
Definition one_enum (a : arg) : option eargs :=
  match a with
  | AName s => Some (EA None None (Some s))
  | AFlag GFlat => Some (EA (Some tt) None None)
  | AFlag GTryRead => Some (EA None (Some tt) None)
  | _ => None
  end.
Definition merge_enum (a b : eargs) : option eargs :=
  f <-- either (ea_flat a) (ea_flat b) ;; t <-- either (ea_try a) (ea_try b) ;;
  n <-- either (ea_name a) (ea_name b) ;; Some (EA f t n).

(** enum_.rs l.52-74 [extract_repr]: the last one listed wins, and clears what came before if it is
    not an integer type. *)
Definition m_repr (l : list attr) : option repr :=
  fold_left (fun acc a =>
    match a with
    | AtRepr rs => fold_left (fun _ r => match r with ROther => None | _ => Some r end) rs acc
    | _ => acc
    end) l None.
(** enum_.rs l.76-78 [extract_non_exhaustive]. *)
Definition m_non_exhaustive (l : list attr) : bool :=
  existsb (fun a => match a with AtNonExhaustive => true | _ => false end) l.
(** enum_.rs l.303-351 [variant_value]; read as a [u64] if it has no sign (reader.rs l.490,
    l.596-607). *)
Definition m_discr (d : option dexpr) : option (option literal) :=
  match d with
  | None => Some None
  | Some (DxInt z) => Some (Some (number TU64 z))
  | Some (DxNegInt z) => Some (Some (number TU64 (- z)))
  | Some DxOther => None
  end.
(** enum_.rs l.358-411 [variant_metadata]. *)
Definition m_variant (v : svariant) : option variant :=
  fs <-- traverse (m_field false) (sv_fields v) ;;
  n <-- m_name (sv_attrs v) ;; d <-- m_discr (sv_discr v) ;; doc <-- m_doc (sv_attrs v) ;;
  Some (Variant (get_or n (unraw (sv_id v))) (m_orig (sv_id v) n) d fs doc).
(** error.rs l.205-217 [flat_error_variant_metadata]. *)
Definition m_flat_variant (v : svariant) : option variant :=
  n <-- m_name (sv_attrs v) ;; doc <-- m_doc (sv_attrs v) ;;
  Some (Variant (get_or n (unraw (sv_id v))) (m_orig (sv_id v) n) None [] doc).
(** error.rs l.23-34: no arguments are allowed on the fields of an error. *)
Definition no_args (l : list attr) : bool :=
  forallb (fun a => match a with
                    | AtUniffi a => match ag_list a with [] => true | _ => false end
                    | AtUniffiBare => false
                    | _ => true
                    end) l.
(** enum_.rs l.145-165 [expand_enum], l.274-301; error.rs l.16-41, l.173-198.  The integer type of an
    error is not written; `usize` and `isize` are not types of the interface. *)
Definition m_enum (error : bool) (here : str) (i : ident) (l : list attr) (vs : list svariant)
  : option enum_meta :=
  a <-- m_uniffi one_enum merge_enum (EA None None None) (EA None None None) l ;;
  doc <-- m_doc l ;;
  let flat := match ea_flat a with Some _ => true | None => false end in
  let meta shape discr vs' :=
    Enum here (get_or (ea_name a) (unraw i)) (m_orig i (ea_name a)) shape discr vs'
         (m_non_exhaustive l) doc in
  if error then
    _ <-- guard (forallb (fun v => forallb (fun f => no_args (sf_attrs f)) (sv_fields v)) vs) ;;
    vs' <-- traverse (if flat then m_flat_variant else m_variant) vs ;;
    Some (meta (ShError flat) None vs')
  else
    _ <-- guard (negb flat && match ea_try a with Some _ => false | None => true end) ;;
    t <-- match m_repr l with
          | None => Some None
          | Some (RTy t) => Some (Some t)
          | Some _ => None
          end ;;
    vs' <-- traverse m_variant vs ;;
    Some (meta ShEnum t vs').

(** object.rs l.53-61, l.85-130 [expand_object], l.256-288. *)
Definition m_object (here : str) (i : ident) (l : list attr) : option object_meta :=
  n <-- m_name l ;; doc <-- m_doc l ;;
  Some (Obj here (get_or n (unraw i)) (m_orig i n) IStruct doc).

(** ** Functions *)

(** export/attributes.rs l.124-129 [ExportFnArgs]; the default values by argument, in the order
    given. *)
Record fargs := FA {
  fa_async : option str; fa_name : option str; fa_defs : list (ident * option dval) }.
Definition no_fargs : fargs := FA None None [].
Definition TOKIO : str := [x74; x6f; x6b; x69; x6f].
(** export/attributes.rs l.448-469 [DefaultPair]: a name without a value only where nothing at all
    follows.  uniffi_parse_rs/src/attrs/defaults.rs l.118-126 asks the same. *)
Fixpoint pairs_ok (comma : bool) (l : list (ident * option dval)) : bool :=
  match l with
  | [] => true
  | [(_, None)] => negb comma
  | (_, None) :: _ => false
  | (_, Some _) :: r => pairs_ok comma r
  end.
(** export/attributes.rs l.137-175, l.284-295. *)
Definition one_fn (a : arg) : option fargs :=
  match a with
  | AName s => Some (FA None (Some s) [])
  | AAsync s => if bytes_eqb s TOKIO then Some (FA (Some s) None []) else None
  | ADefaults l comma => if pairs_ok comma l then Some (FA None None l) else None
  | _ => None
  end.
Definition merge_fn (a b : fargs) : option fargs :=
  r <-- either (fa_async a) (fa_async b) ;; n <-- either (fa_name a) (fa_name b) ;;
  Some (FA r n (fa_defs a ++ fa_defs b)).
Definition m_fargs (a : option args) : option fargs :=
  match a with
  | None => Some no_fargs
  | Some a => m_pieces one_fn merge_fn no_fargs (ag_list a)
  end.

(** export/attributes.rs l.415-429 [DefaultMap]: the last value given for an argument counts. *)
Fixpoint lookup_last (i : ident) (l : list (ident * option dval)) : option (option dval) :=
  match l with
  | [] => None
  | (j, v) :: r =>
      match lookup_last i r with
      | Some w => Some w
      | None => if ident_eqb i j then Some v else None
      end
  end.

(** fnsig.rs l.475-492, l.527-562, l.571-586: one argument. *)
Definition m_param (defs : list (ident * option dval)) (a : fnarg) : option param :=
  match a with
  | FTyped (Some i) t pb _ =>
      d <-- m_opt_default t (lookup_last i defs) ;; Some (Param (unraw i) t pb d)
  | _ => None
  end.
Definition is_named (j : ident) (a : fnarg) : bool :=
  match a with FTyped (Some i) _ _ _ => ident_eqb i j | _ => false end.
Definition is_mut (a : fnarg) : bool :=
  match a with FTyped _ _ ByMutRef _ => true | _ => false end.
(** fnsig.rs l.114-196 [FnSignature::new]: only the first argument may be a receiver; defaults for
    arguments there are not, mutable slices in asynchronous functions and a runtime for others are
    errors.  [receiver]: one is required (export/scaffolding.rs l.73-81, methods) or refused (l.20-25,
    l.50-55, functions and constructors). *)
Definition m_sig (here : str) (receiver : bool) (a : fargs) (f : sfn) : option fn_meta :=
  doc <-- m_doc (sn_attrs f) ;;
  rest <-- match receiver, sn_args f with
           | true, FReceiver _ :: r => Some r
           | true, _ => None
           | false, r => Some r
           end ;;
  ps <-- traverse (m_param (fa_defs a)) rest ;;
  _ <-- guard (forallb (fun d => existsb (is_named (fst d)) rest) (fa_defs a)) ;;
  _ <-- guard (negb (sn_async f && existsb is_mut rest)) ;;
  _ <-- guard (sn_async f || match fa_async a with Some _ => false | None => true end) ;;
  Some (Fn here (get_or (fa_name a) (unraw (sn_id f))) (m_orig (sn_id f) (fa_name a))
           (sn_async f) ps (sn_ret f) (sn_throws f) None doc).

(** The arguments of the one `#[uniffi::export]` of an item; each further one is another run of the
    macro, which defines the same things again. *)
Fixpoint exports (l : list attr) : list (option args) :=
  match l with
  | [] => []
  | AtExport a :: r => a :: exports r
  | _ :: r => exports r
  end.
Definition m_export (l : list attr) : option (option args) :=
  match exports l with [a] => Some a | _ => None end.

(** export/item.rs l.56-61. *)
Definition m_fn (here : str) (f : sfn) : option fn_meta :=
  e <-- m_export (sn_attrs f) ;; a <-- m_fargs e ;; m_sig here false a f.

(** export/attributes.rs l.305-385 [ExportedImplFnAttributes]: whether it is a constructor, and the
    arguments of the last attribute. *)
Fixpoint m_member_attrs (ctor : bool) (a : fargs) (l : list attr) : option (bool * fargs) :=
  match l with
  | [] => Some (ctor, a)
  | AtCtor x :: r =>
      a' <-- m_fargs x ;; if ctor then None else m_member_attrs true a' r
  | AtMethod x :: r =>
      a' <-- m_fargs x ;; if ctor then None else m_member_attrs false a' r
  | AtUniffi _ :: _ | AtUniffiBare :: _ | AtExport _ :: _ => None
  | _ :: r => m_member_attrs ctor a r
  end.

(** export/item.rs l.102-144: one function of an `impl` block.  The reader refuses a constructor that
    does not return the object it is for (reader.rs l.281-292). *)
Definition m_member (here self : str) (m : member) : option metadata :=
  match m with
  | MbOther => None
  | MbFn f =>
      x <-- m_member_attrs false no_fargs (sn_attrs f) ;;
      g <-- m_sig here (negb (fst x)) (snd x) f ;;
      if fst x then
        if is_self self (sn_ret f) then Some (MConstructor self (drop_ret g)) else None
      else Some (MMethod self g)
  end.

(** export/attributes.rs l.177-221 [ExportImplArgs]: the runtime and the name. *)
Definition one_impl (a : arg) : option (option str * option str) :=
  match a with
  | AName s => Some (None, Some s)
  | AAsync s => if bytes_eqb s TOKIO then Some (Some s, None) else None
  | _ => None
  end.
Definition merge_impl (a b : option str * option str) : option (option str * option str) :=
  r <-- either (fst a) (fst b) ;; n <-- either (snd a) (snd b) ;; Some (r, n).
Definition is_async (m : member) : bool := match m with MbFn f => sn_async f | MbOther => false end.

(** export/item.rs l.74-153 [from_impl], export.rs l.51-113. *)
Definition m_impl (here : str) (i : option ident) (tr : option ty) (l : list attr)
    (ms : list member) : option (list metadata) :=
  e <-- m_export l ;;
  a <-- m_pieces one_impl merge_impl (None, None) (match e with Some a => ag_list a | None => [] end) ;;
  i <-- i ;;
  xs <-- traverse (m_member here (get_or (snd a) (unraw i))) ms ;;
  _ <-- guard (existsb is_async ms || match fst a with Some _ => false | None => true end) ;;
  Some (xs ++ match tr with
              | Some t => [MTraitImpl (TObject here (unraw i) IStruct) t]
              | None => []
              end).

(** export/attributes.rs l.30-119 [ExportTraitArgs]. *)
Record targs := TA {
  ta_async : option str; ta_callback : option unit; ta_with : option unit; ta_rust : option unit;
  ta_foreign : option unit; ta_remote : option unit }.
Definition no_targs : targs := TA None None None None None None.
Definition one_trait (a : arg) : option targs :=
  match a with
  | AAsync s => if bytes_eqb s TOKIO then Some (TA (Some s) None None None None None) else None
  | AFlag GCallback => Some (TA None (Some tt) None None None None)
  | AFlag GWithForeign => Some (TA None None (Some tt) None None None)
  | AFlag GRust => Some (TA None None None (Some tt) None None)
  | AFlag GForeign => Some (TA None None None None (Some tt) None)
  | AFlag GRemote => Some (TA None None None None None (Some tt))
  | _ => None
  end.
Definition is_some {A} (o : option A) : bool := match o with Some _ => true | None => false end.
Definition merge_trait (a b : targs) : option targs :=
  r <-- either (ta_async a) (ta_async b) ;; c <-- either (ta_callback a) (ta_callback b) ;;
  w <-- either (ta_with a) (ta_with b) ;; u <-- either (ta_rust a) (ta_rust b) ;;
  f <-- either (ta_foreign a) (ta_foreign b) ;; m <-- either (ta_remote a) (ta_remote b) ;;
  _ <-- guard (negb ((is_some u || is_some f) && (is_some c || is_some w))) ;;
  _ <-- guard (negb (is_some c && is_some w)) ;;
  Some (TA r c w u f m).
(** export/item.rs l.157-186: the kind of the trait, and whether it is a callback interface. *)
Definition m_kind (a : targs) : trait_kind * bool :=
  if is_some (ta_rust a) || is_some (ta_foreign a) then
    (if is_some (ta_rust a) then if is_some (ta_foreign a) then Both else RustOnly else ForeignOnly,
     false)
  else (if is_some (ta_with a) || is_some (ta_callback a) then Both else RustOnly,
        is_some (ta_callback a)).
Definition has_foreign (k : trait_kind) : bool :=
  match k with RustOnly => false | _ => true end.
(** export/item.rs l.201-236: one function of a trait. *)
Definition m_trait_member (here self : str) (idx : Z) (m : member) : option metadata :=
  match m with
  | MbOther => None
  | MbFn f =>
      _ <-- guard (negb (sn_body f)) ;;
      x <-- m_member_attrs false no_fargs (sn_attrs f) ;;
      _ <-- guard (negb (fst x)) ;;
      g <-- m_sig here true (snd x) f ;;
      Some (MTraitMethod self idx g)
  end.
Fixpoint m_trait_members (here self : str) (idx : Z) (l : list member) : option (list metadata) :=
  match l with
  | [] => Some []
  | m :: r =>
      x <-- m_trait_member here self idx m ;; xs <-- m_trait_members here self (idx + 1) r ;;
      Some (x :: xs)
  end.
(** export/item.rs l.155-247 [from_trait]; export/trait_interface.rs l.20-123;
    export/callback_interface.rs l.273-298. *)
Definition m_trait (here : str) (i : ident) (l : list attr) (ms : list member)
  : option (list metadata) :=
  e <-- m_export l ;;
  a <-- m_pieces one_trait merge_trait no_targs (match e with Some a => ag_list a | None => [] end) ;;
  let '(kind, cb) := m_kind a in
  _ <-- guard (negb (is_some (ta_remote a) && has_foreign kind)) ;;
  doc <-- m_doc l ;;
  xs <-- m_trait_members here (unraw i) 0 ms ;;
  Some ((if cb then MCallback here (unraw i) doc
         else MObject (Obj here (unraw i) None (ITrait kind) doc)) :: xs).

(** ** The built-in traits of a type *)

(** export/utrait.rs l.13-175, uniffi_parse_rs/src/attrs/utraits.rs l.65-180: the methods, the same
    on both sides; [self] names the type they are for, [t] is the type. *)
Definition utrait_fn (here name : str) (params : list param) (ret : ty) : fn_meta :=
  Fn here name None false params (Some ret) None None None.
Definition OTHER : str := [x6f; x74; x68; x65; x72]. (* other *)
(* uniffi_trait_ followed by debug, display, eq_eq, eq_ne, hash, ord_cmp *)
Definition UT_PREFIX : str :=
  [x75; x6e; x69; x66; x66; x69; x5f; x74; x72; x61; x69; x74; x5f].
Definition UT_DEBUG : str := UT_PREFIX ++ [x64; x65; x62; x75; x67].
Definition UT_DISPLAY : str := UT_PREFIX ++ [x64; x69; x73; x70; x6c; x61; x79].
Definition UT_EQ : str := UT_PREFIX ++ [x65; x71; x5f; x65; x71].
Definition UT_NE : str := UT_PREFIX ++ [x65; x71; x5f; x6e; x65].
Definition UT_HASH : str := UT_PREFIX ++ [x68; x61; x73; x68].
Definition UT_CMP : str := UT_PREFIX ++ [x6f; x72; x64; x5f; x63; x6d; x70].
Definition utrait_of (here self : str) (t : ty) (g : flag) : option metadata :=
  let other := [Param OTHER t ByRef None] in
  match g with
  | GDebug => Some (MUniffiTrait (UTDebug self (utrait_fn here UT_DEBUG [] TString)))
  | GDisplay => Some (MUniffiTrait (UTDisplay self (utrait_fn here UT_DISPLAY [] TString)))
  | GEq => Some (MUniffiTrait (UTEq self (utrait_fn here UT_EQ other TBool)
                                    self (utrait_fn here UT_NE other TBool)))
  | GHash => Some (MUniffiTrait (UTHash self (utrait_fn here UT_HASH [] TU64)))
  | GOrd => Some (MUniffiTrait (UTOrd self (utrait_fn here UT_CMP other TI8)))
  | _ => None
  end.
Definition ALL_UTRAITS : list flag := [GDebug; GDisplay; GEq; GHash; GOrd].
Definition flag_eqb (a b : flag) : bool :=
  match a, b with
  | GFlat, GFlat | GTryRead, GTryRead | GHandle, GHandle | GRust, GRust | GForeign, GForeign
  | GWithForeign, GWithForeign | GCallback, GCallback | GRemote, GRemote | GDebug, GDebug
  | GDisplay, GDisplay | GEq, GEq | GHash, GHash | GOrd, GOrd | GOther, GOther => true
  | _, _ => false
  end.
Definition is_utrait (g : flag) : bool := existsb (flag_eqb g) ALL_UTRAITS.
Definition the_flag (a : arg) : option flag := match a with AFlag g => Some g | _ => None end.
(** export/attributes.rs l.223-277 [ExportStructArgs], export/item.rs l.16-22, l.249-277: one
    attribute names at least one of the traits, in any order; its traits sorted. *)
Definition m_utrait_attr (a : option args) : option (list flag) :=
  match a with
  | None => None
  | Some a =>
      gs <-- traverse (fun x => g <-- the_flag x ;; if is_utrait g then Some g else None)
               (ag_list a) ;;
      match gs with
      | [] => None
      | _ => Some (filter (fun g => existsb (flag_eqb g) gs) ALL_UTRAITS)
      end
  end.
(** A trait in two attributes defines the same method twice. *)
Fixpoint distinct (l : list flag) : bool :=
  match l with [] => true | g :: r => negb (existsb (flag_eqb g) r) && distinct r end.
(** export/utrait.rs l.177-211: the methods are for the type's name in Rust. *)
Definition m_utraits (here : str) (i : ident) (t : ty) (l : list attr) : option (list metadata) :=
  gss <-- traverse m_utrait_attr (exports l) ;;
  _ <-- guard (distinct (concat gss)) ;;
  traverse (utrait_of here (unraw i) t) (concat gss).

(** All that the macros write for an item.  The type of a record etc. is recorded with the name for
    the bindings (record.rs l.131-133, enum_.rs l.265-267, object.rs l.235-240). *)
Definition macros (p : place) (it : item) : option (list metadata) :=
  let here := pl_here p in
  match it with
  | ItRecord _ i l fs =>
      r <-- m_record here i l fs ;; us <-- m_utraits here i (TRecord here (r_name r)) l ;;
      Some (MRecord r :: us)
  | ItEnum error _ i l vs =>
      e <-- m_enum error here i l vs ;; us <-- m_utraits here i (TEnum here (e_name e)) l ;;
      Some (MEnum e :: us)
  | ItObject _ i l =>
      o <-- m_object here i l ;;
      us <-- m_utraits here i (TObject here (o_name o) IStruct) l ;; Some (MObject o :: us)
  | ItFn f => g <-- m_fn here f ;; Some [MFunc g]
  | ItImpl i _ tr l ms => m_impl here i tr l ms
  | ItTrait i l ms => m_trait here i l ms
  end.

(** * The source reader: uniffi_parse_rs/src

    [None]: an error. *)

(** A description, with the two things metadata read from a library never says: that the type is
    remote, and that a method takes its object by [Arc]. *)
Record desc := Desc { d_meta : metadata; d_remote : bool; d_arc : bool }.
(** uniffi_meta/src/reader.rs l.317-318, l.329, l.352, l.377, l.450-451: always [false]. *)
Definition from_library (m : metadata) : desc := Desc m false false.

(** syn's [parse_nested_meta] with a callback: the pieces in order; [last]: nothing at all follows. *)
Fixpoint s_pieces {S} (step : bool -> arg -> S -> option S) (comma : bool) (l : list arg) (s : S)
  : option S :=
  match l with
  | [] => Some s
  | a :: r =>
      s' <-- step (match r with [] => negb comma | _ => false end) a s ;;
      s_pieces step comma r s'
  end.
(** The loop over an item's attributes of one kind ([pick]), e.g. attrs/records.rs l.43-60. *)
Fixpoint s_attrs {S} (pick : attr -> option args) (step : bool -> arg -> S -> option S)
    (l : list attr) (s : S) : option S :=
  match l with
  | [] => Some s
  | a :: r =>
      s' <-- match pick a with
             | Some x => s_pieces step (ag_comma x) (ag_list x) s
             | None => Some s
             end ;;
      s_attrs pick step r s'
  end.
Definition pick_uniffi (a : attr) : option args := match a with AtUniffi x => Some x | _ => None end.
Definition pick_export (a : attr) : option args :=
  match a with AtExport (Some x) => Some x | _ => None end.
Definition pick_ctor (a : attr) : option args :=
  match a with AtCtor (Some x) => Some x | _ => None end.
Definition pick_method (a : attr) : option args :=
  match a with AtMethod (Some x) => Some x | _ => None end.

(** attrs/docstring.rs l.7-26 [extract_docstring], over all attributes. *)
Definition s_doc (l : list attr) : option str :=
  fold_left (fun cur a =>
    match a with
    | AtDoc s => Some (match cur with None => s | Some c => c ++ [x0a] ++ s end)
    | _ => cur
    end) l None.

(** attrs/records.rs l.46-55, attrs/enums.rs l.141-150, attrs/objects.rs l.46-55: the last name
    counts. *)
Definition s_name_step (_ : bool) (a : arg) (_ : option str) : option (option str) :=
  match a with AName s => Some (Some s) | _ => None end.
Definition s_name (l : list attr) : option (option str) := s_attrs pick_uniffi s_name_step l None.

(** attrs/defaults.rs l.52-116 [create_default_value_metadata]. *)
Fixpoint strip_custom (t : ty) : ty := match t with TCustom _ _ b => strip_custom b | _ => t end.
Definition in_i64 (z : Z) : bool := (- 2 ^ 63 <=? z) && (z <? 2 ^ 63).
Definition in_u64 (z : Z) : bool := (0 <=? z) && (z <? 2 ^ 64).
Fixpoint s_value (t : ty) (v : dval) {struct v} : option literal :=
  let t := strip_custom t in
  match v with
  | VNone => Some LNone
  | VSome v =>
      match t with TOption u => l <-- s_value u v ;; Some (LSome (DLit l)) | _ => None end
  | VEmpty => Some LEmptySeq
  | VInt z _ =>
      match t with
      | TI8 | TI16 | TI32 | TI64 => if in_i64 z then Some (LInt z Decimal_ t) else None
      | TU8 | TU16 | TU32 | TU64 => if in_u64 z then Some (LUInt z Decimal_ t) else None
      | _ => None
      end
  | VFloat s _ => match t with TF32 | TF64 => Some (LFloat s t) | _ => None end
  | VStr s => match t with TString => Some (LString s) | _ => None end
  | VBool b => match t with TBool => Some (LBool b) | _ => None end
  | VOther => None
  end.
Definition s_default (t : ty) (v : option dval) : option default :=
  match v with None => Some DDefault | Some v => l <-- s_value t v ;; Some (DLit l) end.
Definition s_opt_default (t : ty) (d : option (option dval)) : option (option default) :=
  match d with None => Some None | Some v => x <-- s_default t v ;; Some (Some x) end.

(** attrs/records.rs l.81-96: the default once, the last name; a bare `default` only where nothing
    follows (attrs/defaults.rs l.119-126). *)
Definition s_field_step (last : bool) (a : arg) (s : option (option dval) * option str)
  : option (option (option dval) * option str) :=
  match a with
  | AName n => Some (fst s, Some n)
  | ADefault v =>
      match fst s, v with
      | Some _, _ => None
      | None, None => if last then Some (Some None, snd s) else None
      | None, Some _ => Some (Some v, snd s)
      end
  | _ => None
  end.
(** records.rs l.75-104 [create_field_metadata]. *)
Definition s_field (f : sfield) : option field :=
  a <-- s_attrs pick_uniffi s_field_step (sf_attrs f) (None, None) ;;
  let own := match sf_id f with Some i => unraw i | None => [] end in
  d <-- s_opt_default (sf_ty f) (fst a) ;;
  Some (Field (get_or (snd a) own) (match snd a with Some _ => Some own | None => None end)
              (sf_ty f) d (s_doc (sf_attrs f))).

(** public_paths.rs l.124-183: an item's names; the raw prefix is kept. *)
Definition names (p : place) (i : ident) (attr : option str) : str * option str :=
  let name := get_or attr (ident_string i) in
  match pl_as p with
  | None => (name, match attr with Some _ => Some (ident_string i) | None => None end)
  | Some u => (name, if bytes_eqb name u then None else Some u)
  end.

(** records.rs l.44-63. *)
Definition s_record (p : place) (i : ident) (l : list attr) (fs : list sfield)
  : option record_meta :=
  n <-- s_name l ;; fs' <-- traverse s_field fs ;;
  Some (Rec (pl_pub p) (fst (names p i n)) (snd (names p i n)) fs' (s_doc l)).

(** attrs/enums.rs l.61-80: the name and `flat_error`. *)
Definition s_enum_step (error : bool) (_ : bool) (a : arg) (s : option str * bool)
  : option (option str * bool) :=
  match a with
  | AName n => Some (Some n, snd s)
  | AFlag GFlat => if error then Some (fst s, true) else None
  | _ => None
  end.
(** attrs/enums.rs l.85-111: the last integer type; anything else is an error. *)
Fixpoint s_reprs (l : list repr) (t : option ty) : option (option ty) :=
  match l with
  | [] => Some t
  | RTy u :: r => s_reprs r (Some u)
  | _ => None
  end.
Fixpoint s_repr (l : list attr) (t : option ty) : option (option ty) :=
  match l with
  | [] => Some t
  | AtRepr rs :: r => t' <-- s_reprs rs t ;; s_repr r t'
  | _ :: r => s_repr r t
  end.
(** enums.rs l.99-147 [parse_discriminant]: nothing without an integer type. *)
Definition is_signed (t : ty) : bool :=
  match t with TI8 | TI16 | TI32 | TI64 => true | _ => false end.
Definition s_discr (t : option ty) (d : option dexpr) : option (option literal) :=
  match d, t with
  | None, _ | _, None => Some None
  | Some (DxInt z), Some t =>
      if is_signed t then if in_i64 z then Some (Some (LInt z Decimal_ t)) else None
      else if in_u64 z then Some (Some (LUInt z Decimal_ t)) else None
  | Some (DxNegInt z), Some t =>
      if is_signed t && in_i64 z then Some (Some (LInt (- z) Decimal_ t)) else None
  | Some DxOther, Some _ => None
  end.
(** enums.rs l.149-175 [create_variant_metadata]. *)
Definition s_variant (flat : bool) (t : option ty) (v : svariant) : option variant :=
  n <-- s_name (sv_attrs v) ;;
  d <-- s_discr t (sv_discr v) ;;
  (* the attributes of the fields are parsed in any case, l.84-89 *)
  _ <-- traverse (fun f => s_attrs pick_uniffi s_field_step (sf_attrs f) (None, None))
          (sv_fields v) ;;
  fs <-- (if flat then Some [] else traverse s_field (sv_fields v)) ;;
  Some (Variant (get_or n (unraw (sv_id v))) (m_orig (sv_id v) n) d fs (s_doc (sv_attrs v))).
(** enums.rs l.49-74 [enum_metadata]. *)
Definition s_enum (error : bool) (p : place) (i : ident) (l : list attr) (vs : list svariant)
  : option enum_meta :=
  a <-- s_attrs pick_uniffi (s_enum_step error) l (None, false) ;;
  t <-- s_repr l None ;;
  vs' <-- traverse (s_variant (snd a) t) vs ;;
  Some (Enum (pl_pub p) (fst (names p i (fst a))) (snd (names p i (fst a)))
             (if error then ShError (snd a) else ShEnum) t vs' (m_non_exhaustive l) (s_doc l)).

(** objects.rs l.57-72. *)
Definition s_object (p : place) (i : ident) (l : list attr) : option object_meta :=
  n <-- s_name l ;;
  Some (Obj (pl_pub p) (fst (names p i n)) (snd (names p i n)) IStruct (s_doc l)).

(** attrs/defaults.rs l.151-161 [DefaultMap::parse]: a second value for an argument is an error. *)
Fixpoint lookup_first (i : ident) (l : list (ident * option dval)) : option (option dval) :=
  match l with
  | [] => None
  | (j, v) :: r => if ident_eqb i j then Some v else lookup_first i r
  end.
Fixpoint s_pairs (comma : bool) (l m : list (ident * option dval))
  : option (list (ident * option dval)) :=
  match l with
  | [] => Some m
  | (i, v) :: r =>
      _ <-- guard (negb (is_some (lookup_first i m))) ;;
      _ <-- guard (is_some v || match r with [] => negb comma | _ => false end) ;;
      s_pairs comma r (m ++ [(i, v)])
  end.
(** attrs/callables.rs l.42-57, l.84-99, l.134-149. *)
Definition s_fn_step (_ : bool) (a : arg) (s : fargs) : option fargs :=
  match a with
  | ADefaults l comma => m <-- s_pairs comma l (fa_defs s) ;; Some (FA (fa_async s) (fa_name s) m)
  | AName n => Some (FA (fa_async s) (Some n) (fa_defs s))
  | AAsync r => Some (FA (Some r) (fa_name s) (fa_defs s))
  | _ => None
  end.

(** functions.rs l.82-97, l.120-138; [self_ok]: `Self` means something (methods only: l.99-118). *)
Definition s_param (self_ok : bool) (defs : list (ident * option dval)) (a : fnarg)
  : option param :=
  match a with
  | FTyped (Some i) t pb self =>
      _ <-- guard (self_ok || negb self) ;;
      d <-- s_opt_default t (lookup_first i defs) ;; Some (Param (unraw i) t pb d)
  | _ => None
  end.
Definition s_sig (mp : str) (nm : str * option str) (self_ok : bool) (a : fargs) (f : sfn)
    (rest : list fnarg) : option fn_meta :=
  ps <-- traverse (s_param self_ok (fa_defs a)) rest ;;
  Some (Fn mp (fst nm) (snd nm) (sn_async f) ps (sn_ret f) (sn_throws f) None
           (s_doc (sn_attrs f))).

(** functions.rs l.36-79, attrs/callables.rs l.21-65. *)
Definition s_fn (p : place) (f : sfn) : option fn_meta :=
  a <-- s_attrs pick_export s_fn_step (sn_attrs f) no_fargs ;;
  s_sig (pl_pub p) (names p (sn_id f) (fa_name a)) false a f (sn_args f).

(** objects.rs l.109-113, l.163-167, traits.rs l.151-155. *)
Definition member_names (i : ident) (n : option str) : str * option str :=
  (get_or n (unraw i), m_orig i n).
(** objects.rs l.135-220 [Method]: the first argument is the receiver. *)
Definition s_method (here : str) (f : sfn) : option (fn_meta * bool) :=
  a <-- s_attrs pick_method s_fn_step (sn_attrs f) no_fargs ;;
  match sn_args f with
  | FReceiver arc :: rest =>
      g <-- s_sig here (member_names (sn_id f) (fa_name a)) true a f rest ;; Some (g, arc)
  | _ => None
  end.
(** objects.rs l.75-133 [Constructor]. *)
Definition s_ctor (here : str) (self_ty : ty) (f : sfn) : option fn_meta :=
  a <-- s_attrs pick_ctor s_fn_step (sn_attrs f) no_fargs ;;
  _ <-- guard (match sn_ret f with Some t => ty_eqb t self_ty | None => false end) ;;
  g <-- s_sig here (member_names (sn_id f) (fa_name a)) false a f (sn_args f) ;;
  Some (drop_ret g).
Definition is_ctor (l : list attr) : bool :=
  existsb (fun a => match a with AtCtor _ => true | _ => false end) l.
(** uniffi_meta/src/types.rs l.149-160 [Type::name]. *)
Definition ty_name (t : ty) : option str :=
  match t with
  | TObject _ n _ | TRecord _ n | TEnum _ n | TCallback _ n | TCustom _ n _ => Some n
  | _ => None
  end.
(** attrs/objects.rs l.90-109. *)
Definition s_impl_step (_ : bool) (a : arg) (s : option str) : option (option str) :=
  match a with AName n => Some (Some n) | AAsync _ => Some s | _ => None end.
(** impls.rs l.23-34, l.44-76: functions only; constructors come first, which does not matter in a
    set.  The trait is not looked at. *)
Definition s_member (here self : str) (self_ty : ty) (m : member) : option (list desc) :=
  match m with
  | MbOther => Some []
  | MbFn f =>
      if is_ctor (sn_attrs f) then
        g <-- s_ctor here self_ty f ;; Some [Desc (MConstructor self g) false false]
      else
        g <-- s_method here f ;; Some [Desc (MMethod self (fst g)) false (snd g)]
  end.
Definition s_impl (here : str) (self_ty : ty) (l : list attr) (ms : list member)
  : option (list desc) :=
  n <-- s_attrs pick_export s_impl_step l None ;;
  self <-- match n with Some n => Some n | None => ty_name self_ty end ;;
  xs <-- traverse (s_member here self self_ty) ms ;;
  Some (concat xs).

(** attrs/traits.rs l.52-114; the flags are (rust, foreign, callback interface). *)
Definition s_trait_step (_ : bool) (a : arg) (s : option str * (bool * bool * bool))
  : option (option str * (bool * bool * bool)) :=
  let '(n, (r, f, c)) := s in
  match a with
  | AName n => Some (Some n, (r, f, c))
  | AFlag GRust => Some (n, (true, f, c))
  | AFlag GForeign => Some (n, (r, true, c))
  | AFlag GWithForeign => Some (n, (true, true, c))
  | AFlag GCallback => Some (n, (r, f, true))
  | _ => None
  end.
(** traits.rs l.31-48, l.112-117, l.139-185: functions only; the index counts those. *)
Fixpoint s_trait_members (here self : str) (idx : Z) (l : list member) : option (list desc) :=
  match l with
  | [] => Some []
  | MbOther :: r => s_trait_members here self idx r
  | MbFn f :: r =>
      g <-- s_method here f ;; xs <-- s_trait_members here self (idx + 1) r ;;
      Some (Desc (MTraitMethod self idx (fst g)) false (snd g) :: xs)
  end.
Definition s_trait (p : place) (i : ident) (l : list attr) (ms : list member)
  : option (list desc) :=
  e <-- m_export l ;;
  x <-- s_pieces s_trait_step (match e with Some a => ag_comma a | None => false end)
          (match e with Some a => ag_list a | None => [] end) (None, (false, false, false)) ;;
  let '(n, (r, f, c)) := x in
  _ <-- guard (negb ((r || f) && c)) ;;
  let nm := names p i n in
  let kind := match f, r with true, true => Both | true, false => ForeignOnly | _, _ => RustOnly end in
  xs <-- s_trait_members (pl_here p) (fst nm) 0 ms ;;
  Some (Desc (if c then MCallback (pl_pub p) (fst nm) (s_doc l)
              else MObject (Obj (pl_pub p) (fst nm) (snd nm) (ITrait kind) (s_doc l))) false false
        :: xs).

(** attrs/utraits.rs l.19-50: the traits named by any of the attributes. *)
Fixpoint s_utrait_attrs (l : list (option args)) : option (list flag) :=
  match l with
  | [] => Some []
  | None :: _ => None
  | Some a :: r =>
      gs <-- traverse (fun x => g <-- the_flag x ;; if is_utrait g then Some g else None)
               (ag_list a) ;;
      gs' <-- s_utrait_attrs r ;; Some (gs ++ gs')
  end.
(** attrs/utraits.rs l.52-183, modules.rs l.226-277: the methods are for the type's name in the
    bindings. *)
Definition s_utraits (here self : str) (t : ty) (l : list attr) : option (list desc) :=
  gs <-- s_utrait_attrs (exports l) ;;
  us <-- traverse (utrait_of here self t)
           (filter (fun g => existsb (flag_eqb g) gs) ALL_UTRAITS) ;;
  Some (map (fun m => Desc m false false) us).

(** modules.rs l.211-317 [create_metadata]: all that an item adds. *)
Definition sources (p : place) (it : item) : option (list desc) :=
  let here := pl_here p in
  match it with
  | ItRecord remote i l fs =>
      r <-- s_record p i l fs ;;
      us <-- s_utraits here (r_name r) (TRecord (pl_pub p) (r_name r)) l ;;
      Some (Desc (MRecord r) remote false :: us)
  | ItEnum error remote i l vs =>
      e <-- s_enum error p i l vs ;;
      us <-- s_utraits here (e_name e) (TEnum (pl_pub p) (e_name e)) l ;;
      Some (Desc (MEnum e) remote false :: us)
  | ItObject remote i l =>
      o <-- s_object p i l ;;
      us <-- s_utraits here (o_name o) (TObject (pl_pub p) (o_name o) IStruct) l ;;
      Some (Desc (MObject o) remote false :: us)
  | ItFn f => g <-- s_fn p f ;; Some [Desc (MFunc g) false false]
  | ItImpl _ t _ l ms => s_impl here t l ms
  | ItTrait i l ms => s_trait p i l ms
  end.
