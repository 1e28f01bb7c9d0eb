(** The Rust code generated from a UDL file, and what the macros make of it: the templates of
    uniffi_bindgen/src/scaffolding write a copy of each declaration with a macro on it
    ([uniffi_macros] in UDL mode).

    A declaration is given by its metadata (C61); the lists are those of the component interface
    (C62).  Left out: the Rust names of types ([type_rs], C55), so that a type is given by its
    description, as in [Src_Model]; the text of the UDL metadata and of the namespace; the order of
    the items.  Which identifiers are raw has no influence: all are written with `r#`. *)
From Verif Require Import Base Meta_Types Api_Types Api_Model Names_Model Excl_Types Excl_Model.
From Verif Require Import Src_Model.
From Verif Require Univ_Model.

Section Templates.
  (** The crate the file is for; whether [Remote] is said of a definition, and [Self=ByArc] of a
      method, which metadata does not keep. *)
  Variable crate : str.
  Variable remote : str -> bool.
  Variable by_arc : str -> str -> bool.

  Definition raw (n : str) : ident := Id n true.

  (** scaffolding/mod.rs l.36-52 [arg_rs]: only bytes are borrowed mutably. *)
  Definition arg_rs (p : param) : fnarg :=
    FTyped (Some (raw (p_name p))) (p_ty p)
      (match p_pass p with
       | ByValue => ByValue
       | ByRef => ByRef
       | ByMutRef => match p_ty p with TBytes => ByMutRef | _ => ByRef end
       end) false.
  (** templates/CallbackInterfaceTemplate.rs l.7. *)
  Definition callback_arg_rs (p : param) : fnarg :=
    FTyped (Some (raw (p_name p))) (p_ty p)
      (match p_pass p with ByValue => ByValue | _ => ByRef end) false.

  (** templates/TopLevelFunctionTemplate.rs. *)
  Definition fn_stub (f : fn_meta) : item :=
    ItFn (SFn (raw (f_name f)) [AtExport None] (f_async f) (map arg_rs (f_inputs f))
              (f_ret f) (f_throws f) true).

  Definition fn_of (m : metadata) : list fn_meta :=
    match m with
    | MFunc f | MConstructor _ f | MMethod _ f | MTraitMethod _ _ f => [f]
    | _ => []
    end.

  (** interface/mod.rs l.937-939, l.994-995, l.1008-1027, l.1043-1064, l.1153-1156: the names in
      [errors]; l.1111-1117 [is_name_used_as_error]. *)
  Definition throws_name (f : fn_meta) : list str :=
    match f_throws f with
    | Some t => match Univ_Model.type_name t with Some n => [n] | None => [] end
    | None => []
    end.
  Definition declared_error (m : metadata) : list str :=
    match m with
    | MEnum e => match e_shape e with ShError _ => [e_name e] | ShEnum => [] end
    | _ => []
    end.
  Definition errors (a : api metadata) : list str :=
    flat_map declared_error (map v_item (a_types a)) ++
    flat_map throws_name (flat_map fn_of (a_functions a ++
      flat_map (fun v => v_constructors v ++ v_methods v) (a_types a))).
  Definition is_name_used_as_error (a : api metadata) (n : str) : bool := contains (errors a) n.

  (** interface/enum_.rs l.264-269 [is_flat]. *)
  Definition is_flat (e : enum_meta) : bool :=
    match e_shape e with
    | ShError flat => flat
    | ShEnum => forallb (fun v => match v_fields v with [] => true | _ => false end) (e_variants e)
    end.
  (** interface/mod.rs l.335-353 [should_generate_error_read]. *)
  Definition foreign_methods (v : view metadata) : list metadata :=
    match v_item v with
    | MCallback _ _ _ => v_methods v
    | MObject o => if has_callback_interface (o_imp o) then v_methods v else []
    | _ => []
    end.
  Definition should_generate_error_read (a : api metadata) (e : enum_meta) : bool :=
    is_name_used_as_error a (e_name e) &&
    (negb (is_flat e) ||
     existsb (fun f => match f_throws f with
                       | Some t => ty_eqb t (TEnum (e_mp e) (e_name e))
                       | None => false
                       end) (flat_map fn_of (flat_map foreign_methods (a_types a)))).

  (** Which built-in traits a definition has: interface/object.rs l.719-735 [UniffiTraitMethods]. *)
  Definition is_debug (m : metadata) := match m with MUniffiTrait (UTDebug _ _) => true | _ => false end.
  Definition is_display (m : metadata) := match m with MUniffiTrait (UTDisplay _ _) => true | _ => false end.
  Definition is_eq (m : metadata) := match m with MUniffiTrait (UTEq _ _ _ _) => true | _ => false end.
  Definition is_hash (m : metadata) := match m with MUniffiTrait (UTHash _ _) => true | _ => false end.
  Definition is_ord (m : metadata) := match m with MUniffiTrait (UTOrd _ _) => true | _ => false end.
  Definition derive (b : bool) (g : flag) : list attr :=
    if b then [AtExport (Some (Args [AFlag g] false))] else [].
  (** templates/RecordTemplate.rs l.5-20, templates/ObjectTemplate.rs l.30-45. *)
  Definition trait_attrs (ts : list metadata) : list attr :=
    derive (existsb is_debug ts) GDebug ++ derive (existsb is_display ts) GDisplay ++
    derive (existsb is_hash ts) GHash ++ derive (existsb is_ord ts) GOrd ++
    derive (existsb is_eq ts) GEq.
  (** templates/EnumTemplate.rs l.5-20: Display is written where there is a Debug. *)
  Definition enum_trait_attrs (ts : list metadata) : list attr :=
    derive (existsb is_debug ts) GDebug ++ derive (existsb is_debug ts) GDisplay ++
    derive (existsb is_hash ts) GHash ++ derive (existsb is_ord ts) GOrd ++
    derive (existsb is_eq ts) GEq.

  Definition field_stub (f : field) : sfield := SField (Some (raw (fd_name f))) [] (fd_ty f).
  Definition variant_stub (v : variant) : svariant :=
    SVariant (raw (v_name v)) [] None (map field_stub (v_fields v)).
  Definition non_exhaustive (e : enum_meta) : list attr :=
    if e_non_exhaustive e then [AtNonExhaustive] else [].

  (** templates/RecordTemplate.rs. *)
  Definition record_stub (r : record_meta) (ts : list metadata) : item :=
    ItRecord (remote (r_name r)) (raw (r_name r)) (trait_attrs ts) (map field_stub (r_fields r)).
  (** templates/EnumTemplate.rs. *)
  Definition enum_stub (e : enum_meta) (ts : list metadata) : item :=
    ItEnum false (remote (e_name e)) (raw (e_name e)) (enum_trait_attrs ts ++ non_exhaustive e)
           (map variant_stub (e_variants e)).
  (** templates/ErrorTemplate.rs. *)
  Definition error_stub (a : api metadata) (e : enum_meta) : item :=
    ItEnum true (remote (e_name e)) (raw (e_name e))
           ((if is_flat e
             then AtUniffi (Args [AFlag GFlat] false) ::
                  (if should_generate_error_read a e then [AtUniffi (Args [AFlag GTryRead] false)] else [])
             else []) ++ non_exhaustive e)
           (map variant_stub (e_variants e)).

  (** templates/ObjectTemplate.rs l.53-93: one `impl` block each. *)
  Definition constructor_stub (self : str) (f : fn_meta) : item :=
    let t := TObject crate self IStruct in
    ItImpl (Some (raw self)) t None [AtExport None]
      [MbFn (SFn (raw (f_name f)) [AtCtor None] (f_async f) (map arg_rs (f_inputs f))
                 (Some t) (f_throws f) true)].
  Definition method_stub (self : str) (f : fn_meta) : item :=
    ItImpl (Some (raw self)) (TObject crate self IStruct) None [AtExport None]
      [MbFn (SFn (raw (f_name f)) [] (f_async f)
                 (FReceiver (by_arc self (f_name f)) :: map arg_rs (f_inputs f))
                 (f_ret f) (f_throws f) true)].
  (** templates/ObjectTemplate.rs l.5-28. *)
  Definition trait_method_stub (self : str) (f : fn_meta) : member :=
    MbFn (SFn (raw (f_name f)) [] (f_async f)
              (FReceiver (by_arc self (f_name f)) :: map arg_rs (f_inputs f))
              (f_ret f) (f_throws f) false).
  Definition trait_export (o : object_meta) : option args :=
    if has_callback_interface (o_imp o) then Some (Args [AFlag GWithForeign] false)
    else if remote (o_name o) then Some (Args [AFlag GRemote] false)
    else None.
  (** templates/CallbackInterfaceTemplate.rs. *)
  Definition callback_method_stub (self : str) (f : fn_meta) : member :=
    MbFn (SFn (raw (f_name f)) [] false
              (FReceiver (by_arc self (f_name f)) :: map callback_arg_rs (f_inputs f))
              (f_ret f) (f_throws f) false).

  (** templates/scaffolding_template.rs l.18-46; nothing is written for a custom type. *)
  Definition stubs_of (a : api metadata) (v : view metadata) : list item :=
    match v_item v with
    | MRecord r => [record_stub r (v_traits v)]
    | MEnum e =>
        [if is_name_used_as_error a (e_name e) then error_stub a e else enum_stub e (v_traits v)]
    | MObject o =>
        match o_imp o with
        | ITrait _ =>
            [ItTrait (raw (o_name o)) [AtExport (trait_export o)]
                     (map (trait_method_stub (o_name o)) (flat_map fn_of (v_methods v)))]
        | IStruct =>
            ItObject (remote (o_name o)) (raw (o_name o)) (trait_attrs (v_traits v)) ::
            map (constructor_stub (o_name o)) (flat_map fn_of (v_constructors v)) ++
            map (method_stub (o_name o)) (flat_map fn_of (v_methods v))
        end
    | MCallback _ n _ =>
        [ItTrait (raw n) [AtExport (Some (Args [AFlag GCallback] false))]
                 (map (callback_method_stub n) (flat_map fn_of (v_methods v)))]
    | _ => []
    end.

  (** uniffi_macros/src/util.rs [mod_path]: the crate. *)
  Definition here : place := Place crate crate None.

  (** The functions defined for an item: uniffi_macros/src/export.rs l.30-156,
      export/scaffolding.rs l.15-100, object.rs l.85-130, export/trait_interface.rs l.20-123,
      export/callback_interface.rs l.25-38, export/utrait.rs l.177-211.  Metadata and checksums are
      left out in UDL mode (export/scaffolding.rs l.34, l.56, l.82).  The methods of a callback
      interface have no function of their own (export.rs l.124-147). *)
  Definition is_callback (m : metadata) := match m with MCallback _ _ _ => true | _ => false end.
  Definition macro_symbols (ms : list metadata) : list str :=
    flat_map (fun m =>
      match m with
      | MObject o =>
          [clone_fn_symbol_name (o_mp o) (o_name o); free_fn_symbol_name (o_mp o) (o_name o)] ++
          (if has_callback_interface (o_imp o)
           then [init_callback_vtable_fn_symbol_name (o_mp o) (o_name o)] else [])
      | MCallback mp n _ => [init_callback_vtable_fn_symbol_name mp n]
      | _ => if existsb is_callback ms then [] else ffi_symbol_names m
      end) ms.

  (** templates/Checksums.rs, interface/mod.rs l.882-910 [iter_checksums]. *)
  Definition checksums (a : api metadata) : list str :=
    b_checked (ci_generate (Conf [] []) a []).

  (** What the macros read in the code generated for a definition, and for a function. *)
  Definition read_back (a : api metadata) (v : view metadata) : option (list (list metadata)) :=
    traverse (macros here) (stubs_of a v).
  Definition read_back_fn (m : metadata) : option (list (list metadata)) :=
    traverse (macros here) (map fn_stub (fn_of m)).
  (** The functions of the library; [None]: the generated code is refused. *)
  Definition scaffolding (a : api metadata) : option (list str) :=
    Src_Model.bind (traverse (read_back a) (a_types a)) (fun ts =>
    Src_Model.bind (traverse read_back_fn (a_functions a)) (fun fs =>
    Some (flat_map macro_symbols (concat ts ++ concat fs) ++ checksums a))).

  (** The methods that the table of a trait has in Rust, in order: export/callback_interface.rs
      l.51-110; that a trait has none when there is no foreign implementation. *)
  Definition table_of (ms : list metadata) : option (list str) :=
    let names := flat_map (fun m => match m with MTraitMethod _ _ f => [f_name f] | _ => [] end) ms in
    match ms with
    | MObject o :: _ => if has_callback_interface (o_imp o) then Some names else None
    | MCallback _ _ _ :: _ => Some names
    | _ => None
    end.

  (** uniffi_macros/src/error.rs l.43-49, l.107-155: reading a value of a flat error panics unless
      `with_try_read` is said. *)
  Definition can_read (it : item) : bool :=
    match it with
    | ItEnum true _ _ l _ =>
        match m_uniffi one_enum merge_enum (EA None None None) (EA None None None) l with
        | Some a => match ea_flat a, ea_try a with Some _, None => false | _, _ => true end
        | None => false
        end
    | _ => true
    end.
End Templates.
