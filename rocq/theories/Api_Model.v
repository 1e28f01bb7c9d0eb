(** The two readers of metadata.  First: uniffi_bindgen/src/macro_metadata/ci.rs and the [add_*] methods
    of interface/mod.rs.  Second: pipeline/initial/from_uniffi_meta.rs, context.rs and types.rs. *)
From Verif Require Import Base Meta_Types Meta_Eq Api_Types Group_Model.
From Verif Require Names_Model Univ_Model.

(** ** The component interface *)

(** interface/mod.rs l.92-118, the lists of definitions; whether an item is accepted is modelled in
    [Univ_Model]. *)
Record store := Store {
  s_functions : list metadata; s_objects : list (view metadata); s_records : list (view metadata);
  s_enums : list (view metadata); s_callbacks : list (view metadata); s_customs : list metadata }.

Definition bare {A} (m : A) : view A := View m [] [] [] [].

(** The [name] field of a definition. *)
Definition def_name (m : metadata) : str :=
  match m with
  | MRecord r => r_name r
  | MEnum e => e_name e
  | MObject o => o_name o
  | MCallback _ n _ => n
  | MCustom _ n _ _ => n
  | _ => []
  end.

(** [iter_mut().find(|o| o.name == name)], for example interface/mod.rs l.1268-1277, and what is done
    with it. *)
Fixpoint on_first (n : str) (f : view metadata -> view metadata) (l : list (view metadata)) :
  option (list (view metadata)) :=
  match l with
  | [] => None
  | v :: l =>
      if bytes_eqb (def_name (v_item v)) n then Some (f v :: l)
      else match on_first n f l with Some l => Some (v :: l) | None => None end
  end.

Definition with_objects l s :=
  Store (s_functions s) l (s_records s) (s_enums s) (s_callbacks s) (s_customs s).
Definition with_records l s :=
  Store (s_functions s) (s_objects s) l (s_enums s) (s_callbacks s) (s_customs s).
Definition with_enums l s :=
  Store (s_functions s) (s_objects s) (s_records s) l (s_callbacks s) (s_customs s).
Definition with_callbacks l s :=
  Store (s_functions s) (s_objects s) (s_records s) (s_enums s) l (s_customs s).

Definition push_constructor m (v : view metadata) :=
  View (v_item v) (v_constructors v ++ [m]) (v_methods v) (v_traits v) (v_impls v).
Definition push_method m (v : view metadata) :=
  View (v_item v) (v_constructors v) (v_methods v ++ [m]) (v_traits v) (v_impls v).
Definition push_trait m (v : view metadata) :=
  View (v_item v) (v_constructors v) (v_methods v) (v_traits v ++ [m]) (v_impls v).
Definition push_impl m (v : view metadata) :=
  View (v_item v) (v_constructors v) (v_methods v) (v_traits v) (v_impls v ++ [m]).

(** interface/mod.rs l.998-1029 [add_constructor_meta], l.1031-1068 [add_method_meta]: objects, then
    records, then enums.  Without an owner the item is refused ([Univ_Model.add_item]). *)
Definition attach (n : str) (f : view metadata -> view metadata) (s : store) : store :=
  match on_first n f (s_objects s) with
  | Some l => with_objects l s
  | None =>
      match on_first n f (s_records s) with
      | Some l => with_records l s
      | None => match on_first n f (s_enums s) with Some l => with_enums l s | None => s end
      end
  end.

(** interface/mod.rs l.1070-1094 [add_uniffitrait_meta]: objects, then enums, then records. *)
Definition attach_trait (n : str) (f : view metadata -> view metadata) (s : store) : store :=
  match on_first n f (s_objects s) with
  | Some l => with_objects l s
  | None =>
      match on_first n f (s_enums s) with
      | Some l => with_enums l s
      | None => match on_first n f (s_records s) with Some l => with_records l s | None => s end
      end
  end.

(** interface/mod.rs l.962-982 [add_custom_type_definition]; that the two agree but for the docs is
    checked in [Univ_Model.add_item]. *)
Fixpoint merge_custom (mp n : str) (b : ty) (doc : option str) (l : list metadata) : list metadata :=
  match l with
  | [] => [MCustom mp n b doc]
  | MCustom mp' n' b' doc' :: l =>
      if bytes_eqb n' n
      then MCustom mp' n' b' (match doc' with None => doc | Some _ => doc' end) :: l
      else MCustom mp' n' b' doc' :: merge_custom mp n b doc l
  | m :: l => m :: merge_custom mp n b doc l
  end.

(** ci.rs l.67-125 [add_item_to_ci] and interface/mod.rs l.928-1188: what is stored. *)
Definition store_item (m : metadata) (s : store) : store :=
  match m with
  | MNamespace _ _ | MUdlFile _ _ _ => s
  | MFunc _ => Store (s_functions s ++ [m]) (s_objects s) (s_records s) (s_enums s) (s_callbacks s) (s_customs s)
  | MObject _ => with_objects (s_objects s ++ [bare m]) s
  | MRecord _ => with_records (s_records s ++ [bare m]) s
  | MEnum _ => with_enums (s_enums s ++ [bare m]) s
  | MCallback _ _ _ => with_callbacks (s_callbacks s ++ [bare m]) s
  | MCustom mp n b doc =>
      Store (s_functions s) (s_objects s) (s_records s) (s_enums s) (s_callbacks s)
            (merge_custom mp n b doc (s_customs s))
  | MConstructor self _ => attach self (push_constructor m) s
  | MMethod self _ => attach self (push_method m) s
  | MTraitMethod self _ _ =>
      match on_first self (push_method m) (s_callbacks s) with
      | Some l => with_callbacks l s
      | None => attach self (push_method m) s
      end
  | MUniffiTrait u => attach_trait (Univ_Model.utrait_self u) (push_trait m) s
  | MTraitImpl t _ =>
      match Univ_Model.type_name t with
      | Some n => match on_first n (push_impl m) (s_objects s) with
                  | Some l => with_objects l s
                  | None => s
                  end
      | None => s
      end
  end.

Definition empty_store : store := Store [] [] [] [] [] [].
Definition store_all (items : list metadata) : store :=
  fold_left (fun s m => store_item m s) items empty_store.
Definition store_api (s : store) : api metadata :=
  Api (s_functions s)
      (s_objects s ++ s_records s ++ s_enums s ++ s_callbacks s ++ map bare (s_customs s)).

(** loader.rs l.155-186 [load_cis], for one group: interface/mod.rs l.150-175 and ci.rs l.38-55. *)
Definition interface (items : list metadata) : res (api metadata) :=
  bind (Univ_Model.add_metadata items) (fun _ => Ok (store_api (store_all items))).

(** ** The pipeline's initial tree *)

(** The keys of the maps of [UniffiMetaConverter] (from_uniffi_meta.rs l.18-43): which map, the crate,
    the owner, the name.  Maps of maps are kept flat: an inner map is made when its first entry is. *)
Inductive key :=
| KFunction (c n : str) | KRecord (c n : str) | KEnum (c n : str) | KObject (c n : str)
| KCallback (c n : str) | KCustom (c n : str)
| KConstructor (c o n : str) | KMethod (c o n : str) | KTraitMethod (c o n : str)
| KTrait (c o n : str) | KImpl (c o : str) (t : ty).

Definition key_eq_dec (a b : key) : {a = b} + {a <> b}.
Proof. decide equality; try apply str_eq_dec; apply ty_eq_dec. Defined.

(** from_uniffi_meta.rs l.353-355 [module_path_to_crate_name]. *)
Definition path_crate (mp : str) : str := Names_Model.crate_name mp.

(** [UniffiTraitMetadata::name], uniffi_meta/src/lib.rs l.489-497. *)
Definition trait_name_of (u : utrait) : str :=
  S_ (match u with
      | UTDebug _ _ => "Debug" | UTDisplay _ _ => "Display" | UTEq _ _ _ _ => "Eq"
      | UTHash _ _ => "Hash" | UTOrd _ _ => "Ord"
      end)%string.

(** from_uniffi_meta.rs l.94-227: under which key an item goes; [None] for an item that is no entry or
    whose type has no name (l.221). *)
Definition key_of (m : metadata) : option key :=
  match m with
  | MNamespace _ _ | MUdlFile _ _ _ => None
  | MFunc f => Some (KFunction (path_crate (f_mp f)) (f_name f))
  | MRecord r => Some (KRecord (path_crate (r_mp r)) (r_name r))
  | MEnum e => Some (KEnum (path_crate (e_mp e)) (e_name e))
  | MObject o => Some (KObject (path_crate (o_mp o)) (o_name o))
  | MCallback mp n _ => Some (KCallback (path_crate mp) n)
  | MCustom mp n _ _ => Some (KCustom (path_crate mp) n)
  | MConstructor self f => Some (KConstructor (path_crate (f_mp f)) self (f_name f))
  | MMethod self f => Some (KMethod (path_crate (f_mp f)) self (f_name f))
  | MTraitMethod self _ f => Some (KTraitMethod (path_crate (f_mp f)) self (f_name f))
  | MUniffiTrait u =>
      Some (KTrait (path_crate (utrait_path u)) (Univ_Model.utrait_self u) (trait_name_of u))
  | MTraitImpl t trait_ty =>
      match type_module_path t, Univ_Model.type_name t with
      | Some mp, Some n => Some (KImpl (path_crate mp) n trait_ty)
      | _, _ => None
      end
  end.

Fixpoint find_key (k : key) (l : list (key * metadata)) : option metadata :=
  match l with
  | [] => None
  | (k', m) :: l => if key_eq_dec k' k then Some m else find_key k l
  end.

(** from_uniffi_meta.rs l.50-72 [insert_unique]. *)
Definition insert_unique (k : key) (m : metadata) (l : list (key * metadata)) :
  res (list (key * metadata)) :=
  match find_key k l with
  | None => Ok (l ++ [(k, m)])
  | Some m' => if metadata_eq_dec m' m then Ok l else Err
  end.

Fixpoint set_key (k : key) (m : metadata) (l : list (key * metadata)) : list (key * metadata) :=
  match l with
  | [] => []
  | (k', m') :: l => if key_eq_dec k' k then (k', m) :: l else (k', m') :: set_key k m l
  end.

(** from_uniffi_meta.rs l.130-159: custom types. *)
Definition insert_custom (k : key) (m : metadata) (l : list (key * metadata)) :
  res (list (key * metadata)) :=
  match find_key k l with
  | None => Ok (l ++ [(k, m)])
  | Some existing =>
      match existing, m with
      | MCustom mp' _ b' doc', MCustom mp _ b doc =>
          if ty_eq_dec b' b then
            if str_eq_dec mp' mp then
              match doc, doc' with
              | Some _, None => Ok (set_key k m l)
              | _, _ => Ok l
              end
            else Err
          else Err
      | _, _ => Err
      end
  end.

(** from_uniffi_meta.rs l.18-43 [UniffiMetaConverter]: the map from crates to namespaces, the latest
    first; the namespaces with their crates; the items; the names in Rust, by path and name, the latest
    first.  Left out: [module_docstrings], [module_toml]. *)
Record converter := Converter {
  c_paths : list (str * str); c_spaces : list (str * str); c_entries : list (key * metadata);
  c_origs : list ((str * str) * str) }.

Definition with_entries l st := Converter (c_paths st) (c_spaces st) l (c_origs st).

Fixpoint find_str (n : str) (l : list (str * str)) : option str :=
  match l with
  | [] => None
  | (n', x) :: l => if bytes_eqb n' n then Some x else find_str n l
  end.

(** from_uniffi_meta.rs l.78-93. *)
Definition add_namespace (crate name : str) (st : converter) : res converter :=
  match find_str name (c_spaces st) with
  | None => Ok (Converter ((crate, name) :: c_paths st) (c_spaces st ++ [(name, crate)]) (c_entries st)
                          (c_origs st))
  | Some crate' =>
      if str_eq_dec crate' crate
      then Ok (Converter ((crate, name) :: c_paths st) (c_spaces st) (c_entries st) (c_origs st))
      else Err
  end.

(** from_uniffi_meta.rs l.236-243 [update_orig_names], and the calls of it. *)
Definition renamed (m : metadata) : option ((str * str) * str) :=
  match m with
  | MFunc f => match f_orig f with Some o => Some ((f_mp f, f_name f), o) | None => None end
  | MRecord r => match r_orig r with Some o => Some ((r_mp r, r_name r), o) | None => None end
  | MEnum e => match e_orig e with Some o => Some ((e_mp e, e_name e), o) | None => None end
  | MObject o => match o_orig o with Some x => Some ((o_mp o, o_name o), x) | None => None end
  | _ => None
  end.
Definition update_orig_names (m : metadata) (st : converter) : converter :=
  match renamed m with
  | Some e => Converter (c_paths st) (c_spaces st) (c_entries st) (e :: c_origs st)
  | None => st
  end.

(** from_uniffi_meta.rs l.76-234 [add_metadata_item]. *)
Definition add_metadata_item (m : metadata) (st : converter) : res converter :=
  match m with
  | MNamespace crate name => add_namespace crate name st
  | MUdlFile _ _ _ => Ok st
  | _ =>
      match key_of m with
      | None => Err
      | Some k =>
          let insert := match m with MCustom _ _ _ _ => insert_custom | _ => insert_unique end in
          bind (insert k m (c_entries st)) (fun l => Ok (with_entries l (update_orig_names m st)))
      end
  end.
Fixpoint add_all (items : list metadata) (st : converter) : res converter :=
  match items with
  | [] => Ok st
  | m :: items => bind (add_metadata_item m st) (add_all items)
  end.

(** loader.rs l.257-272, the loop over the groups. *)
Fixpoint add_groups (gs : list group) (st : converter) : res converter :=
  match gs with
  | [] => Ok st
  | g :: gs =>
      bind (add_metadata_item (MNamespace (g_crate g) (g_namespace g)) st) (fun st =>
      bind (add_all (g_items g) st) (add_groups gs))
  end.

(** [replace("-", "_")] *)
Definition replace_dashes (s : str) : str :=
  map (fun b => if byte_eqb b Byte.x2d then Byte.x5f else b) s.

(** context.rs l.42-54 [get_namespace_name]; also from_uniffi_meta.rs l.357-375 [get_namespace]: every
    namespace the map names is there. *)
Definition namespace_of (st : converter) (mp : str) : res str :=
  match find_str (replace_dashes (path_crate mp)) (c_paths st) with
  | Some ns => Ok ns
  | None => Err
  end.

(** context.rs l.56-62 [get_orig_name]. *)
Fixpoint find_orig (mp n : str) (l : list ((str * str) * str)) : option str :=
  match l with
  | [] => None
  | ((mp', n'), o) :: l => if bytes_eqb mp' mp && bytes_eqb n' n then Some o else find_orig mp n l
  end.
Definition orig_name (st : converter) (mp n : str) : str :=
  match find_orig mp n (c_origs st) with Some o => o | None => n end.

(** types.rs l.7-79 [map_type]. *)
Fixpoint map_type (st : converter) (t : ty) : res ity :=
  match t with
  | TBox t => bind (map_type st t) (fun i => Ok (IBox i))
  | TOption t => bind (map_type st t) (fun i => Ok (IOption i))
  | TSeq t => bind (map_type st t) (fun i => Ok (ISeq i))
  | TSet t => bind (map_type st t) (fun i => Ok (ISet i))
  | TMap k v => bind (map_type st k) (fun i => bind (map_type st v) (fun j => Ok (IMap i j)))
  | TObject mp n i => bind (namespace_of st mp) (fun ns => Ok (IInterface ns n (orig_name st mp n) i))
  | TRecord mp n => bind (namespace_of st mp) (fun ns => Ok (IRecord ns n (orig_name st mp n)))
  | TEnum mp n => bind (namespace_of st mp) (fun ns => Ok (IEnum ns n (orig_name st mp n)))
  | TCallback mp n => bind (namespace_of st mp) (fun ns => Ok (ICallback ns n (orig_name st mp n)))
  | TCustom mp n t =>
      bind (namespace_of st mp) (fun ns =>
      bind (map_type st t) (fun i => Ok (ICustom ns n (orig_name st mp n) i)))
  | t => Ok (IBase t)
  end.
Fixpoint map_all {A B} (f : A -> res B) (l : list A) : res (list B) :=
  match l with
  | [] => Ok []
  | a :: l => bind (f a) (fun b => bind (map_all f l) (fun bs => Ok (b :: bs)))
  end.

(** nodes.rs l.56-286: the types in each kind of node, in the order of the fields. *)
Fixpoint types_of_literal (l : literal) : list ty :=
  match l with
  | LUInt _ _ t | LInt _ _ t | LFloat _ t | LEnum _ t => [t]
  | LSome d => types_of_default d
  | _ => []
  end
with types_of_default (d : default) : list ty :=
  match d with DDefault => [] | DLit l => types_of_literal l end.
Definition in_option {A B} (f : A -> list B) (o : option A) : list B :=
  match o with Some a => f a | None => [] end.
Definition types_of_fn (f : fn_meta) : list ty :=
  flat_map (fun p => p_ty p :: in_option types_of_default (p_default p)) (f_inputs f) ++
  in_option (fun t => [t]) (f_ret f) ++ in_option (fun t => [t]) (f_throws f).
Definition types_of_fields (fs : list field) : list ty :=
  flat_map (fun f => fd_ty f :: in_option types_of_default (fd_default f)) fs.
Definition types_of_node (m : metadata) : list ty :=
  match m with
  | MFunc f | MConstructor _ f | MMethod _ f | MTraitMethod _ _ f => types_of_fn f
  | MUniffiTrait (UTDebug _ f | UTDisplay _ f | UTHash _ f | UTOrd _ f) => types_of_fn f
  | MUniffiTrait (UTEq _ e _ n) => types_of_fn e ++ types_of_fn n
  | MRecord r => types_of_fields (r_fields r)
  | MEnum e =>
      flat_map (fun v => in_option types_of_literal (v_discr v) ++ types_of_fields (v_fields v)) (e_variants e)
      ++ in_option (fun t => [t]) (e_discr_ty e)
  | MCustom _ _ b _ => [b]
  | MTraitImpl t u => [t; u]
  | _ => []
  end.
(** [map_node], uniffi_pipeline/src/map_node.rs: every part of a node is translated. *)
Definition map_node (st : converter) (m : metadata) : res shown :=
  bind (map_all (map_type st) (types_of_node m)) (fun ts => Ok (m, ts)).

(** The entries of an inner map. *)
Definition entries_where (p : key -> bool) (st : converter) : list metadata :=
  map snd (filter (fun e => p (fst e)) (c_entries st)).
Definition eqb2 (c n c' n' : str) : bool := bytes_eqb c c' && bytes_eqb n n'.

(** [sort_by_key]: stable. *)
Definition index_of (m : metadata) : Z := match m with MTraitMethod _ k _ => k | _ => 0%Z end.
Fixpoint insert_by_index (m : metadata) (l : list metadata) : list metadata :=
  match l with
  | [] => [m]
  | x :: l => if (index_of m <=? index_of x)%Z then m :: x :: l else x :: insert_by_index m l
  end.
Definition sort_by_index (l : list metadata) : list metadata := fold_right insert_by_index [] l.

(** context.rs l.68-93 [methods_for_type]. *)
Definition methods_for_type (st : converter) (mp n : str) : res (list shown) :=
  let c := path_crate mp in
  let methods := entries_where (fun k => match k with KMethod c' o _ => eqb2 c n c' o | _ => false end) st in
  let trait_methods :=
    entries_where (fun k => match k with KTraitMethod c' o _ => eqb2 c n c' o | _ => false end) st in
  match methods with
  | _ :: _ => match trait_methods with
              | _ :: _ => Err
              | [] => map_all (map_node st) methods
              end
  | [] => map_all (map_node st) (sort_by_index trait_methods)
  end.

(** context.rs l.95-112 [constructors_for_type]. *)
Definition constructors_for_type (st : converter) (mp n : str) : res (list shown) :=
  let c := path_crate mp in
  map_all (map_node st)
    (entries_where (fun k => match k with KConstructor c' o _ => eqb2 c n c' o | _ => false end) st).

(** context.rs l.114-131 [uniffi_traits_for_type]. *)
Definition uniffi_traits_for_type (st : converter) (mp n : str) : res (list shown) :=
  let c := path_crate mp in
  map_all (map_node st)
    (entries_where (fun k => match k with KTrait c' o _ => eqb2 c n c' o | _ => false end) st).

(** context.rs l.133-150 [trait_impls_for_type]. *)
Definition trait_impls_for_type (st : converter) (mp n : str) : res (list shown) :=
  let c := path_crate mp in
  map_all (map_node st)
    (entries_where (fun k => match k with KImpl c' o _ => eqb2 c n c' o | _ => false end) st).

(** types.rs l.81-107 [map_record], [map_enum]. *)
Definition map_data (st : converter) (mp n : str) (m : metadata) : res (view shown) :=
  bind (constructors_for_type st mp n) (fun cs =>
  bind (methods_for_type st mp n) (fun ms =>
  bind (uniffi_traits_for_type st mp n) (fun ts =>
  bind (map_node st m) (fun m => Ok (View m cs ms ts []))))).
(** types.rs l.109-121 [map_interface]. *)
Definition map_interface (st : converter) (mp n : str) (m : metadata) : res (view shown) :=
  bind (constructors_for_type st mp n) (fun cs =>
  bind (methods_for_type st mp n) (fun ms =>
  bind (uniffi_traits_for_type st mp n) (fun ts =>
  bind (trait_impls_for_type st mp n) (fun is =>
  bind (map_node st m) (fun m => Ok (View m cs ms ts is)))))).
(** types.rs l.123-135 [map_callback_interface]. *)
Definition map_callback_interface (st : converter) (mp n : str) (m : metadata) : res (view shown) :=
  bind (methods_for_type st mp n) (fun ms =>
  bind (map_node st m) (fun m => Ok (View m [] ms [] []))).
(** types.rs l.137-148 [map_custom_type]. *)
Definition map_custom_type (st : converter) (m : metadata) : res (view shown) :=
  bind (map_node st m) (fun m => Ok (bare m)).

(** A function or a definition, in a namespace. *)
Inductive node := NFunction (s : shown) | NType (v : view shown).

(** from_uniffi_meta.rs l.302-348: one entry of the maps of functions and definitions. *)
Definition place (st : converter) (e : key * metadata) : res (list (str * node)) :=
  let put c (r : res node) :=
    bind (namespace_of st c) (fun ns => bind r (fun x => Ok [(ns, x)])) in
  let put_type c (r : res (view shown)) := put c (bind r (fun v => Ok (NType v))) in
  match snd e with
  | MFunc f => put (path_crate (f_mp f)) (bind (map_node st (snd e)) (fun s => Ok (NFunction s)))
  | MRecord r => put_type (path_crate (r_mp r)) (map_data st (r_mp r) (r_name r) (snd e))
  | MEnum x => put_type (path_crate (e_mp x)) (map_data st (e_mp x) (e_name x) (snd e))
  | MCustom mp _ _ _ => put_type (path_crate mp) (map_custom_type st (snd e))
  | MObject o => put_type (path_crate (o_mp o)) (map_interface st (o_mp o) (o_name o) (snd e))
  | MCallback mp n _ => put_type (path_crate mp) (map_callback_interface st mp n (snd e))
  | _ => Ok []
  end.

Definition functions_in (ns : str) (l : list (str * node)) : list shown :=
  flat_map (fun e => match e with
                     | (ns', NFunction s) => if bytes_eqb ns' ns then [s] else []
                     | _ => []
                     end) l.
Definition types_in (ns : str) (l : list (str * node)) : list (view shown) :=
  flat_map (fun e => match e with
                     | (ns', NType v) => if bytes_eqb ns' ns then [v] else []
                     | _ => []
                     end) l.

(** nodes.rs l.26-35 [Namespace]. *)
Record namespace := Namespace { n_name : str; n_crate : str; n_api : api shown }.

(** from_uniffi_meta.rs l.262-350 [try_into_initial_ir].  Simplification: functions, records, enums and so
    on are placed one kind after the other; here in the order in which they were added. *)
Definition try_into_initial_ir (st : converter) : res (list namespace) :=
  bind (map_all (place st) (c_entries st)) (fun nodes =>
  let l := concat nodes in
  Ok (map (fun s => Namespace (fst s) (snd s) (Api (functions_in (fst s) l) (types_in (fst s) l)))
          (c_spaces st))).

(** loader.rs l.245-281 [load_pipeline_initial_root]. *)
Definition pipeline (gs : list group) : res (list namespace) :=
  bind (add_groups gs (Converter [] [] [] [])) try_into_initial_ir.
