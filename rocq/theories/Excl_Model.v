(** Leaving out and renaming what a configuration says, and what is generated then.  Kotlin, Swift and
    Ruby: uniffi_bindgen/src/interface/exclude.rs, rename.rs, object.rs, callbacks.rs, mod.rs.  Python:
    pipeline/general. *)
From Verif Require Import Base Meta_Types Meta_Eq Api_Types Api_Model Excl_Types.
From Verif Require Import Names_Model.
From Verif Require Univ_Model.

(** [HashSet::contains] *)
Definition contains (l : list str) (n : str) : bool := existsb (bytes_eqb n) l.
(** [Table::get] *)
Fixpoint get (n : str) (l : list (str * str)) : option str :=
  match l with
  | [] => None
  | (k, x) :: l => if bytes_eqb k n then Some x else get n l
  end.

(** The [name] of a function, constructor or method. *)
Definition name_of (m : metadata) : str :=
  match m with
  | MFunc f | MConstructor _ f | MMethod _ f | MTraitMethod _ _ f => f_name f
  | _ => []
  end.

(** ** The component interface *)

(** interface/exclude.rs l.37-39. *)
Definition remove_functions (ex : list str) (l : list metadata) : list metadata :=
  filter (fun f => negb (contains ex (name_of f))) l.
(** exclude.rs l.41-67; [type_definitions] is not needed here. *)
Definition remove_type_definitions (ex : list str) (l : list (view metadata)) (known : list ty) :
  list (view metadata) * list ty :=
  let removed := map (fun v => def_name (v_item v)) (filter (fun v => contains ex (def_name (v_item v))) l) in
  (filter (fun v => negb (contains ex (def_name (v_item v)))) l,
   filter (fun t => match Univ_Model.type_name t with
                    | None => true
                    | Some n => negb (contains removed n)
                    end) known).
(** exclude.rs l.69-79 [remove_constructors], [remove_methods]. *)
Definition remove_members (ex : list str) (type_name : str) (l : list metadata) : list metadata :=
  filter (fun m => negb (contains ex (type_name ++ S_ "." ++ name_of m))) l.
(** exclude.rs l.20-34; callback interfaces have no constructors. *)
Definition remove_in (ex : list str) (v : view metadata) : view metadata :=
  View (v_item v) (remove_members ex (def_name (v_item v)) (v_constructors v))
       (remove_members ex (def_name (v_item v)) (v_methods v)) (v_traits v) (v_impls v).
(** exclude.rs l.11-35 [apply_exclusions]. *)
Definition apply_exclusions (ex : list str) (s : store) (known : list ty) : store * list ty :=
  let fs := remove_functions ex (s_functions s) in
  let '(records, known) := remove_type_definitions ex (s_records s) known in
  let '(enums, known) := remove_type_definitions ex (s_enums s) known in
  let '(objects, known) := remove_type_definitions ex (s_objects s) known in
  let '(callbacks, known) := remove_type_definitions ex (s_callbacks s) known in
  (Store fs (map (remove_in ex) objects) (map (remove_in ex) records) (map (remove_in ex) enums)
         (map (remove_in ex) callbacks) (s_customs s), known).

(** interface/function.rs l.151-175, object.rs l.454-480, l.609-635: symbols come from the items when
    these are added, and are not renamed.  uniffi_meta/src/lib.rs l.152-160, l.176-186, l.206-216,
    l.232-242. *)
Definition ffi_symbol_names (m : metadata) : list str :=
  let method self f := method_symbol_name (f_mp f) self (f_name f) in
  match m with
  | MFunc f => [fn_symbol_name (f_mp f) (f_name f)]
  | MConstructor self f => [constructor_symbol_name (f_mp f) self (f_name f)]
  | MMethod self f | MTraitMethod self _ f => [method self f]
  | MUniffiTrait (UTDebug self f | UTDisplay self f | UTHash self f | UTOrd self f) => [method self f]
  | MUniffiTrait (UTEq self e self' n) => [method self e; method self' n]
  | _ => []
  end.
Definition checksum_symbol_names (m : metadata) : list str :=
  match m with
  | MFunc f => [fn_checksum_symbol_name (f_mp f) (f_name f)]
  | MConstructor self f => [constructor_checksum_symbol_name (f_mp f) self (f_name f)]
  | MMethod self f | MTraitMethod self _ f => [method_checksum_symbol_name (f_mp f) self (f_name f)]
  | _ => []
  end.
Definition call_of (m : metadata) : call := Call m (ffi_symbol_names m).

(** uniffi_meta/src/types.rs l.57-61 [has_callback_interface]. *)
Definition has_callback_interface (i : obj_impl) : bool :=
  match i with ITrait (Both | ForeignOnly) => true | _ => false end.

(** rename.rs l.53-65: the new name of an object or callback interface. *)
Definition new_name (c : conf) (n : str) : str := match get n (renames c) with Some x => x | None => n end.

(** interface/object.rs l.252-258 and l.288-306, callbacks.rs l.79-82 and l.94-106: after renaming
    (bindings/kotlin/mod.rs l.49-52, l.107-127). *)
Definition ci_table (c : conf) (v : view metadata) : option table :=
  match v_item v with
  | MObject o =>
      if has_callback_interface (o_imp o)
      then Some (Table (init_callback_vtable_fn_symbol_name (o_mp o) (new_name c (o_name o))) (v_methods v))
      else None
  | MCallback mp n _ => Some (Table (init_callback_vtable_fn_symbol_name mp (new_name c n)) (v_methods v))
  | _ => None
  end.
Definition ci_typ (c : conf) (v : view metadata) : typ :=
  Typ (v_item v) (map call_of (v_constructors v)) (map call_of (v_methods v)) (map call_of (v_traits v))
      (v_impls v) (ci_table c v).

Definition init_symbol (t : option table) : list str := match t with Some t => [t_init t] | None => [] end.
(** object.rs l.218-236, record.rs l.138-155, enum_.rs l.314-331; interface/mod.rs l.816-820 for
    callback interfaces; custom types have none. *)
Definition ci_symbols (y : typ) : list str :=
  let members := flat_map c_symbols (y_constructors y ++ y_methods y ++ y_traits y) in
  match y_item y with
  | MObject o =>
      [clone_fn_symbol_name (o_mp o) (o_name o); free_fn_symbol_name (o_mp o) (o_name o)]
      ++ init_symbol (y_table y) ++ members
  | MCallback _ _ _ => init_symbol (y_table y)
  | MRecord _ | MEnum _ => members
  | _ => []
  end.
(** interface/mod.rs l.882-910 [iter_checksums]. *)
Definition ci_checksums (y : typ) : list str :=
  match y_item y with
  | MObject _ => flat_map checksum_symbol_names (map c_item (y_methods y ++ y_constructors y))
  | MCallback _ _ _ => flat_map checksum_symbol_names (map c_item (y_methods y))
  | _ => []
  end.
(** interface/mod.rs l.795-832: what is declared.  Converters are generated for the known types
    (interface/mod.rs l.356-358, gen_kotlin/mod.rs l.350-358,
    gen_swift/mod.rs l.687-695). *)
Definition ci_generate (c : conf) (a : api metadata) (known : list ty) : bindings :=
  let fs := map call_of (a_functions a) in
  let ts := map (ci_typ c) (a_types a) in
  let checked := flat_map checksum_symbol_names (a_functions a) ++ flat_map ci_checksums ts in
  Bindings fs ts known (flat_map ci_symbols ts ++ flat_map c_symbols fs ++ checked) checked.

(** loader.rs l.155-186 [load_cis], then bindings/kotlin/mod.rs l.107-127 [update_component_configs],
    in Swift swift/mod.rs l.248-268, in Ruby ruby/mod.rs l.79-97. *)
Definition ci_bindings (c : conf) (items : list metadata) : res bindings :=
  bind (Univ_Model.add_metadata items) (fun i =>
  let '(s, known) := apply_exclusions (excluded c) (store_all items) (Univ_Model.known (Univ_Model.types i)) in
  Ok (ci_generate c (store_api s) known)).

(** ** The pipeline *)

(** pipeline/general/exclude.rs l.35-48. *)
Definition should_exclude_toplevel_item (c : conf) (n : str) : bool := contains (excluded c) n.
Definition should_exclude_method (c : conf) (type_name n : str) : bool :=
  contains (excluded c) (type_name ++ S_ "." ++ n).

(** callable.rs l.27-140: symbols from the crate, the type the context is in, and the name in the
    item. *)
Definition pl_symbols (crate type_name : str) (m : metadata) : list str :=
  match m with
  | MFunc f => [fn_symbol_name crate (f_name f)]
  | MConstructor _ f => [constructor_symbol_name crate type_name (f_name f)]
  | MMethod _ f | MTraitMethod _ _ f => [method_symbol_name crate type_name (f_name f)]
  | MUniffiTrait (UTDebug _ f | UTDisplay _ f | UTHash _ f | UTOrd _ f) =>
      [method_symbol_name crate type_name (f_name f)]
  | MUniffiTrait (UTEq _ e _ n) =>
      [method_symbol_name crate type_name (f_name e); method_symbol_name crate type_name (f_name n)]
  | _ => []
  end.
Definition pl_call (crate type_name : str) (m : metadata) : call := Call m (pl_symbols crate type_name m).

(** callback_interfaces.rs l.10-65: the table has all methods. *)
Definition pl_table (crate : str) (v : view metadata) : option table :=
  let vtable n := Some (Table (init_callback_vtable_fn_symbol_name crate n) (v_methods v)) in
  match v_item v with
  | MObject o => if has_callback_interface (o_imp o) then vtable (o_name o) else None
  | MCallback _ n _ => vtable n
  | _ => None
  end.
(** objects.rs l.87-147, uniffi_traits.rs l.7-33, nodes.rs l.240-420. *)
Definition pl_typ (c : conf) (crate : str) (v : view metadata) : typ :=
  let n := def_name (v_item v) in
  let kept l := filter (fun m => negb (should_exclude_method c n (name_of m))) l in
  Typ (v_item v) (map (pl_call crate n) (kept (v_constructors v))) (map (pl_call crate n) (kept (v_methods v)))
      (map (pl_call crate n) (v_traits v)) (v_impls v) (pl_table crate v).

(** callable.rs l.115-118: a constructor of a record or an enum is an error. *)
Definition bad_constructor (y : typ) : bool :=
  match y_item y, y_constructors y with
  | MObject _, _ | _, [] => false
  | _, _ => true
  end.

(** ffi_functions.rs l.31-78, objects.rs l.21-85, callback_interfaces.rs l.67-104: before anything is
    left out. *)
Definition pl_type_symbols (crate : str) (v : view metadata) : list str :=
  let n := def_name (v_item v) in
  match v_item v with
  | MObject _ =>
      flat_map (pl_symbols crate n) (v_methods v ++ v_traits v ++ v_constructors v)
      ++ [clone_fn_symbol_name crate n; free_fn_symbol_name crate n] ++ init_symbol (pl_table crate v)
  | MCallback _ _ _ => init_symbol (pl_table crate v)
  | MRecord _ | MEnum _ => flat_map (pl_symbols crate n) (v_methods v ++ v_traits v)
  | _ => []
  end.
(** checksums.rs l.9-60. *)
Definition pl_checksum (crate type_name : str) (m : metadata) : list str :=
  let give f s := match f_checksum f with Some _ => [s] | None => [] end in
  match m with
  | MFunc f => give f (fn_checksum_symbol_name crate (f_name f))
  | MConstructor _ f => give f (constructor_checksum_symbol_name crate type_name (f_name f))
  | MMethod _ f | MTraitMethod _ _ f => give f (method_checksum_symbol_name crate type_name (f_name f))
  | _ => []
  end.
Definition pl_type_checksums (crate : str) (v : view metadata) : list str :=
  match v_item v with
  | MObject o => flat_map (pl_checksum crate (o_name o)) (v_methods v ++ v_constructors v)
  | _ => []
  end.

(** [visit] on a type: the type and those in it, uniffi_pipeline/src/node.rs. *)
Fixpoint visit (t : ty) : list ty :=
  t :: match t with
       | TBox t | TOption t | TSeq t | TSet t | TCustom _ _ t => visit t
       | TMap k v => visit k ++ visit v
       | _ => []
       end.
(** type_definitions_from_api.rs l.26-106: which types get a definition of their own.  Simplification:
    namespaces are crates (C62). *)
Definition gets_definition (crate : str) (t : ty) : bool :=
  match t with
  | TRecord mp _ | TEnum mp _ | TObject mp _ _ | TCustom mp _ _ => negb (bytes_eqb (path_crate mp) crate)
  | TCallback _ _ => false
  | _ => true
  end.
Definition view_items (v : view metadata) : list metadata :=
  v_item v :: v_constructors v ++ v_methods v ++ v_traits v ++ v_impls v.
(** type_definitions_from_api.rs l.13-109: of everything, also of what is left out. *)
Definition type_definitions_from_api (crate : str) (a : api metadata) : list ty :=
  filter (gets_definition crate)
    (TString :: flat_map visit (flat_map types_of_node (a_functions a ++ flat_map view_items (a_types a)))).

(** namespaces.rs l.8-79 [map_namespace]. *)
Definition pl_generate (c : conf) (crate : str) (a : api metadata) : res bindings :=
  let fs := map (pl_call crate [])
              (filter (fun f => negb (should_exclude_toplevel_item c (name_of f))) (a_functions a)) in
  let ts := map (pl_typ c crate)
              (filter (fun v => negb (should_exclude_toplevel_item c (def_name (v_item v)))) (a_types a)) in
  let checked := flat_map (pl_checksum crate []) (a_functions a) ++
                 flat_map (pl_type_checksums crate) (a_types a) in
  if existsb bad_constructor ts then Err
  else Ok (Bindings fs ts (type_definitions_from_api crate a)
             (checked ++ flat_map (pl_symbols crate []) (a_functions a)
                ++ flat_map (pl_type_symbols crate) (a_types a)) checked).
(** The items in a namespace of the tree; their types were translated (C62). *)
Definition pl_bindings (c : conf) (n : namespace) : res bindings :=
  pl_generate c (n_crate n) (api_map fst (n_api n)).
