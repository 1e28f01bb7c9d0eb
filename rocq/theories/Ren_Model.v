(** Renaming items from the configuration: uniffi_bindgen/src/interface/{visit_mut,rename}.rs for
    Kotlin, Swift and Ruby, uniffi_bindgen/src/pipeline/general for Python. *)
From Verif Require Import Base Meta_Types.
From Verif Require Names_Model.

(** [HashMap<String, toml::Table>] (rename.rs l.12): for each crate, new names by key.  A value that
    is not a string is [None]. *)
Definition table := list (str * option str).
Definition tables := list (str * table).

Fixpoint assoc {A} (k : str) (l : list (str * A)) : option A :=
  match l with
  | [] => None
  | (k', a) :: l => if bytes_eqb k k' then Some a else assoc k l
  end.

(** rename.rs l.93-97, [as_str] of what [get] finds. *)
Definition table_get (k : str) (t : table) : option str :=
  match assoc k t with Some (Some s) => Some s | _ => None end.

(** What is generated for an item: names and types only.  Excluded items (interface/exclude.rs) are
    taken to be gone, and default values are left out.  interface/function.rs l.48-72, object.rs
    l.362-386, l.492-520.  [c_self] is the [self_type] of a method or constructor: for a constructor
    it is the type returned (object.rs l.743-745). *)
Record callable := Callable {
  c_name : str; c_args : list (str * ty); c_ret : option ty; c_throws : option ty;
  c_self : option ty }.

(** record.rs l.62-72, enum_.rs l.178-192 and l.371-377, object.rs l.83-102, callbacks.rs l.46-60.
    [*_traits] are the methods of the built-in traits ([uniffi_traits]); constructors of records and
    enums are left out, they are never accepted (C38). *)
Record record_def := RecordDef {
  rd_mp : str; rd_name : str; rd_fields : list (str * ty);
  rd_methods : list callable; rd_traits : list callable }.
Record variant_def := VariantDef { vd_name : str; vd_fields : list (str * ty) }.
Record enum_def := EnumDef {
  ed_mp : str; ed_name : str; ed_variants : list variant_def;
  ed_methods : list callable; ed_traits : list callable }.
Record object_def := ObjectDef {
  od_mp : str; od_name : str; od_constructors : list callable; od_methods : list callable;
  od_traits : list callable; od_trait_impls : list ty }.
Record callback_def := CallbackDef { cb_mp : str; cb_name : str; cb_methods : list callable }.

(** interface/mod.rs l.92-118 [ComponentInterface]. *)
Record ci := Ci {
  ci_crate : str; type_definitions : list (str * ty); known : list ty;
  enums : list enum_def; records : list record_def; functions : list callable;
  objects : list object_def; callbacks : list callback_def;
  callback_throws : list ty; errors : list str }.

(** ** The component interface *)

(** types.rs l.206-234 [rename_recursive]: boxes are not looked into. *)
Fixpoint rename_recursive (f : str -> str) (t : ty) : ty :=
  match t with
  | TObject mp n i => TObject mp (f n) i
  | TRecord mp n => TRecord mp (f n)
  | TEnum mp n => TEnum mp (f n)
  | TCallback mp n => TCallback mp (f n)
  | TCustom mp n b => TCustom mp (f n) (rename_recursive f b)
  | TOption t => TOption (rename_recursive f t)
  | TSeq t => TSeq (rename_recursive f t)
  | TSet t => TSet (rename_recursive f t)
  | TMap k v => TMap (rename_recursive f k) (rename_recursive f v)
  | t => t
  end.

(** types.rs l.181-190 [module_path]. *)
Definition type_path (t : ty) : option str :=
  match t with
  | TObject mp _ _ | TRecord mp _ | TEnum mp _ | TCustom mp _ _ | TCallback mp _ => Some mp
  | _ => None
  end.

Section Rename.
  Variable renames : tables.
  Variable this : str.

  (** rename.rs l.26-33 [new_name]. *)
  Definition new_name (mp key : str) : option str :=
    match assoc (Names_Model.crate_name mp) renames with
    | Some t => table_get key t
    | None => None
    end.
  Definition or_same (o : option str) (n : str) : str := match o with Some n => n | None => n end.

  (** [format!("{}.{}", a, b)]. *)
  Definition dotted (a b : str) : str := a ++ S_ "." ++ b.

  (** rename.rs l.86-98 [visit_type]: one table for the whole type, that of the outermost. *)
  Definition visit_type (t : ty) : ty :=
    let mp := match type_path t with Some mp => mp | None => this end in
    let tbl := assoc (Names_Model.crate_name mp) renames in
    rename_recursive
      (fun n => or_same (match tbl with Some t => table_get n t | None => None end) n) t.

  (** rename.rs l.101-113 and l.122-128, l.139-144: the arguments. *)
  Definition visit_args (path : str) (args : list (str * ty)) : list (str * ty) :=
    map (fun a => (or_same (new_name this (dotted path (fst a))) (fst a), snd a)) args.
  Definition visit_arg_types (args : list (str * ty)) : list (str * ty) :=
    map (fun a => (fst a, visit_type (snd a))) args.

  (** rename.rs l.100-114 [visit_method] and l.116-129 [visit_constructor]. *)
  Definition visit_method (owner : str) (c : callable) : callable :=
    let path := dotted owner (c_name c) in
    Callable (or_same (new_name this path) (c_name c)) (visit_args path (c_args c))
             (c_ret c) (c_throws c) (c_self c).

  (** rename.rs l.131-145 [visit_function]. *)
  Definition visit_function (c : callable) : callable :=
    Callable (or_same (new_name this (c_name c)) (c_name c)) (visit_args (c_name c) (c_args c))
             (c_ret c) (c_throws c) (c_self c).

  Definition visit_signature (c : callable) : callable :=
    Callable (c_name c) (visit_arg_types (c_args c)) (option_map visit_type (c_ret c))
             (option_map visit_type (c_throws c)) (c_self c).
  Definition visit_arguments_only (c : callable) : callable :=
    Callable (c_name c) (visit_arg_types (c_args c)) (c_ret c) (c_throws c) (c_self c).

  (** rename.rs l.36-50 [visit_record], then visit_mut.rs l.48-55. *)
  Definition rename_fields (mp path : str) (fs : list (str * ty)) : list (str * ty) :=
    map (fun f => (or_same (new_name mp (dotted path (fst f))) (fst f), snd f)) fs.
  Definition visit_record (r : record_def) : record_def :=
    RecordDef (rd_mp r) (or_same (new_name (rd_mp r) (rd_name r)) (rd_name r))
      (visit_arg_types (rename_fields (rd_mp r) (rd_name r) (rd_fields r)))
      (rd_methods r) (rd_traits r).

  (** rename.rs l.66-84 [visit_enum], then visit_mut.rs l.33-46. *)
  Definition visit_variant (mp enum_name : str) (v : variant_def) : variant_def :=
    let path := dotted enum_name (vd_name v) in
    VariantDef (or_same (new_name mp path) (vd_name v))
      (visit_arg_types (rename_fields mp path (vd_fields v))).
  Definition visit_enum (e : enum_def) : enum_def :=
    EnumDef (ed_mp e) (or_same (new_name (ed_mp e) (ed_name e)) (ed_name e))
      (map (visit_variant (ed_mp e) (ed_name e)) (ed_variants e)) (ed_methods e) (ed_traits e).

  (** rename.rs l.52-57 [visit_object] and visit_mut.rs l.80-118. *)
  Definition visit_object (o : object_def) : object_def :=
    ObjectDef (od_mp o) (or_same (new_name (od_mp o) (od_name o)) (od_name o))
      (map (fun c => visit_arguments_only (visit_method (od_name o) c)) (od_constructors o))
      (map (fun c => visit_signature (visit_method (od_name o) c)) (od_methods o))
      (od_traits o) (od_trait_impls o).

  (** rename.rs l.59-64 [visit_callback_interface] and visit_mut.rs l.120-134: the interface is
      renamed before its methods are. *)
  Definition visit_callback (c : callback_def) : callback_def :=
    let name := or_same (new_name (cb_mp c) (cb_name c)) (cb_name c) in
    CallbackDef (cb_mp c) name
      (map (fun m => visit_arguments_only (visit_method name m)) (cb_methods c)).
End Rename.

(** visit_mut.rs l.18-158 with rename.rs l.12-18 [rename].  The sets are lists: an element that turns
    into another one is kept twice. *)
Definition rename (renames : tables) (c : ci) : ci :=
  let this := ci_crate c in
  Ci this
     (map (fun d => (fst d, visit_type renames this (snd d))) (type_definitions c))
     (map (visit_type renames this) (known c))
     (map (visit_enum renames this) (enums c))
     (map (visit_record renames this) (records c))
     (map (fun f => visit_signature renames this (visit_function renames this f)) (functions c))
     (map (visit_object renames this) (objects c))
     (map (visit_callback renames this) (callbacks c))
     (map (visit_type renames this) (callback_throws c))
     (map (fun e => or_same (new_name renames this e) e) (errors c)).

(** ** The pipeline *)

(** Here [mp] is the namespace, and every namespace has a table (context.rs l.101-114). *)
Definition p_new_name (renames : tables) (ns key : str) : res (option str) :=
  match assoc ns renames with Some t => Ok (table_get key t) | None => Err end.
Definition p_rename (renames : tables) (ns key n : str) : res str :=
  bind (p_new_name renames ns key) (fun o => Ok (or_same o n)).

(** types.rs l.67-115 [map_type]. *)
Fixpoint p_type (renames : tables) (t : ty) : res ty :=
  match t with
  | TObject mp n i => bind (p_rename renames mp n n) (fun n => Ok (TObject mp n i))
  | TRecord mp n => bind (p_rename renames mp n n) (fun n => Ok (TRecord mp n))
  | TEnum mp n => bind (p_rename renames mp n n) (fun n => Ok (TEnum mp n))
  | TCallback mp n => bind (p_rename renames mp n n) (fun n => Ok (TCallback mp n))
  | TCustom mp n b => bind (p_rename renames mp n n) (fun n => Ok (TCustom mp n b))
  | TOption t => bind (p_type renames t) (fun t => Ok (TOption t))
  | TSeq t => bind (p_type renames t) (fun t => Ok (TSeq t))
  | TSet t => bind (p_type renames t) (fun t => Ok (TSet t))
  | TMap k v => bind (p_type renames k) (fun k => bind (p_type renames v) (fun v => Ok (TMap k v)))
  | t => Ok t
  end.

Fixpoint mapM {A B} (f : A -> res B) (l : list A) : res (list B) :=
  match l with
  | [] => Ok []
  | a :: l => bind (f a) (fun b => bind (mapM f l) (fun l => Ok (b :: l)))
  end.
Definition optM {A B} (f : A -> res B) (o : option A) : res (option B) :=
  match o with None => Ok None | Some a => bind (f a) (fun b => Ok (Some b)) end.

Section Pipeline.
  Variable renames : tables.
  Variable ns : str.

  (** Arguments and fields: the key is the path of the owner, in original names, and the name.
      rename.rs l.37-49 [field], l.66-72 [func_arg], l.83-89 [method_arg]; the type is mapped with
      the rest of the node. *)
  Definition p_item (path : str) (a : str * ty) : res (str * ty) :=
    bind (p_rename renames ns (dotted path (fst a)) (fst a)) (fun n =>
    bind (p_type renames (snd a)) (fun t => Ok (n, t))).

  (** callable.rs l.27-57, l.71-107, l.109-150: [path] is the function's name, or the type's and the
      method's. *)
  Definition p_callable (path : str) (c : callable) : res callable :=
    bind (p_rename renames ns path (c_name c)) (fun n =>
    bind (mapM (p_item path) (c_args c)) (fun args =>
    bind (optM (p_type renames) (c_ret c)) (fun ret =>
    bind (optM (p_type renames) (c_throws c)) (fun throws =>
    bind (optM (p_type renames) (c_self c)) (fun self => Ok (Callable n args ret throws self)))))).
  Definition p_method (owner : str) (c : callable) : res callable :=
    p_callable (dotted owner (c_name c)) c.

  (** nodes.rs l.243-270 [Record]. *)
  Definition p_record (r : record_def) : res record_def :=
    bind (p_rename renames ns (rd_name r) (rd_name r)) (fun n =>
    bind (mapM (p_item (rd_name r)) (rd_fields r)) (fun fs =>
    bind (mapM (p_method (rd_name r)) (rd_methods r)) (fun ms =>
    bind (mapM (p_method (rd_name r)) (rd_traits r)) (fun ts =>
    Ok (RecordDef (rd_mp r) n fs ms ts))))).

  (** enums.rs l.10-37 [map_variants], nodes.rs l.290-325 [Enum]. *)
  Definition p_variant (e : str) (v : variant_def) : res variant_def :=
    bind (p_rename renames ns (dotted e (vd_name v)) (vd_name v)) (fun n =>
    bind (mapM (p_item (dotted e (vd_name v))) (vd_fields v)) (fun fs => Ok (VariantDef n fs))).
  Definition p_enum (e : enum_def) : res enum_def :=
    bind (p_rename renames ns (ed_name e) (ed_name e)) (fun n =>
    bind (mapM (p_variant (ed_name e)) (ed_variants e)) (fun vs =>
    bind (mapM (p_method (ed_name e)) (ed_methods e)) (fun ms =>
    bind (mapM (p_method (ed_name e)) (ed_traits e)) (fun ts =>
    Ok (EnumDef (ed_mp e) n vs ms ts))))).

  (** nodes.rs l.330-360 [Interface], l.362-376 [CallbackInterface]. *)
  Definition p_object (o : object_def) : res object_def :=
    bind (p_rename renames ns (od_name o) (od_name o)) (fun n =>
    bind (mapM (p_method (od_name o)) (od_constructors o)) (fun cs =>
    bind (mapM (p_method (od_name o)) (od_methods o)) (fun ms =>
    bind (mapM (p_method (od_name o)) (od_traits o)) (fun ts =>
    bind (mapM (p_type renames) (od_trait_impls o)) (fun is =>
    Ok (ObjectDef (od_mp o) n cs ms ts is)))))).
  Definition p_callback (c : callback_def) : res callback_def :=
    bind (p_rename renames ns (cb_name c) (cb_name c)) (fun n =>
    bind (mapM (p_method (cb_name c)) (cb_methods c)) (fun ms => Ok (CallbackDef (cb_mp c) n ms))).

  (** The rest of [ci] has no counterpart in the pipeline and is left as it is.  A function's key is
      its name. *)
  Definition p_namespace (c : ci) : res ci :=
    bind (mapM p_enum (enums c)) (fun es =>
    bind (mapM p_record (records c)) (fun rs =>
    bind (mapM (fun f => p_callable (c_name f) f) (functions c)) (fun fs =>
    bind (mapM p_object (objects c)) (fun os =>
    bind (mapM p_callback (callbacks c)) (fun cs =>
    Ok (Ci (ci_crate c) (type_definitions c) (known c) es rs fs os cs (callback_throws c) (errors c))))))).
End Pipeline.
