(** Sorting definitions so that what they depend on comes first:
    uniffi_bindgen/src/pipeline/general/sort.rs. *)
From Verif Require Import Base Meta_Types Canon_Model.

Section sorter.
  Context {A : Type}.
  (** sort.rs l.72-82 [DependencyLogic]. *)
  Variable item_name : A -> str.
  Variable dependency_names : A -> list str.

  (** An [IndexMap<String, Item>]: entries in order.  Inserting a key that is there replaces its
      value and keeps its place. *)
  Fixpoint im_insert (k : str) (v : A) (m : list (str * A)) : list (str * A) :=
    match m with
    | [] => [(k, v)]
    | (k', v') :: m => if bytes_eqb k k' then (k', v) :: m else (k', v') :: im_insert k v m
    end.

  (** [IndexMap::shift_remove]. *)
  Fixpoint shift_remove (k : str) (m : list (str * A)) : option (A * list (str * A)) :=
    match m with
    | [] => None
    | (k', v) :: m =>
        if bytes_eqb k k' then Some (v, m)
        else match shift_remove k m with
             | Some (x, m') => Some (x, (k', v) :: m')
             | None => None
             end
    end.

  (** sort.rs l.39-50 [DependencySorter::new]. *)
  Definition new (items : list A) : list (str * A) :=
    fold_left (fun m i => im_insert (item_name i) i m) items [].

  (** sort.rs l.59-70 [recurse].  [fuel] bounds the depth of the Rust recursion: [Deep] is proved not
      to happen. *)
  Fixpoint recurse (fuel : nat) (name : str) (unsorted : list (str * A)) (sorted : list A)
    : res (list (str * A) * list A) :=
    match fuel with
    | O => Deep
    | S fuel =>
        match shift_remove name unsorted with
        | None => Ok (unsorted, sorted)
        | Some (item, unsorted) =>
            bind
              ((fix each (names : list str) (unsorted : list (str * A)) (sorted : list A) :=
                  match names with
                  | [] => Ok (unsorted, sorted)
                  | n :: names =>
                      bind (recurse fuel n unsorted sorted)
                        (fun s => each names (fst s) (snd s))
                  end) (dependency_names item) unsorted sorted)
              (fun s => Ok (fst s, snd s ++ [item]))
        end
    end.

  (** sort.rs l.52-57 [sort]: the loop takes at least one item a round. *)
  Fixpoint sort_loop (rounds depth : nat) (unsorted : list (str * A)) (sorted : list A)
    : res (list A) :=
    match unsorted with
    | [] => Ok sorted
    | (name, _) :: _ =>
        match rounds with
        | O => Deep
        | S rounds =>
            bind (recurse depth name unsorted sorted)
              (fun s => sort_loop rounds depth (fst s) (snd s))
        end
    end.

  Definition sort (items : list A) : res (list A) :=
    sort_loop (length items) (S (length items)) (new items) [].
End sorter.

(** ** Type definitions *)

(** pipeline/general/nodes.rs [Callable], as far as the sorter looks at it. *)
Record callable := Callable { c_args : list ty; c_ret : option ty; c_throws : option ty }.

(** pipeline/general/nodes.rs [TypeDefinition], as far as the sorter looks at it: [self_type] first. *)
Inductive type_definition :=
| TDSimple (self : ty)
| TDBox (self inner : ty)
| TDOptional (self inner : ty)
| TDSequence (self inner : ty)
| TDMap (self key value : ty)
| TDSet (self inner : ty)
| TDRecord (self : ty) (fields : list ty)
| TDEnum (self : ty) (variants : list (list ty))
| TDInterface (self : ty) (trait_impls : list ty) (methods : list callable)
    (vtable : option (list callable))
| TDCallback (self : ty) (methods : list callable)
| TDCustom (self builtin : ty)
| TDExternal (self : ty).

Definition self_type (d : type_definition) : ty :=
  match d with
  | TDSimple s | TDBox s _ | TDOptional s _ | TDSequence s _ | TDMap s _ _ | TDSet s _
  | TDRecord s _ | TDEnum s _ | TDInterface s _ _ _ | TDCallback s _ | TDCustom s _
  | TDExternal s => s
  end.

(** sort.rs l.132-149 [item_name]. *)
Definition type_item_name (d : type_definition) : str := canonical_name (self_type d).

Definition opt_list {X} (o : option X) : list X := match o with Some x => [x] | None => [] end.

Definition callable_types (c : callable) : list ty :=
  c_args c ++ opt_list (c_ret c) ++ opt_list (c_throws c).

(** sort.rs l.151-218 [dependency_names]. *)
Definition type_dependency_names (d : type_definition) : list str :=
  match d with
  | TDSimple _ => []
  | TDBox _ i | TDOptional _ i | TDSequence _ i | TDSet _ i => [canonical_name i]
  | TDMap _ k v => [canonical_name k; canonical_name v]
  | TDRecord _ fs => map canonical_name fs
  | TDEnum _ vs => flat_map (fun v => map canonical_name v) vs
  | TDInterface _ impls ms vt =>
      map canonical_name impls ++
      flat_map (fun c => map canonical_name (callable_types c))
        (ms ++ match vt with Some vms => vms | None => [] end)
  | TDCallback _ ms => flat_map (fun c => map canonical_name (callable_types c)) ms
  | TDCustom _ b => [canonical_name b]
  | TDExternal _ => []
  end.

(** sort.rs l.12-17 [sort_type_definitions]. *)
Definition sort_type_definitions : list type_definition -> res (list type_definition) :=
  sort type_item_name type_dependency_names.

(** ** FFI definitions *)

(** pipeline/general/nodes.rs [FfiType]; [FOther] stands for the scalar types and handles. *)
Inductive ffi_type := FStruct (name : str) | FFunction (name : str) | FRef (t : ffi_type)
  | FMutRef (t : ffi_type) | FOther.

(** pipeline/general/nodes.rs [FfiDefinition]. *)
Inductive ffi_definition :=
| FDRustFunction (name : str) (args : list ffi_type) (ret : option ffi_type)
| FDFunctionType (name : str) (args : list ffi_type) (ret : option ffi_type)
| FDStruct (name : str) (fields : list ffi_type).

(** sort.rs l.114-125 [type_dependency_name]. *)
Fixpoint type_dependency_name (t : ffi_type) : list str :=
  match t with
  | FStruct n | FFunction n => [n]
  | FRef t | FMutRef t => type_dependency_name t
  | FOther => []
  end.

(** sort.rs l.88-90. *)
Definition ffi_item_name (d : ffi_definition) : str :=
  match d with FDRustFunction n _ _ | FDFunctionType n _ _ | FDStruct n _ => n end.

(** sort.rs l.92-112. *)
Definition ffi_dependency_names (d : ffi_definition) : list str :=
  match d with
  | FDStruct _ fs => flat_map type_dependency_name fs
  | FDRustFunction _ args ret | FDFunctionType _ args ret =>
      flat_map type_dependency_name (args ++ opt_list ret)
  end.

(** sort.rs l.19-24 [sort_ffi_definitions]. *)
Definition sort_ffi_definitions : list ffi_definition -> res (list ffi_definition) :=
  sort ffi_item_name ffi_dependency_names.
