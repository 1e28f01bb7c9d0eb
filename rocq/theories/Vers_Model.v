(** Model of the checks that bindings make when they load a library. *)
From Verif Require Import Base Meta_Types Meta_Model Names_Model Csum_Model.
Local Open Scope Z_scope.

(** * The library *)

(** One item of a component: exported by the macros (with the module path of the object, which
    constructors record), or defined in UDL. *)
Inductive api := Macro (omp : str) (m : metadata) | Udl (k : ukind) (f : ufn).

(** uniffi_macros/src/fnsig.rs l.386-455: functions, methods, trait methods and constructors have a
    checksum function, with this name. *)
Definition checksum_symbol (m : metadata) : option str :=
  match m with
  | MFunc f => Some (fn_checksum_symbol_name (f_mp f) (f_name f))
  | MConstructor s f => Some (constructor_checksum_symbol_name (f_mp f) s (f_name f))
  | MMethod s f | MTraitMethod s _ f => Some (method_checksum_symbol_name (f_mp f) s (f_name f))
  | _ => None
  end.

(** The exported checksum functions and what they return: uniffi_macros/src/util.rs l.114-127;
    scaffolding/templates/Checksums.rs.  [hash] is the hash for UDL items (see Csum_Model). *)
Definition export (hash : bytes -> Z) (a : api) : list (str * Z) :=
  match a with
  | Macro omp m =>
      match checksum_symbol m, scaffolding_checksum omp m with
      | Some s, Some c => [(s, c)]
      | _, _ => []
      end
  | Udl k f => [(u_checksum_name k f, udl_scaffolding hash k f)]
  end.

(** A library: the contract version it was compiled with (uniffi_macros/src/setup_scaffolding.rs
    l.30-33) and its items. *)
Record library := Lib { lib_version : Z; lib_items : list api }.
Definition exports (hash : bytes -> Z) (l : library) : list (str * Z) :=
  flat_map (export hash) (lib_items l).

(** * The bindings *)

(** What the generator has read: uniffi_bindgen/src/loader.rs l.95-149. *)
Inductive loaded := LMacro (m : metadata) | LUdl (k : ukind) (f : ufn).
Definition load_item (hash : bytes -> Z) (d : nat) (a : api) : option loaded :=
  match a with
  | Macro omp m =>
      match write omp m with
      | Some b => match read d b with Ok (m', _) => Some (LMacro m') | _ => None end
      | None => None
      end
  | Udl k f => Some (LUdl k (load_udl hash k f))
  end.
Fixpoint load_items (hash : bytes -> Z) (d : nat) (l : list api) : option (list loaded) :=
  match l with
  | [] => Some []
  | a :: l =>
      match load_item hash d a, load_items hash d l with
      | Some x, Some xs => Some (x :: xs)
      | _, _ => None
      end
  end.

Definition is_object (items : list loaded) (s : str) : bool :=
  existsb (fun x => match x with LMacro (MObject o) => bytes_eqb (o_name o) s | _ => false end) items.
Definition is_callback (items : list loaded) (s : str) : bool :=
  existsb (fun x => match x with LMacro (MCallback _ n _) => bytes_eqb n s | _ => false end) items.

(** The stored checksum.  Items that are read always have one (uniffi_meta/src/reader.rs l.543-547);
    were it missing, the pipeline would skip the item and the interface compute another. *)
Definition named (sym : str) (f : fn_meta) : list (str * Z) :=
  match f_checksum f with Some c => [(sym, c)] | None => [] end.

(** interface/mod.rs l.882-912 [iter_checksums], with l.1090-1165, which finds the owner of a method;
    one list of pairs, in another order: functions, methods of objects, constructors of objects, and
    methods of callback interfaces. *)
Definition ci_checks (hash : bytes -> Z) (items : list loaded) : list (str * Z) :=
  flat_map (fun x =>
    match x with
    | LUdl k f => [(u_checksum_name k f, ci_checksum hash k f)]
    | LMacro (MFunc f) => named (fn_checksum_symbol_name (f_mp f) (f_name f)) f
    | LMacro (MMethod s f) =>
        if is_object items s then named (method_checksum_symbol_name (f_mp f) s (f_name f)) f else []
    | LMacro (MTraitMethod s _ f) =>
        if is_callback items s || is_object items s
        then named (method_checksum_symbol_name (f_mp f) s (f_name f)) f else []
    | LMacro (MConstructor s f) =>
        if is_object items s then named (constructor_checksum_symbol_name (f_mp f) s (f_name f)) f else []
    | _ => []
    end) items.

(** pipeline/general/checksums.rs l.9-60 [checksums]; names come from the crate's name.  Callback
    interfaces are skipped.  [crate] of an item is the first part of its module path. *)
Definition pl_checks (hash : bytes -> Z) (items : list loaded) : list (str * Z) :=
  flat_map (fun x =>
    match x with
    | LUdl UFunc f => [(fn_checksum_symbol_name (crate_name (u_mp f)) (u_name f), ci_checksum hash UFunc f)]
    | LUdl UMethod f =>
        [(method_checksum_symbol_name (crate_name (u_mp f)) (u_self f) (u_name f), ci_checksum hash UMethod f)]
    | LUdl UConstructor f =>
        [(constructor_checksum_symbol_name (crate_name (u_mp f)) (u_self f) (u_name f),
          ci_checksum hash UConstructor f)]
    | LMacro (MFunc f) => named (fn_checksum_symbol_name (crate_name (f_mp f)) (f_name f)) f
    | LMacro (MMethod s f) | LMacro (MTraitMethod s _ f) =>
        if is_object items s
        then named (method_checksum_symbol_name (crate_name (f_mp f)) s (f_name f)) f else []
    | LMacro (MConstructor s f) =>
        if is_object items s
        then named (constructor_checksum_symbol_name (crate_name (f_mp f)) s (f_name f)) f else []
    | _ => []
    end) items.

Inductive target := Python | Kotlin | Swift | Ruby.

(** The generated bindings: the contract version of the generator and the checksums. *)
Record bindings := Bindings { b_target : target; b_version : Z; b_checks : list (str * Z) }.
Definition generate (hash : bytes -> Z) (d : nat) (t : target) (version : Z) (items : list api)
  : option bindings :=
  match load_items hash d items with
  | Some xs =>
      Some (Bindings t version (match t with Python => pl_checks hash xs | _ => ci_checks hash xs end))
  | None => None
  end.

(** [from_source]: generated from Rust sources (loader.rs l.172-174, l.277-279); [omit_checksums] is an
    option of Kotlin and Swift. *)
Record options := Options { from_source : bool; omit_checksums : bool }.
(** NamespaceLibraryTemplate.py l.78-84 (both checks are in ChecksumsLegacy.py);
    NamespaceLibraryTemplate.kt l.73-76; wrapper.swift l.44-59; Ruby has none. *)
Definition checks_version (t : target) (o : options) : bool :=
  match t with Python => negb (from_source o) | Kotlin | Swift => true | Ruby => false end.
Definition checks_sums (t : target) (o : options) : bool :=
  match t with
  | Python => negb (from_source o)
  | Kotlin | Swift => negb (omit_checksums o || from_source o)
  | Ruby => false
  end.

Fixpoint lookup (s : str) (l : list (str * Z)) : option Z :=
  match l with [] => None | (k, c) :: l => if bytes_eqb k s then Some c else lookup s l end.

(** Loading.  All declared functions must exist, also the checksum functions that are not called:
    Python sets their types, JNA registers them, Swift links them, Ruby attaches them.  Functions
    other than checksum functions are not modelled. *)
Definition load (hash : bytes -> Z) (o : options) (b : bindings) (l : library) : bool :=
  let ex := exports hash l in
  forallb (fun c => match lookup (fst c) ex with Some _ => true | None => false end) (b_checks b) &&
  (negb (checks_version (b_target b) o) || (b_version b =? lib_version l)) &&
  (negb (checks_sums (b_target b) o) ||
   forallb (fun c => match lookup (fst c) ex with Some v => v =? snd c | None => false end) (b_checks b)).

(** * The generated scaffolding

    uniffi_core/src/lib.rs l.123-165 [check_compatible_version]: the version of the runtime and the one
    of the generator, byte by byte.  Indexing out of bounds panics. *)
Definition byte_at (s : bytes) (i : nat) : res byte :=
  match nth_error s i with Some b => Ok b | None => Panic end.
Definition same_at (p b : bytes) (i : nat) : res bool :=
  if (length p <=? i)%nat then Ok true
  else bind (byte_at p i) (fun x => bind (byte_at b i) (fun y => Ok (byte_eqb x y))).
Fixpoint all_at (p b : bytes) (is : list nat) : res bool :=
  match is with
  | [] => Ok true
  | i :: is => bind (same_at p b i) (fun ok => if ok then all_at p b is else Ok false)
  end.
Definition check_compatible_version (package bindgen : bytes) : res bool :=
  if (length package =? length bindgen)%nat then
    bind (all_at package bindgen [0; 1; 2; 3; 4; 5; 6; 7; 8; 9]%nat) (fun ok =>
      Ok (ok && (length package <? 10)%nat))
  else Ok false.
