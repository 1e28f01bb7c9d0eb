(** How the configuration of a crate is put together. *)
From Coq Require Export Ascii String List Bool Arith ZArith Lia.
Export ListNotations.
Open Scope string_scope.
Open Scope list_scope.
Open Scope nat_scope.

(** * TOML *)
(** [toml::Value].  Only the kind of a value that is no table matters; [n] stands for what it is. *)
Inductive leaf_kind := KString | KInteger | KFloat | KBoolean | KDatetime | KArray.
Inductive toml := Leaf (k : leaf_kind) (n : Z) | Table (t : list (string * toml)).
Notation table := (list (string * toml)).
Definition kind_eqb (a b : leaf_kind) : bool :=
  match a, b with
  | KString, KString | KInteger, KInteger | KFloat, KFloat | KBoolean, KBoolean | KDatetime, KDatetime | KArray, KArray => true
  | _, _ => false
  end.
(** [Table::get], [Table::insert] of a new key and assignment through [get_mut]. *)
Fixpoint get {A} (key : string) (t : list (string * A)) : option A :=
  match t with [] => None | (k, v) :: t => if String.eqb key k then Some v else get key t end.
Fixpoint set {A} (key : string) (v : A) (t : list (string * A)) : list (string * A) :=
  match t with
  | [] => []
  | (k, w) :: t => if String.eqb key k then (k, v) :: t else (k, w) :: set key v t
  end.
(** uniffi_bindgen/src/lib.rs l.367-389 [merge_toml]; [None]: "Inconsistent types merging TOML". *)
Fixpoint merge_value (existing new : toml) {struct new} : option toml :=
  match existing, new with
  | Table t0, Table t1 =>
      (fix merge (a b : table) {struct b} : option toml :=
         match b with
         | [] => Some (Table a)
         | (key, value) :: b =>
             match get key a with
             | Some e => match merge_value e value with Some m => merge (set key m a) b | None => None end
             | None => merge (a ++ [(key, value)]) b
             end
         end) t0 t1
  | Leaf k _, Leaf k' n => if kind_eqb k k' then Some (Leaf k' n) else None
  | _, _ => None
  end.
Definition merge_toml (a b : table) : option table :=
  match merge_value (Table a) (Table b) with Some (Table t) => Some t | _ => None end.

(** * The global file: uniffi_bindgen/src/global_config.rs *)
(** l.40-43 and l.13-15. *)
Record global := Global { defaults : table; overrides : list (string * table) }.
Definition no_global : global := Global [] [].
Definition roots := list (string * string).
Inductive result (A : Type) := Ok (a : A) | Err.
Arguments Ok {A}. Arguments Err {A}.
(** Reading the sections: [HashMap<String, String>], [Table], [HashMap<String, Table>]; texts are told
    apart by their number, [name_of] gives them. *)
Section File.
Context (text_of : Z -> string).
Fixpoint as_roots (t : table) : result roots :=
  match t with
  | [] => Ok []
  | (k, Leaf KString n) :: t => match as_roots t with Ok r => Ok ((k, text_of n) :: r) | Err => Err end
  | _ => Err
  end.
Fixpoint as_crates (t : table) : result (list (string * table)) :=
  match t with
  | [] => Ok []
  | (k, Table v) :: t => match as_crates t with Ok r => Ok ((k, v) :: r) | Err => Err end
  | _ => Err
  end.
Definition section {A} (empty : A) (read : table -> result A) (key : string) (t : table) : result A :=
  match get key t with None => Ok empty | Some (Table s) => read s | Some (Leaf _ _) => Err end.
(** [Utf8Path::join]. *)
Definition is_absolute (p : string) : bool := match p with String "/"%char _ => true | _ => false end.
Definition join (base rel : string) : string :=
  if is_absolute rel then rel else if String.eqb base "" then rel else (base ++ "/" ++ rel)%string.
Definition has {A} (key : string) (t : list (string * A)) : bool := match get key t with Some _ => true | None => false end.
(** l.51-93 [from_file], after the file is parsed; [dir]: [path.parent()].  A file without any of the
    three sections is taken for one of the old style: a warning and no configuration. *)
Definition from_file (dir : string) (raw : table) : result (global * option roots) :=
  if negb (has "crate-roots" raw || has "defaults" raw || has "crates" raw) && negb (match raw with [] => true | _ => false end)
  then Ok (no_global, None)
  else
    match section [] as_roots "crate-roots" raw, section [] (fun t => Ok t) "defaults" raw, section [] as_crates "crates" raw with
    | Ok r, Ok d, Ok c =>
        Ok (Global d c, match r with [] => None | _ => Some (map (fun '(n, p) => (n, join dir p)) r) end)
    | _, _, _ => Err
    end.
End File.

(** * Where crates are *)
(** What [cargo metadata] says of a package: its name, its targets and its directory. *)
Inductive target_kind := TLib | TCdylib | TStaticlib | TRlib | TProcMacro | TBin | TExample | TTest | TBench | TBuild.
Record package := Package { p_name : string; p_targets : list (target_kind * string); p_dir : string }.
Definition underscore (s : string) : string :=
  (fix go s := match s with
               | EmptyString => EmptyString
               | String c s => String (if Ascii.eqb c "-" then "_" else c)%char (go s)
               end) s.
(** uniffi_bindgen/src/cargo_metadata.rs l.38-49: the library target. *)
Definition is_library (k : target_kind) : bool :=
  match k with TBin | TExample | TTest | TBench | TBuild => false | _ => true end.
Definition library_of (p : package) : option string :=
  option_map snd (find (fun '(k, _) => is_library k) (p_targets p)).
(** Maps are collected from lists: the last package of a name stays (l.51-59). *)
Definition package_named (ps : list package) (n : string) : option package :=
  find (fun p => String.eqb (underscore (p_name p)) (underscore n)) (rev ps).
Definition package_with_library (ps : list package) (n : string) : option package :=
  find (fun p => match library_of p with Some l => String.eqb (underscore l) (underscore n) | None => false end) (rev ps).
(** l.72-79 [get_crate_root]: by the name of the package, otherwise by that of the library. *)
Definition cargo_root (ps : list package) (crate : string) : option string :=
  match package_named ps crate with
  | Some p => Some (p_dir p)
  | None => option_map p_dir (package_with_library ps crate)
  end.
(** global_config.rs l.17-21: exactly this name. *)
Definition listed_root (r : roots) (crate : string) : option string := get crate r.
(** uniffi_bindgen/src/bindgen_paths.rs l.46-57 and l.121-132: the first layer that knows the crate. *)
Definition layer := string -> option string.
Fixpoint find_map {A} (layers : list layer) (ask : layer -> option A) : option A :=
  match layers with
  | [] => None
  | l :: layers => match ask l with Some a => Some a | None => find_map layers ask end
  end.
Definition get_crate_root (layers : list layer) (crate : string) : option string := find_map layers (fun l => l crate).
Definition get_config_path (layers : list layer) (crate : string) : option string :=
  find_map layers (fun l => option_map (fun root => join root "uniffi.toml") (l crate)).
Definition get_udl_path (layers : list layer) (crate udl : string) : option string :=
  find_map layers (fun l => option_map (fun root => join (join root "src") (udl ++ ".udl")%string) (l crate)).
(** global_config.rs l.99-119 [get_config].  A file: absent, not TOML, or a table. *)
Inductive file := NoFile | Garbage | Parsed (t : table).
Definition merged (a : result table) (b : table) : result table :=
  match a with Err => Err | Ok a => match merge_toml a b with Some c => Ok c | None => Err end end.
Definition get_config (files : string -> file) (g : global) (layers : list layer) (crate : string) : result table :=
  let config := Ok (defaults g) in
  let config := match get_config_path layers crate with
                | None => config
                | Some path => match files path with NoFile => config | Garbage => Err | Parsed t => merged config t end
                end in
  match get crate (overrides g) with None => config | Some t => merged config t end.

(** * The commands *)
(** uniffi_bindgen/src/bindings/mod.rs l.52-73 and bindings/swift/mod.rs l.141-165: the listed roots, then
    cargo; uniffi-bindgen-kotlin-jni/src/lib.rs l.51-68: cargo, then the listed roots. *)
Inductive command := Bindgen | BindgenSwift | BindgenJni.
Definition layers_of (c : command) (r : option roots) (ps : list package) : list layer :=
  let listed := match r with Some r => [listed_root r] | None => [] end in
  match c with
  | Bindgen | BindgenSwift => listed ++ [cargo_root ps]
  | BindgenJni => cargo_root ps :: listed
  end.
(** The configuration of a crate, with or without a global file (parsed, with its directory). *)
Definition configured (text_of : Z -> string) (c : command) (file_given : option (string * table)) (ps : list package)
    (files : string -> file) (crate : string) : result table :=
  match match file_given with None => Ok (no_global, None) | Some (dir, raw) => from_file text_of dir raw end with
  | Err => Err
  | Ok (g, r) => get_config files g (layers_of c r ps) crate
  end.
