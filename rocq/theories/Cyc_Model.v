(** Detection of recursive records and enums:
    uniffi_bindgen/src/pipeline/general/infer_recursive_enums.rs, shared with
    uniffi_bindgen/src/interface/mod.rs l.1229-1265. *)
From Verif Require Import Base Meta_Types.

(** pipeline/general/infer_recursive_enums.rs l.123-141 and interface/mod.rs l.1433-1450
    [type_names_in_type]: the module path of a reference is ignored; objects, callback interfaces and
    custom types are leaves. *)
Fixpoint type_names_in_type (t : ty) : list str :=
  match t with
  | TEnum _ n | TRecord _ n => [n]
  | TBox t | TOption t | TSeq t | TSet t => type_names_in_type t
  | TMap k v => type_names_in_type k ++ type_names_in_type v
  | _ => []
  end.

(** pipeline/general/nodes.rs [TypeDefinition], as far as this pass looks at it.  The other kinds
    (interfaces, options, …) are passed over (infer_recursive_enums.rs l.48, l.59). *)
Inductive type_def := DEnum (e : enum_meta) | DRecord (r : record_meta) | DOther (name : str).

Definition def_name (d : type_def) : str :=
  match d with DEnum e => e_name e | DRecord r => r_name r | DOther n => n end.

(** The field types of a definition (l.33-37 and l.41-45). *)
Definition def_fields (d : type_def) : list ty :=
  match d with
  | DEnum e => map fd_ty (flat_map v_fields (e_variants e))
  | DRecord r => map fd_ty (r_fields r)
  | DOther _ => []
  end.

Definition is_node (d : type_def) : bool :=
  match d with DOther _ => false | _ => true end.

(** A [HashMap<String, HashSet<String>>] as the list of its entries, in the order its iterators
    produce them; each set likewise. *)
Definition graph := list (str * list str).

Fixpoint lookup (g : graph) (n : str) : option (list str) :=
  match g with
  | [] => None
  | (k, ds) :: g => if bytes_eqb n k then Some ds else lookup g n
  end.

(** infer_recursive_enums.rs l.27-51 [type_dep_graph], interface/mod.rs l.1246-1265: the entries
    before they are collected in a map. *)
Definition dep_entries (defs : list type_def) : graph :=
  map (fun d => (def_name d, flat_map type_names_in_type (def_fields d))) (filter is_node defs).

Definition mem (n : str) (l : list str) : bool := existsb (bytes_eqb n) l.

(** [stack.iter().position(|s| s == name)]. *)
Fixpoint position (n : str) (l : list str) : option nat :=
  match l with
  | [] => None
  | x :: l => if bytes_eqb x n then Some O else option_map S (position n l)
  end.

(** infer_recursive_enums.rs l.85-116 [dfs].  [visited] and [recursive] are the sets, newest member
    first.  [fuel] bounds the depth of the Rust recursion: [Deep] is proved not to happen. *)
Fixpoint dfs (fuel : nat) (g : graph) (name : str) (stack visited recursive : list str)
  : res (list str * list str) :=
  match fuel with
  | O => Deep
  | S fuel =>
      if mem name visited then Ok (visited, recursive) else
      match position name stack with
      | Some pos => Ok (visited, skipn pos stack ++ recursive)
      | None =>
          bind
            ((fix each (deps : list str) (visited recursive : list str) :=
                match deps with
                | [] => Ok (visited, recursive)
                | d :: deps =>
                    bind (dfs fuel g d (stack ++ [name]) visited recursive)
                      (fun s => each deps (fst s) (snd s))
                end)
               (match lookup g name with Some deps => deps | None => [] end) visited recursive)
            (fun s => Ok (name :: fst s, snd s))
      end
  end.

(** infer_recursive_enums.rs l.72-83 [find_recursive_enum_names]: one search from every key, with a
    fresh stack and shared sets. *)
Fixpoint from_keys (fuel : nat) (g : graph) (keys visited recursive : list str)
  : res (list str) :=
  match keys with
  | [] => Ok recursive
  | k :: keys =>
      bind (dfs fuel g k [] visited recursive)
        (fun s => from_keys fuel g keys (fst s) (snd s))
  end.

(** Enough for every graph ([dfs_total]). *)
Definition depth_bound (g : graph) : nat := S (length g + length (concat (map snd g))).

Definition find_recursive (g : graph) : res (list str) :=
  from_keys (depth_bound g) g (map fst g) [] [].

(** infer_recursive_enums.rs l.53-61 [mark_recursive_types] and interface/mod.rs l.1237-1239
    [is_recursive]: whether a definition is marked, given the set found. *)
Definition marked (recursive : list str) (d : type_def) : bool :=
  is_node d && mem (def_name d) recursive.
