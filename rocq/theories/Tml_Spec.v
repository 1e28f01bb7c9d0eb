(** What a configuration is expected to say. *)
From Verif Require Export Tml_Model.

(** What stands at a path of keys. *)
Fixpoint at_path (p : list string) (v : toml) : option toml :=
  match p with
  | [] => Some v
  | k :: p => match v with
              | Table t => match get k t with Some w => at_path p w | None => None end
              | Leaf _ _ => None
              end
  end.
(** A setting: a value that is no table. *)
Definition setting (t : table) (p : list string) : option (leaf_kind * Z) :=
  match at_path p (Table t) with Some (Leaf k n) => Some (k, n) | _ => None end.
(** The shape of what stands there: a table, or a value of some kind. *)
Definition shape (v : toml) : option leaf_kind := match v with Leaf k _ => Some k | Table _ => None end.
Definition clash (a b : toml) : Prop :=
  exists p v w, at_path p a = Some v /\ at_path p b = Some w /\ shape v <> shape w.
(** A parsed file has each key of a table once. *)
Definition proper (v : toml) : Prop := forall p t, at_path p v = Some (Table t) -> NoDup (map fst t).

(** The tables a configuration is made from, the strongest first. *)
Definition sources (files : string -> file) (g : global) (layers : list layer) (crate : string) : list table :=
  match get crate (overrides g) with Some t => [t] | None => [] end
  ++ match get_config_path layers crate with
     | Some path => match files path with Parsed t => [t] | _ => [] end
     | None => []
     end
  ++ [defaults g].
Definition first_setting (ts : list table) (p : list string) : option (leaf_kind * Z) :=
  fold_right (fun t rest => match setting t p with Some s => Some s | None => rest end) None ts.
Definition unreadable (files : string -> file) (layers : list layer) (crate : string) : Prop :=
  exists path, get_config_path layers crate = Some path /\ files path = Garbage.

(** The packages of a build are told apart by their names and by the names of their libraries, and none is
    called like the library of another. *)
Definition told_apart (ps : list package) : Prop :=
  (forall p q, In p ps -> In q ps -> underscore (p_name p) = underscore (p_name q) -> p = q)
  /\ (forall p q l m, In p ps -> In q ps -> library_of p = Some l -> library_of q = Some m ->
      underscore l = underscore m -> p = q)
  /\ (forall p q l, In p ps -> In q ps -> library_of q = Some l -> underscore (p_name p) = underscore l -> p = q).
Definition some_clash (ts : list table) : Prop := exists a b, In a ts /\ In b ts /\ clash (Table a) (Table b).
(** The sections of a global file. *)
Definition known (k : string) : Prop := k = "crate-roots" \/ k = "defaults" \/ k = "crates".
