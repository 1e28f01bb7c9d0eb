(** What it means for a type to contain itself, and for a list of entries to be one of the orders in
    which a hash map may be traversed.  Independent of the search. *)
From Coq Require Import Permutation Relation_Operators.
From Verif Require Import Base Meta_Types Cyc_Model.

(** A type is its module path and its name. *)
Definition tid : Type := str * str.

(** The records and enums a field type holds: through options, sequences, sets, maps and boxes. *)
Inductive holds : ty -> tid -> Prop :=
| holds_enum m n : holds (TEnum m n) (m, n)
| holds_record m n : holds (TRecord m n) (m, n)
| holds_box t i : holds t i -> holds (TBox t) i
| holds_option t i : holds t i -> holds (TOption t) i
| holds_seq t i : holds t i -> holds (TSeq t) i
| holds_set t i : holds t i -> holds (TSet t) i
| holds_key k v i : holds k i -> holds (TMap k v) i
| holds_value k v i : holds v i -> holds (TMap k v) i.

(** [d] defines the record or enum [i]. *)
Definition defines (d : type_def) (i : tid) : Prop :=
  match d with
  | DEnum e => i = (e_mp e, e_name e)
  | DRecord r => i = (r_mp r, r_name r)
  | DOther _ => False
  end.

(** A field of [d] holds [i]. *)
Definition has_field_holding (d : type_def) (i : tid) : Prop :=
  match d with
  | DEnum e => exists v f, In v (e_variants e) /\ In f (v_fields v) /\ holds (fd_ty f) i
  | DRecord r => exists f, In f (r_fields r) /\ holds (fd_ty f) i
  | DOther _ => False
  end.

(** [a] directly contains [b]. *)
Definition contains (defs : list type_def) (a b : tid) : Prop :=
  exists d, In d defs /\ defines d a /\ has_field_holding d b.

(** [a] contains itself. *)
Definition contains_itself (defs : list type_def) (a : tid) : Prop :=
  clos_trans tid (contains defs) a a.

(** No two different records or enums, defined or mentioned, have the same name. *)
Definition appears (defs : list type_def) (i : tid) : Prop :=
  exists d, In d defs /\ (defines d i \/ has_field_holding d i).
Definition unambiguous (defs : list type_def) : Prop :=
  forall m m' n, appears defs (m, n) -> appears defs (m', n) -> m = m'.

(** Each record or enum is defined once. *)
Definition defined_once (defs : list type_def) : Prop :=
  NoDup (map def_name (filter is_node defs)).

(** [g] lists the entries of the map in some order, and each set in some order. *)
Definition traversal (defs : list type_def) (g : graph) : Prop :=
  exists g0, Permutation (dep_entries defs) g0 /\
    Forall2 (fun e e' => fst e = fst e' /\ NoDup (snd e') /\
                         forall x, In x (snd e') <-> In x (snd e)) g0 g.

(** A cycle of definitions: [a] contains the first of [path], … the last of [path] contains [a]. *)
Fixpoint chain (defs : list type_def) (a : tid) (path : list tid) (b : tid) : Prop :=
  match path with
  | [] => contains defs a b
  | c :: path => contains defs a c /\ chain defs c path b
  end.
