(** Which types contain object references: [RecursiveTypeIterator] in
    uniffi_bindgen/src/interface/mod.rs. *)
From Verif Require Import Base Meta_Types.

(** uniffi_meta/src/types.rs l.149-168 [iter_types]: the type itself, then the types nested in it;
    [Box] is not looked into. *)
Fixpoint iter_types (t : ty) : list ty :=
  t :: match t with
       | TOption t | TSeq t | TSet t => iter_types t
       | TMap k v => iter_types k ++ iter_types v
       | TCustom _ _ b => iter_types b
       | _ => []
       end.

Inductive kind := KRecord | KEnum | KObject | KCallback.

(** interface/mod.rs l.1320-1331: the types the iterator looks up, with module path and name. *)
Definition named (t : ty) : option (kind * str * str) :=
  match t with
  | TRecord mp n => Some (KRecord, mp, n)
  | TEnum mp n => Some (KEnum, mp, n)
  | TObject mp n _ => Some (KObject, mp, n)
  | TCallback mp n => Some (KCallback, mp, n)
  | _ => None
  end.

(** A definition: the types of its fields (record.rs l.103-111; enum_.rs l.275-283, l.404-406) and
    the argument, return and error types of its constructors, methods and, for an object, trait
    methods (record.rs l.108-109, enum_.rs l.280-281, object.rs l.308-317, callbacks.rs l.108-110,
    function.rs l.287-296).  Simplification: the second list is flattened; only the order in which
    types are visited depends on that. *)
Record def := Def { d_kind : kind; d_name : str; d_fields : list ty; d_callables : list ty }.

(** [Record::iter_types] and its like. *)
Definition iter_def (d : def) : list ty := flat_map iter_types (d_fields d ++ d_callables d).

(** A component interface; the code keeps one list per kind. *)
Record ci := Ci { crate_name : str; defs : list def }.

Definition kind_eqb (a b : kind) : bool :=
  match a, b with
  | KRecord, KRecord | KEnum, KEnum | KObject, KObject | KCallback, KCallback => true
  | _, _ => false
  end.

(** interface/mod.rs l.212-291: [get_record_definition] and its like. *)
Definition get_definition (c : ci) (k : kind) (n : str) : option def :=
  find (fun d => kind_eqb (d_kind d) k && bytes_eqb (d_name d) n) (defs c).

(** interface/mod.rs l.471-475 and l.1343-1347: the interface of the crate, or else this one. *)
Definition find_ci_for (self : ci) (all : list ci) (mp : str) : ci :=
  match find (fun c => bytes_eqb (crate_name c) mp) all with
  | Some c => c
  | None => self
  end.

Definition definition_for (self : ci) (all : list ci) (t : ty) : option def :=
  match named t with
  | Some (k, mp, n) => get_definition (find_ci_for self all mp) k n
  | None => None
  end.

(** interface/mod.rs l.1295-1304; [pending] is a stack, its top at the head. *)
Record iter := Iter { current : list ty; seen : list (str * str); pending : list ty }.

Definition key_eqb (a b : str * str) : bool :=
  bytes_eqb (fst a) (fst b) && bytes_eqb (snd a) (snd b).

(** interface/mod.rs l.1318-1340 [add_pending_type]. *)
Definition add_pending (t : ty) (i : iter) : iter :=
  match named t with
  | Some (_, mp, n) =>
      if existsb (key_eqb (mp, n)) (seen i) then i
      else Iter (current i) ((mp, n) :: seen i) (t :: pending i)
  | None => i
  end.

(** interface/mod.rs l.1354-1411 [advance_to_next_type], [next] under [Iterator::any] with the
    predicate [p]; each unit of fuel is one call of [next].  Not modelled: the call stack used by the
    mutual recursion of the two, one frame per pending type without contents. *)
Fixpoint any (fuel : nat) (self : ci) (all : list ci) (p : ty -> bool) (i : iter) : option bool :=
  match fuel with
  | 0 => None
  | S fuel =>
      match current i with
      | t :: ts =>
          if p t then Some true
          else any fuel self all p (add_pending t (Iter ts (seen i) (pending i)))
      | [] =>
          match pending i with
          | [] => Some false
          | t :: pend =>
              match definition_for self all t with
              | Some d => any fuel self all p (Iter (iter_def d) (seen i) pend)
              | None => any fuel self all p (Iter [] (seen i) pend)
              end
          end
      end
  end.

(** interface/mod.rs l.1308-1316 [new] and l.409-411. *)
Definition any_in_item (fuel : nat) (self : ci) (all : list ci) (p : ty -> bool) (item : ty)
  : option bool :=
  any fuel self all p (Iter (iter_types item) [] []).

(** interface/mod.rs l.417-420. *)
Definition is_object (t : ty) : bool := match t with TObject _ _ _ => true | _ => false end.
Definition item_contains_object_references fuel self all item :=
  any_in_item fuel self all is_object item.

(** interface/mod.rs l.423-426. *)
Definition is_unsigned (t : ty) : bool :=
  match t with TU8 | TU16 | TU32 | TU64 => true | _ => false end.
Definition item_contains_unsigned_types fuel self all item :=
  any_in_item fuel self all is_unsigned item.
