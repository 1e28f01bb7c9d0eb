(** What a configured renaming should do. *)
From Verif Require Import Base Meta_Types Reach_Spec Ren_Model.
From Verif Require Names_Model.

(** The configuration of [crate] says that what has this key is called [new]. *)
Definition configured (rs : tables) (crate key new : str) : Prop :=
  exists t, In (crate, t) rs /\ In (key, Some new) t.

(** One table per crate, one entry per key. *)
Definition unique_keys (rs : tables) : Prop :=
  NoDup (map fst rs) /\ forall c t, In (c, t) rs -> NoDup (map fst t).

(** [new] is the right name for what was called [old]. *)
Definition right_name (rs : tables) (crate key old new : str) : Prop :=
  configured rs crate key new \/ (new = old /\ forall n, ~ configured rs crate key n).

Definition named_path (t : ty) : option str :=
  match t with
  | TObject mp _ _ | TRecord mp _ | TEnum mp _ | TCustom mp _ _ | TCallback mp _ => Some mp
  | _ => None
  end.

(** [t'] is [t] with every name, however deep, replaced as the crate of that type says.  [owner] tells
    from the path of a type whose table it is in. *)
Section Types.
  Variable owner : str -> str.
  Variable rs : tables.
  Inductive renaming : ty -> ty -> Prop :=
  | rn_object mp n n' i : right_name rs (owner mp) n n n' -> renaming (TObject mp n i) (TObject mp n' i)
  | rn_record mp n n' : right_name rs (owner mp) n n n' -> renaming (TRecord mp n) (TRecord mp n')
  | rn_enum mp n n' : right_name rs (owner mp) n n n' -> renaming (TEnum mp n) (TEnum mp n')
  | rn_callback mp n n' : right_name rs (owner mp) n n n' -> renaming (TCallback mp n) (TCallback mp n')
  | rn_custom mp n n' t t' : right_name rs (owner mp) n n n' -> renaming t t' ->
      renaming (TCustom mp n t) (TCustom mp n' t')
  | rn_option t t' : renaming t t' -> renaming (TOption t) (TOption t')
  | rn_seq t t' : renaming t t' -> renaming (TSeq t) (TSeq t')
  | rn_set t t' : renaming t t' -> renaming (TSet t) (TSet t')
  | rn_box t t' : renaming t t' -> renaming (TBox t) (TBox t')
  | rn_map k k' v v' : renaming k k' -> renaming v v' -> renaming (TMap k v) (TMap k' v')
  | rn_builtin t : (forall u, inside u t -> named_path u = None) -> renaming t t.
End Types.

(** ** Where types are mentioned *)

Definition opt (t : option ty) : list ty := match t with Some t => [t] | None => [] end.
Definition arg_types (c : callable) : list ty := map snd (c_args c).
Definition outcome (c : callable) : list ty := opt (c_ret c) ++ opt (c_throws c).
Definition all_types (c : callable) : list ty := arg_types c ++ outcome c ++ opt (c_self c).

Definition field_mentions (c : ci) : list ty :=
  flat_map (fun e => flat_map (fun v => map snd (vd_fields v)) (ed_variants e)) (enums c) ++
  flat_map (fun r => map snd (rd_fields r)) (records c).
Definition function_mentions (c : ci) : list ty :=
  flat_map (fun f => arg_types f ++ outcome f) (functions c).
Definition method_mentions (c : ci) : list ty :=
  flat_map (fun o => flat_map (fun m => arg_types m ++ outcome m) (od_methods o)) (objects c).
Definition constructor_arguments (c : ci) : list ty :=
  flat_map (fun o => flat_map arg_types (od_constructors o)) (objects c).
Definition callback_arguments (c : ci) : list ty :=
  flat_map (fun b => flat_map arg_types (cb_methods b)) (callbacks c).

(** The object a constructor makes, and its error. *)
Definition constructor_results (c : ci) : list ty :=
  flat_map (fun o => flat_map (fun m => opt (c_self m)) (od_constructors o)) (objects c).
Definition constructor_errors (c : ci) : list ty :=
  flat_map (fun o => flat_map (fun m => opt (c_throws m)) (od_constructors o)) (objects c).
Definition callback_outcomes (c : ci) : list ty :=
  flat_map (fun b => flat_map outcome (cb_methods b)) (callbacks c).
Definition value_method_mentions (c : ci) : list ty :=
  flat_map (fun e => flat_map all_types (ed_methods e ++ ed_traits e)) (enums c) ++
  flat_map (fun r => flat_map all_types (rd_methods r ++ rd_traits r)) (records c).
Definition trait_mentions (c : ci) : list ty :=
  flat_map (fun o => flat_map all_types (od_traits o) ++ od_trait_impls o) (objects c).
Definition other_self (c : ci) : list ty :=
  flat_map (fun o => flat_map (fun m => opt (c_self m)) (od_methods o)) (objects c) ++
  flat_map (fun b => flat_map (fun m => opt (c_self m)) (cb_methods b)) (callbacks c) ++
  flat_map (fun f => opt (c_self f)) (functions c) ++
  flat_map (fun o => flat_map (fun m => opt (c_ret m)) (od_constructors o)) (objects c).

(** Everywhere. *)
Definition mentions (c : ci) : list ty :=
  field_mentions c ++ function_mentions c ++ method_mentions c ++ constructor_arguments c ++
  callback_arguments c ++ constructor_results c ++ constructor_errors c ++ callback_outcomes c ++
  value_method_mentions c ++ trait_mentions c ++ other_self c.

(** ** What has a name *)

(** A name, with the path of the crate it belongs to and the key it is configured under. *)
Definition slot := (str * str * str)%type.
Definition dot (a b : str) : str := a ++ S_ "." ++ b.
Definition slots_of (mp path : str) (l : list (str * ty)) : list slot :=
  map (fun a => (mp, dot path (fst a), fst a)) l.
Definition callable_slots (mp path : str) (c : callable) : list slot :=
  (mp, path, c_name c) :: slots_of mp path (c_args c).
Definition method_slots (mp owner : str) (ms : list callable) : list slot :=
  flat_map (fun m => callable_slots mp (dot owner (c_name m)) m) ms.

Definition definition_slots (c : ci) : list slot :=
  flat_map (fun e => (ed_mp e, ed_name e, ed_name e) ::
    flat_map (fun v => (ed_mp e, dot (ed_name e) (vd_name v), vd_name v) ::
       slots_of (ed_mp e) (dot (ed_name e) (vd_name v)) (vd_fields v)) (ed_variants e)) (enums c) ++
  flat_map (fun r => (rd_mp r, rd_name r, rd_name r) ::
    slots_of (rd_mp r) (rd_name r) (rd_fields r)) (records c) ++
  flat_map (fun f => callable_slots (ci_crate c) (c_name f) f) (functions c) ++
  flat_map (fun o => (od_mp o, od_name o, od_name o) ::
    method_slots (ci_crate c) (od_name o) (od_constructors o ++ od_methods o)) (objects c) ++
  map (fun b => (cb_mp b, cb_name b, cb_name b)) (callbacks c).
Definition callback_slots (c : ci) : list slot :=
  flat_map (fun b => method_slots (ci_crate c) (cb_name b) (cb_methods b)) (callbacks c).
Definition value_method_slots (c : ci) : list slot :=
  flat_map (fun e => method_slots (ci_crate c) (ed_name e) (ed_methods e ++ ed_traits e)) (enums c) ++
  flat_map (fun r => method_slots (ci_crate c) (rd_name r) (rd_methods r ++ rd_traits r)) (records c).

Definition renames_slot (owner : str -> str) (rs : tables) (s s' : slot) : Prop :=
  right_name rs (owner (fst (fst s))) (snd (fst s)) (snd s) (snd s').

(** ** Types the code treats well *)

Definition no_box (t : ty) : Prop := forall b, ~ inside (TBox b) t.

(** All names in it belong to one crate: that of the type if it has a name, else the one at hand. *)
Definition one_crate (this : str) (t : ty) : Prop :=
  forall u mp, inside u t -> named_path u = Some mp ->
    Names_Model.crate_name mp =
    match named_path t with Some mp' => Names_Model.crate_name mp' | None => Names_Model.crate_name this end.

(** Custom types are made of builtin types. *)
Definition builtin_customs (t : ty) : Prop :=
  forall mp n b u, inside (TCustom mp n b) t -> inside u b -> named_path u = None.

(** ** Definitions *)

(** The definition a mention refers to is there. *)
Definition resolves (c : ci) (t : ty) : Prop :=
  match t with
  | TRecord mp n => exists r, In r (records c) /\ rd_name r = n /\
                      Names_Model.crate_name (rd_mp r) = Names_Model.crate_name mp
  | TEnum mp n => exists e, In e (enums c) /\ ed_name e = n /\
                      Names_Model.crate_name (ed_mp e) = Names_Model.crate_name mp
  | TObject mp n _ => exists o, In o (objects c) /\ od_name o = n /\
                      Names_Model.crate_name (od_mp o) = Names_Model.crate_name mp
  | TCallback mp n => exists b, In b (callbacks c) /\ cb_name b = n /\
                      Names_Model.crate_name (cb_mp b) = Names_Model.crate_name mp
  | _ => True
  end.
