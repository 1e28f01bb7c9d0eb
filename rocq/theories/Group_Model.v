(** Grouping of metadata items by crate: uniffi_meta/src/group.rs. *)
From Verif Require Import Base Meta_Types Meta_Eq.
From Verif Require Names_Model.

(** uniffi_meta/src/lib.rs l.703-705 [crate_name]: up to the first "::". *)
Definition crate_of_path (mp : str) : str := Names_Model.crate_name mp.

(** uniffi_meta/src/types.rs l.181-195. *)
Definition type_module_path (t : ty) : option str :=
  match t with
  | TObject mp _ _ | TRecord mp _ | TEnum mp _ | TCallback mp _ | TCustom mp _ _ => Some mp
  | _ => None
  end.

(** uniffi_meta/src/lib.rs l.467-476. *)
Definition utrait_path (u : utrait) : str :=
  match u with
  | UTDebug _ f | UTDisplay _ f | UTEq _ f _ _ | UTHash _ f | UTOrd _ f => f_mp f
  end.

(** uniffi_meta/src/lib.rs l.597-616 [module_path]; [expect] for a type without a path. *)
Definition module_path (m : metadata) : res str :=
  match m with
  | MNamespace c _ => Ok c
  | MUdlFile mp _ _ => Ok mp
  | MFunc f | MConstructor _ f | MMethod _ f | MTraitMethod _ _ f => Ok (f_mp f)
  | MRecord r => Ok (r_mp r)
  | MEnum e => Ok (e_mp e)
  | MObject o => Ok (o_mp o)
  | MCallback mp _ _ => Ok mp
  | MCustom mp _ _ _ => Ok mp
  | MUniffiTrait u => Ok (utrait_path u)
  | MTraitImpl t _ =>
      match type_module_path t with Some mp => Ok (crate_of_path mp) | None => Panic end
  end.

(** group.rs l.62-67 [MetadataGroup].  Simplifications: the [BTreeSet] is a list without duplicates in
    the order of insertion; the docstring, [None] here, is left out. *)
Record group := Group { g_crate : str; g_namespace : str; g_items : list metadata }.

(** The [HashMap], as a list with distinct keys. *)
Definition groups := list (str * group).

Fixpoint get (k : str) (m : groups) : option group :=
  match m with
  | [] => None
  | (k', g) :: m => if bytes_eqb k k' then Some g else get k m
  end.

Fixpoint put (k : str) (g : group) (m : groups) : groups :=
  match m with
  | [] => [(k, g)]
  | (k', g') :: m => if bytes_eqb k k' then (k', g) :: m else (k', g') :: put k g m
  end.

(** group.rs l.13-42 [create_metadata_groups]: [collect] keeps the last of two equal keys. *)
Fixpoint create_from (m : groups) (items : list metadata) : groups :=
  match items with
  | [] => m
  | MNamespace c n :: items => create_from (put c (Group c n []) m) items
  | MUdlFile mp n _ :: items => create_from (put mp (Group mp n []) m) items
  | _ :: items => create_from m items
  end.
Definition create_metadata_groups (items : list metadata) : groups := create_from [] items.

Definition is_namespace (m : metadata) : bool :=
  match m with MNamespace _ _ => true | _ => false end.

(** group.rs l.45-60 [group_metadata]. *)
Fixpoint group_metadata (m : groups) (items : list metadata) : res groups :=
  match items with
  | [] => Ok m
  | item :: items =>
      if is_namespace item then group_metadata m items
      else
        bind (module_path item) (fun mp =>
        let c := crate_of_path mp in
        match get c m with
        | None => Err
        | Some g =>
            if in_dec metadata_eq_dec item (g_items g) then Err
            else group_metadata (put c (Group (g_crate g) (g_namespace g) (g_items g ++ [item])) m)
                   items
        end)
  end.

(** uniffi_bindgen/src/loader.rs l.100-107: the two in turn, on the items found in a library. *)
Definition group_library (items : list metadata) : res groups :=
  match items with
  | [] => Err
  | _ => group_metadata (create_metadata_groups items) items
  end.
