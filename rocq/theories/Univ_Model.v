(** The component interface's types: uniffi_bindgen/src/interface/universe.rs, the [add_*] methods of
    interface/mod.rs and macro_metadata/ci.rs. *)
From Verif Require Import Base Meta_Types Meta_Eq.
From Verif Require Names_Model Reach_Model.

(** universe.rs l.199-201 [normalize_module_path]. *)
Definition normalize_path (mp : str) : str := Names_Model.crate_name mp.

(** universe.rs l.128-197 [normalize_type_module_path]: module paths become crate names, boxes are
    dropped. *)
Fixpoint normalize (t : ty) : ty :=
  match t with
  | TObject mp n i => TObject (normalize_path mp) n i
  | TRecord mp n => TRecord (normalize_path mp) n
  | TEnum mp n => TEnum (normalize_path mp) n
  | TCallback mp n => TCallback (normalize_path mp) n
  | TOption t => TOption (normalize t)
  | TSeq t => TSeq (normalize t)
  | TMap k v => TMap (normalize k) (normalize v)
  | TSet t => TSet (normalize t)
  | TCustom mp n t => TCustom (normalize_path mp) n (normalize t)
  | TBox t => normalize t
  | t => t
  end.

(** uniffi_meta/src/types.rs l.170-179 [name]. *)
Definition type_name (t : ty) : option str :=
  match t with
  | TObject _ n _ | TRecord _ n | TEnum _ n | TCustom _ n _ | TCallback _ n => Some n
  | _ => None
  end.

(** universe.rs l.26-35 [TypeUniverse]: the [HashMap] is a list with distinct keys, the [BTreeSet] a
    list without duplicates; the order of [BTreeSet] is not modelled. *)
Record universe := Univ { type_definitions : list (str * ty); known : list ty }.

Fixpoint find_def (n : str) (l : list (str * ty)) : option ty :=
  match l with
  | [] => None
  | (n', t) :: l => if bytes_eqb n n' then Some t else find_def n l
  end.

(** universe.rs l.46-63 [add_type_definition]. *)
Definition add_type_definition (n : str) (t : ty) (u : universe) : res universe :=
  match find_def n (type_definitions u) with
  | Some cur => if ty_eq_dec (normalize t) (normalize cur) then Ok u else Err
  | None => Ok (Univ ((n, t) :: type_definitions u) (known u))
  end.

(** universe.rs l.73-77: the type itself. *)
Definition insert_known (t : ty) (u : universe) : universe :=
  if in_dec ty_eq_dec t (known u) then u
  else if in_dec ty_eq_dec (normalize t) (known u) then u
  else Univ (type_definitions u) (normalize t :: known u).

(** universe.rs l.71-88 [add_known_type], together with the loop of l.79-81 over
    [iter_nested_types] (types.rs l.155-168): first component and second component.  The loop runs over
    the nested types and over theirs, so the calls nest as the types do. *)
Fixpoint add_and_nested (t : ty) : (universe -> res universe) * (universe -> res universe) :=
  let nested :=
    match t with
    | TOption t | TSeq t | TSet t | TCustom _ _ t =>
        let (add, nested) := add_and_nested t in fun u => bind (add u) nested
    | TMap k v =>
        let (add_k, nested_k) := add_and_nested k in
        let (add_v, nested_v) := add_and_nested v in
        fun u => bind (add_k u) (fun u => bind (nested_k u) (fun u => bind (add_v u) nested_v))
    | _ => Ok
    end in
  (fun u => bind (nested (insert_known t u)) (fun u =>
            match type_name t with
            | Some n => add_type_definition n t u
            | None => Ok u
            end),
   nested).

Definition add_known_type (t : ty) (u : universe) : res universe := fst (add_and_nested t) u.

(** universe.rs l.91-97 [add_known_types]. *)
Fixpoint add_known_types (ts : list ty) (u : universe) : res universe :=
  match ts with
  | [] => Ok u
  | t :: ts => bind (add_known_type t u) (add_known_types ts)
  end.

(** The part of [ComponentInterface] (interface/mod.rs l.92-118) that decides whether an item is
    accepted: names of what has been defined, and for callback interfaces the number of methods. *)
Record iface := Iface {
  types : universe; functions : list str; records : list str; enums : list str;
  objects : list str; callbacks : list (str * Z); customs : list (str * (ty * str)) }.

Definition with_types (u : universe) (i : iface) : iface :=
  Iface u (functions i) (records i) (enums i) (objects i) (callbacks i) (customs i).

Definition has (n : str) (l : list str) : bool := existsb (bytes_eqb n) l.

(** The types a callable mentions (interface/function.rs l.287-296), each with those nested in it. *)
Definition opt_list {A} (o : option A) : list A := match o with Some a => [a] | None => [] end.
Definition callable_types (f : fn_meta) : list ty :=
  flat_map Reach_Model.iter_types (map p_ty (f_inputs f) ++ opt_list (f_ret f) ++ opt_list (f_throws f)).

(** A constructor's return type is the object (interface/object.rs l.466-470, l.743-745), whatever
    kind of type it is defined on. *)
Definition constructor_types (self : str) (f : fn_meta) : list ty :=
  flat_map Reach_Model.iter_types
    (map p_ty (f_inputs f) ++ [TObject (f_mp f) self IStruct] ++ opt_list (f_throws f)).

Definition fields_types (fs : list field) : list ty :=
  flat_map (fun f => Reach_Model.iter_types (fd_ty f)) fs.

(** interface/object.rs l.655-667. *)
Definition utrait_types (u : utrait) : list ty :=
  match u with
  | UTDebug _ f | UTDisplay _ f | UTHash _ f | UTOrd _ f => callable_types f
  | UTEq _ e _ n => callable_types e ++ callable_types n
  end.

(** uniffi_meta/src/lib.rs l.478-487. *)
Definition utrait_self (u : utrait) : str :=
  match u with UTDebug s _ | UTDisplay s _ | UTEq s _ _ _ | UTHash s _ | UTOrd s _ => s end.

Definition add_types (ts : list ty) (i : iface) : res iface :=
  bind (add_known_types ts (types i)) (fun u => Ok (with_types u i)).

(** interface/mod.rs l.1031-1068 [add_method_meta]. *)
Definition add_method (self : str) (f : fn_meta) (i : iface) : res iface :=
  if has self (objects i) || has self (records i) || has self (enums i)
  then add_types (callable_types f) i else Err.

Fixpoint find_callback (n : str) (l : list (str * Z)) : option Z :=
  match l with
  | [] => None
  | (n', k) :: l => if bytes_eqb n n' then Some k else find_callback n l
  end.
Fixpoint bump (n : str) (l : list (str * Z)) : list (str * Z) :=
  match l with
  | [] => []
  | (n', k) :: l => if bytes_eqb n n' then (n', (k + 1)%Z) :: l else (n', k) :: bump n l
  end.
Fixpoint find_custom (n : str) (l : list (str * (ty * str))) : option (ty * str) :=
  match l with
  | [] => None
  | (n', c) :: l => if bytes_eqb n n' then Some c else find_custom n l
  end.

(** macro_metadata/ci.rs l.67-125 [add_item_to_ci] and the methods it calls, interface/mod.rs
    l.928-1188.  Left out: what is stored about an item besides names. *)
Definition add_item (item : metadata) (i : iface) : res iface :=
  match item with
  | MNamespace _ _ => Panic
  | MUdlFile _ _ _ => Ok i
  | MFunc f =>
      if has (f_name f) (functions i) then Err
      else match find_def (f_name f) (type_definitions (types i)) with
      | Some _ => Err
      | None =>
          bind (add_types (callable_types f) i) (fun i =>
          Ok (Iface (types i) (f_name f :: functions i) (records i) (enums i) (objects i)
                    (callbacks i) (customs i)))
      end
  | MConstructor self f =>
      if has self (objects i) || has self (records i) || has self (enums i)
      then add_types (constructor_types self f) i else Err
  | MMethod self f => add_method self f i
  | MRecord r =>
      bind (add_types [TRecord (r_mp r) (r_name r)] i) (fun i =>
      if has (r_name r) (records i) then Err
      else
        bind (add_types (fields_types (r_fields r)) i) (fun i =>
        Ok (Iface (types i) (functions i) (r_name r :: records i) (enums i) (objects i)
                  (callbacks i) (customs i))))
  | MEnum e =>
      bind (add_types [TEnum (e_mp e) (e_name e)] i) (fun i =>
      if has (e_name e) (enums i) then Err
      else
        bind (add_types (flat_map (fun v => fields_types (v_fields v)) (e_variants e)) i) (fun i =>
        Ok (Iface (types i) (functions i) (records i) (e_name e :: enums i) (objects i)
                  (callbacks i) (customs i))))
  | MObject o =>
      bind (add_types [TObject (o_mp o) (o_name o) (o_imp o); TObject (o_mp o) (o_name o) (o_imp o)] i)
        (fun i =>
      Ok (Iface (types i) (functions i) (records i) (enums i) (o_name o :: objects i)
                (callbacks i) (customs i)))
  | MUniffiTrait u =>
      match find_def (utrait_self u) (type_definitions (types i)) with
      | None => Err
      | Some _ =>
          bind (add_types (utrait_types u) i) (fun i =>
          let self := utrait_self u in
          if has self (objects i) || has self (enums i) || has self (records i) then Ok i else Err)
      end
  | MTraitImpl t _ =>
      match type_name t with
      | Some n => if has n (objects i) then Ok i else Err
      | None => Err
      end
  | MCallback mp n _ =>
      bind (add_types [TCallback mp n] i) (fun i =>
      Ok (Iface (types i) (functions i) (records i) (enums i) (objects i)
                ((n, 0%Z) :: callbacks i) (customs i)))
  | MTraitMethod trait_name index f =>
      match find_callback trait_name (callbacks i) with
      | Some k =>
          if (k =? index)%Z then
            bind (add_types (callable_types f) i) (fun i =>
            Ok (Iface (types i) (functions i) (records i) (enums i) (objects i)
                      (bump trait_name (callbacks i)) (customs i)))
          else Err
      | None => add_method trait_name f i
      end
  | MCustom mp n b _ =>
      bind (add_types [TCustom mp n b] i) (fun i =>
      match find_custom n (customs i) with
      | Some (b', mp') => if ty_eq_dec b' b then if str_eq_dec mp' mp then Ok i else Err else Err
      | None =>
          Ok (Iface (types i) (functions i) (records i) (enums i) (objects i) (callbacks i)
                    ((n, (b, mp)) :: customs i))
      end)
  end.

Fixpoint add_items (items : list metadata) (i : iface) : res iface :=
  match items with
  | [] => Ok i
  | x :: items => bind (add_item x i) (add_items items)
  end.

(** interface/mod.rs l.1191-1206 [check_consistency], the part about names. *)
Definition check_consistency (i : iface) : res iface :=
  if existsb (fun f => match find_def f (type_definitions (types i)) with
                       | Some _ => true | None => false end) (functions i)
  then Err else Ok i.

Definition empty : iface := Iface (Univ [] []) [] [] [] [] [] [].

(** interface/mod.rs l.153-175 [add_metadata] on a new interface and ci.rs l.38-55
    [add_group_to_ci]. *)
Definition add_metadata (items : list metadata) : res iface :=
  bind (add_types [TString] empty) (fun i =>
  bind (add_items items i) check_consistency).
