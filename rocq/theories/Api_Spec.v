(** What the API of a crate is, said of the metadata items. *)
From Verif Require Import Base Meta_Types Group_Model Api_Types.
From Coq Require Import Permutation Sorted.
From Verif Require Names_Model.

Definition crate_of (mp : str) : str := Names_Model.crate_name mp.

(** ** Definitions and members *)

(** The module path and the name of the type an item defines. *)
Definition defined_at (m : metadata) : option (str * str) :=
  match m with
  | MRecord r => Some (r_mp r, r_name r)
  | MEnum e => Some (e_mp e, e_name e)
  | MObject o => Some (o_mp o, o_name o)
  | MCallback mp n _ => Some (mp, n)
  | MCustom mp n _ _ => Some (mp, n)
  | _ => None
  end.

(** A type is known by its crate and its name. *)
Definition defines (m : metadata) : option (str * str) :=
  match defined_at m with Some (mp, n) => Some (crate_of mp, n) | None => None end.

(** What a member is to its type. *)
Inductive role := AConstructor | AMethod | ATraitMethod | ATrait | AnImpl.
Definition role_of (m : metadata) : option role :=
  match m with
  | MConstructor _ _ => Some AConstructor
  | MMethod _ _ => Some AMethod
  | MTraitMethod _ _ _ => Some ATraitMethod
  | MUniffiTrait _ => Some ATrait
  | MTraitImpl _ _ => Some AnImpl
  | _ => None
  end.

(** The crate and name of the type a member is written for. *)
Definition written_for (m : metadata) : option (str * str) :=
  match m with
  | MConstructor self f | MMethod self f | MTraitMethod self _ f => Some (crate_of (f_mp f), self)
  | MUniffiTrait (UTDebug self f | UTDisplay self f | UTEq self f _ _ | UTHash self f | UTOrd self f) =>
      Some (crate_of (f_mp f), self)
  | MTraitImpl (TObject mp n _ | TRecord mp n | TEnum mp n | TCallback mp n | TCustom mp n _) _ =>
      Some (crate_of mp, n)
  | _ => None
  end.

Definition member (items : list metadata) (d : metadata) (r : role) (m : metadata) : Prop :=
  In m items /\ role_of m = Some r /\ written_for m = defines d.

(** Which members a definition can have. *)
Definition takes (d : metadata) (r : role) : Prop :=
  match d, r with
  | MObject _, _ => True
  | (MRecord _ | MEnum _), (AConstructor | AMethod | ATraitMethod | ATrait) => True
  | MCallback _ _ _, ATraitMethod => True
  | _, _ => False
  end.
Definition owned (items : list metadata) : Prop :=
  forall m r, In m items -> role_of m = Some r ->
  exists d, In d items /\ defines d <> None /\ written_for m = defines d /\ takes d r.

(** ** The API *)

Definition exactly (P : metadata -> Prop) (l : list metadata) : Prop :=
  NoDup l /\ forall m, In m l <-> P m.

(** Methods of a trait come by their numbers. *)
Definition before (a b : metadata) : Prop :=
  match a, b with
  | MTraitMethod _ i _, MTraitMethod _ j _ => (i < j)%Z
  | _, _ => True
  end.
Definition is_trait_method (m : metadata) : bool :=
  match m with MTraitMethod _ _ _ => true | _ => false end.

Definition describes (items : list metadata) (v : view metadata) : Prop :=
  let d := v_item v in
  In d items /\
  exactly (member items d AConstructor) (v_constructors v) /\
  exactly (fun m => member items d AMethod m \/ member items d ATraitMethod m) (v_methods v) /\
  exactly (member items d ATrait) (v_traits v) /\
  exactly (member items d AnImpl) (v_impls v) /\
  StronglySorted before (filter is_trait_method (v_methods v)).

(** A custom type may be declared several times, in UDL and in Rust; only the docs may differ, and the
    first there are count. *)
Definition stands_for (d m : metadata) : Prop :=
  d = m \/ exists mp n b doc doc', m = MCustom mp n b doc /\ d = MCustom mp n b (Some doc').
Definition first_docs (items : list metadata) (d : metadata) : Prop :=
  match d with
  | MCustom mp n b None => forall mp' b' doc, ~ In (MCustom mp' n b' (Some doc)) items
  | MCustom mp n b (Some _) =>
      exists pre post, items = pre ++ d :: post /\
      forall mp' b' doc, ~ In (MCustom mp' n b' (Some doc)) pre
  | _ => True
  end.

(** [a] is the API that the items of a crate say. *)
Definition says (items : list metadata) (a : api metadata) : Prop :=
  exactly (fun m => In m items /\ exists f, m = MFunc f) (a_functions a) /\
  NoDup (map (fun v => defines (v_item v)) (a_types a)) /\
  Forall (fun v => defines (v_item v) <> None /\ describes items v /\ first_docs items (v_item v))
         (a_types a) /\
  (forall m, In m items -> defines m <> None -> exists v, In v (a_types a) /\ stands_for (v_item v) m) /\
  (forall m, In m items -> role_of m <> None ->
     exists v, In v (a_types a) /\ In m (v_constructors v ++ v_methods v ++ v_traits v ++ v_impls v)).

(** The same API, but for the order of what has no order. *)
Definition same_view (v w : view metadata) : Prop :=
  v_item v = v_item w /\ Permutation (v_constructors v) (v_constructors w) /\
  Permutation (v_methods v) (v_methods w) /\
  filter is_trait_method (v_methods v) = filter is_trait_method (v_methods w) /\
  Permutation (v_traits v) (v_traits w) /\ Permutation (v_impls v) (v_impls w).
Definition same_api (a b : api metadata) : Prop :=
  Permutation (a_functions a) (a_functions b) /\
  exists ts, Permutation (a_types a) ts /\ Forall2 same_view ts (a_types b).

(** ** Types in the pipeline's tree *)

(** The types written in an item, among them those of default values. *)
Fixpoint literal_types (l : literal) : list ty :=
  match l with
  | LUInt _ _ t | LInt _ _ t | LFloat _ t | LEnum _ t => [t]
  | LSome d => default_types d
  | _ => []
  end
with default_types (d : default) : list ty :=
  match d with DDefault => [] | DLit l => literal_types l end.
Definition maybe {A B} (f : A -> list B) (o : option A) : list B :=
  match o with Some a => f a | None => [] end.
Definition fn_types (f : fn_meta) : list ty :=
  flat_map (fun p => p_ty p :: maybe default_types (p_default p)) (f_inputs f) ++
  maybe (fun t => [t]) (f_ret f) ++ maybe (fun t => [t]) (f_throws f).
Definition field_types (fs : list field) : list ty :=
  flat_map (fun f => fd_ty f :: maybe default_types (fd_default f)) fs.
Definition written (m : metadata) : list ty :=
  match m with
  | MFunc f | MConstructor _ f | MMethod _ f | MTraitMethod _ _ f => fn_types f
  | MUniffiTrait (UTDebug _ f | UTDisplay _ f | UTHash _ f | UTOrd _ f) => fn_types f
  | MUniffiTrait (UTEq _ e _ n) => fn_types e ++ fn_types n
  | MRecord r => field_types (r_fields r)
  | MEnum e => flat_map (fun v => maybe literal_types (v_discr v) ++ field_types (v_fields v)) (e_variants e)
               ++ maybe (fun t => [t]) (e_discr_ty e)
  | MCustom _ _ b _ => [b]
  | MTraitImpl t u => [t; u]
  | _ => []
  end.

(** The name in Rust of what an item defines. *)
Definition name_in_rust (m : metadata) : option str :=
  match m with
  | MRecord r => Some (match r_orig r with Some o => o | None => r_name r end)
  | MEnum e => Some (match e_orig e with Some o => o | None => e_name e end)
  | MObject o => Some (match o_orig o with Some x => x | None => o_name o end)
  | MCallback _ n _ => Some n
  | MCustom _ n _ _ => Some n
  | _ => None
  end.

(** The items of all crates. *)
Definition all_items (gs : list group) : list metadata := flat_map g_items gs.
(** The namespace of the type's crate, and the name that the definition says. *)
Definition named (gs : list group) (mp n ns orig : str) : Prop :=
  (exists g, In g gs /\ g_crate g = crate_of mp /\ g_namespace g = ns) /\
  forall m, In m (all_items gs) -> defined_at m = Some (mp, n) -> name_in_rust m = Some orig.

Definition base (t : ty) : bool :=
  match t with
  | TU8 | TI8 | TU16 | TI16 | TU32 | TI32 | TU64 | TI64 | TF32 | TF64
  | TBool | TString | TBytes | TTimestamp | TDuration => true
  | _ => false
  end.
Inductive translates (gs : list group) : ty -> ity -> Prop :=
| tr_base t : base t = true -> translates gs t (IBase t)
| tr_object mp n i ns o : named gs mp n ns o -> translates gs (TObject mp n i) (IInterface ns n o i)
| tr_record mp n ns o : named gs mp n ns o -> translates gs (TRecord mp n) (IRecord ns n o)
| tr_enum mp n ns o : named gs mp n ns o -> translates gs (TEnum mp n) (IEnum ns n o)
| tr_callback mp n ns o : named gs mp n ns o -> translates gs (TCallback mp n) (ICallback ns n o)
| tr_custom mp n ns o t i : named gs mp n ns o -> translates gs t i ->
    translates gs (TCustom mp n t) (ICustom ns n o i)
| tr_box t i : translates gs t i -> translates gs (TBox t) (IBox i)
| tr_option t i : translates gs t i -> translates gs (TOption t) (IOption i)
| tr_seq t i : translates gs t i -> translates gs (TSeq t) (ISeq i)
| tr_set t i : translates gs t i -> translates gs (TSet t) (ISet i)
| tr_map k v i j : translates gs k i -> translates gs v j -> translates gs (TMap k v) (IMap i j).

Definition view_all {A} (P : A -> Prop) (v : view A) : Prop :=
  P (v_item v) /\ Forall P (v_constructors v) /\ Forall P (v_methods v) /\ Forall P (v_traits v) /\
  Forall P (v_impls v).
Definition api_all {A} (P : A -> Prop) (a : api A) : Prop :=
  Forall P (a_functions a) /\ Forall (view_all P) (a_types a).
Definition well_typed (gs : list group) (a : api shown) : Prop :=
  api_all (fun s => Forall2 (translates gs) (written (fst s)) (snd s)) a.

(** The crates of the types inside a type. *)
Fixpoint crates_in (t : ty) : list str :=
  match t with
  | TObject mp _ _ | TRecord mp _ | TEnum mp _ | TCallback mp _ => [crate_of mp]
  | TCustom mp _ t => crate_of mp :: crates_in t
  | TBox t | TOption t | TSeq t | TSet t => crates_in t
  | TMap k v => crates_in k ++ crates_in v
  | _ => []
  end.

(** ** What is supposed of the items *)

(** Items are grouped by crate, each once (C40). *)
Definition of_group (g : group) : Prop :=
  NoDup (g_items g) /\
  forall m, In m (g_items g) ->
    (exists mp, module_path m = Ok mp /\ crate_of mp = g_crate g) /\ is_namespace m = false.
Definition grouped (gs : list group) : Prop :=
  NoDup (map g_crate gs) /\ Forall of_group gs.

(** No two objects or callback interfaces of one name. *)
Definition objects_differ (items : list metadata) : Prop :=
  forall m m', In m items -> In m' items -> defines m = defines m' ->
  match m, m' with
  | MObject _, MObject _ | MCallback _ _ _, MCallback _ _ _ => m = m'
  | _, _ => True
  end.

(** No two types of one name; a custom type may be declared twice. *)
Definition types_differ (items : list metadata) : Prop :=
  forall d d', In d items -> In d' items -> defines d <> None -> defines d = defines d' ->
  d = d' \/ exists mp n b doc doc', d = MCustom mp n b doc /\ d' = MCustom mp n b doc'.

(** No function has the name of a type. *)
Definition functions_differ (items : list metadata) : Prop :=
  forall f d, In (MFunc f) items -> In d items -> defined_at d <> Some (f_mp f, f_name f).

(** The numbers of the methods of a trait, as they come. *)
Definition numbers (n : str) (items : list metadata) : list Z :=
  flat_map (fun m => match m with
                     | MTraitMethod n' k _ => if Meta_Eq.str_eq_dec n' n then [k] else []
                     | _ => []
                     end) items.
Definition numbered (items : list metadata) : Prop :=
  forall n, StronglySorted Z.lt (numbers n items).

(** Crate names are Rust identifiers. *)
Definition dash : byte := Byte.x2d.
Definition no_dash (c : str) : Prop := ~ In dash c.

(** ** What the pipeline wants besides *)

(** What tells members of one type apart. *)
Inductive label := Named (n : str) | DebugL | DisplayL | EqL | HashL | OrdL | Of (trait : ty).
Definition label_of (m : metadata) : option label :=
  match m with
  | MConstructor _ f | MMethod _ f | MTraitMethod _ _ f => Some (Named (f_name f))
  | MUniffiTrait (UTDebug _ _) => Some DebugL
  | MUniffiTrait (UTDisplay _ _) => Some DisplayL
  | MUniffiTrait (UTEq _ _ _ _) => Some EqL
  | MUniffiTrait (UTHash _ _) => Some HashL
  | MUniffiTrait (UTOrd _ _) => Some OrdL
  | MTraitImpl _ t => Some (Of t)
  | _ => None
  end.
Definition members_differ (items : list metadata) : Prop :=
  forall m m', In m items -> In m' items -> role_of m <> None -> role_of m = role_of m' ->
  written_for m = written_for m' -> label_of m = label_of m' -> m = m'.

(** No type has both plain methods and methods of a trait. *)
Definition not_mixed (items : list metadata) : Prop :=
  forall m m', In m items -> In m' items -> role_of m = Some AMethod -> role_of m' = Some ATraitMethod ->
  written_for m <> written_for m'.

(** Each type is of a crate that is there. *)
Definition crates_there (gs : list group) : Prop :=
  forall m t c, In m (all_items gs) -> In t (written m) -> In c (crates_in t) -> In c (map g_crate gs).
Definition no_dashes (gs : list group) : Prop :=
  (forall g, In g gs -> no_dash (g_crate g)) /\
  forall m t c, In m (all_items gs) -> In t (written m) -> In c (crates_in t) -> no_dash c.
