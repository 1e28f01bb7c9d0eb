(** Statements about public paths (C59). *)
From Verif Require Import Base Meta_Types Path_Types Path_Spec Path_Model Path_Claims Pub_Spec Pub_Model Path_Decide.

(** Names to import an item by. *)
Definition import_name (nm : names) : str := match n_orig nm with Some o => o | None => n_name nm end.
Definition asked (self : rpath) (t root : item) : Prop :=
  exists p up, self = t :: p :: up /\ crate_of self = Some root.
Definition has_name (self : rpath) : Prop := exists t up, self = t :: up /\ ident t <> None.
(** Caches met in a run: filled by any lookups and searches, in any order. *)
Inductive reached (r : ir) (d b : nat) : pcache -> Prop :=
| reached_start : reached r d b (PCache fresh [])
| reached_look c self p n o c' : reached r d b c -> place r self ->
    lookup r d self p n (p_cache c) = Some (o, c') -> reached r d b (PCache c' (p_known c))
| reached_public c self o c' : reached r d b c -> place r self -> has_name self ->
    public r d b self c = Some (o, c') -> reached r d b c'.

(** A search ends. *)
Definition modules_of (r : ir) : nat := length (module_entries r).
Definition pub_ends_statement : Prop :=
  forall r d b self c, tree r -> place r self -> (depth_bound r [] <= d)%nat -> (modules_of r < d)%nat ->
    (modules_of r < b)%nat -> reached r d b c -> exists o c', public r d b self c = Some (o, c').
(** What is found is a public module of the item's crate that may offer the item under the name to
    import, and the name for the bindings. *)
Definition found_names (r : ir) (t root : item) (nm : names) : Prop :=
  n_name nm = binding_name t /\
  exists q i, pub_module r root q /\ n_module nm = path_of q /\
    may_offer r (lives_in t) q (import_name nm) i /\ is_path_to t i.
Definition pub_sound_statement : Prop :=
  forall r d b self t root c nm c', tree r -> own_addresses r -> place r self -> asked self t root -> reached r d b c ->
    public_of r d b self (p_cache c) = Some (Found (Some nm), c') -> found_names r t root nm.
(** For all but functions, when what public [use]s and globs refer to is settled: found if offered, by a module of
    least depth, and not found if not offered. *)
Definition pub_complete_statement : Prop :=
  forall r d b self t root c o c', tree r -> own_addresses r -> place r self -> asked self t root -> reached r d b c ->
    i_kind t <> KFn -> ident t <> None -> settled r NsType ->
    public_of r d b self (p_cache c) = Some (o, c') ->
    (forall q x i, pub_module r root q -> does_offer r NsType q x i -> is_path_to t i ->
       exists nm, o = Found (Some nm) /\ (length (n_module nm) <= length q)%nat) /\
    (o <> Found None -> exists nm q i, o = Found (Some nm) /\ pub_module r root q /\ n_module nm = path_of q /\
       does_offer r NsType q (import_name nm) i /\ is_path_to t i).
(** With the cache of answers, if no two items with names have the same path in words. *)
Definition one_of_each (r : ir) : Prop :=
  forall a b, place r a -> place r b -> has_name a -> has_name b -> path_of a = path_of b -> a = b.
Definition pub_cached_statement : Prop :=
  forall r d b self t root c nm c', tree r -> own_addresses r -> one_of_each r -> place r self -> has_name self -> asked self t root -> reached r d b c ->
    public r d b self c = Some (Found (Some nm), c') -> found_names r t root nm.

(** *** Statements that do not hold *)
(** The cache of answers changes no answer. *)
Definition pub_cached_always_statement : Prop :=
  forall r d b self t root c nm c', tree r -> own_addresses r -> place r self -> has_name self -> asked self t root -> reached r d b c ->
    public r d b self c = Some (Found (Some nm), c') -> found_names r t root nm.
(** What is found can be imported: the item is public. *)
Definition pub_visible_statement : Prop :=
  forall r d b self t root nm c', tree r -> own_addresses r -> place r self -> asked self t root ->
    public r d b self (PCache fresh []) = Some (Found (Some nm), c') -> i_vis t = Public.
(** The name to import refers to the item, from the module found. *)
Definition pub_refers_statement : Prop :=
  forall r d b self t root nm c' q o, tree r -> own_addresses r -> place r self -> asked self t root ->
    public r d b self (PCache fresh []) = Some (Found (Some nm), c') ->
    pub_module r root q -> n_module nm = path_of q ->
    refers r q (Path false [import_name nm]) (lives_in t) o -> exists i, o = Some i /\ is_path_to t i.
(** Public functions are found wherever a public module offers them. *)
Definition pub_functions_statement : Prop :=
  forall r d b self t root o c' q x i, tree r -> own_addresses r -> place r self -> asked self t root -> i_kind t = KFn ->
    (forall q m it p, place r q -> top_module q = Some m -> In it (items_of r m) -> i_kind it = KGlob p ->
       exists i k, refers r q p NsType (Some i) /\ top_module i = Some k) ->
    pub_module r root q -> does_offer r NsValue q x i -> is_path_to t i ->
    public r d b self (PCache fresh []) = Some (o, c') -> exists nm, o = Found (Some nm).
(** A module that is offered by a public one is as good as public. *)
Inductive pub_reach (r : ir) (root : item) : rpath -> Prop :=
| pr_root m : i_kind root = KModule m -> pub_reach r root [root]
| pr_offered q x i k : pub_reach r root q -> does_offer r NsType q x i -> top_module i = Some k ->
    (forall it s, i = it :: s -> i_vis it = Public) -> pub_reach r root i.
Definition pub_modules_statement : Prop :=
  forall r d b self t root o c' q x i, tree r -> own_addresses r -> place r self -> asked self t root -> i_kind t <> KFn -> ident t <> None ->
    settled r NsType -> pub_reach r root q -> does_offer r NsType q x i -> is_path_to t i ->
    public r d b self (PCache fresh []) = Some (o, c') -> exists nm, o = Found (Some nm).
(** A glob of the variants of an enum does no harm. *)
Definition pub_enum_globs_statement : Prop :=
  forall r d b self t root o c' q x i, tree r -> own_addresses r -> place r self -> asked self t root -> i_kind t <> KFn -> ident t <> None ->
    (forall q m it p, place r q -> top_module q = Some m -> In it (items_of r m) -> i_kind it = KGlob p ->
       exists i, refers r q p NsType (Some i)) ->
    pub_module r root q -> does_offer r NsType q x i -> is_path_to t i ->
    public r d b self (PCache fresh []) = Some (o, c') -> exists nm, o = Found (Some nm).
