(** What a configuration should do, said of the items. *)
From Verif Require Import Base Meta_Types Group_Model Api_Types Api_Spec Excl_Types.
From Verif Require Import Reach_Spec Univ_Spec Names_Model.
From Coq Require Import Permutation.

(** ** Excluding (docs/manual/src/renaming.md, "Excluding items") *)

(** How an item is called in the configuration. *)
Definition key (m : metadata) : option str :=
  match m with
  | MFunc f => Some (f_name f)
  | MConstructor self f | MMethod self f | MTraitMethod self _ f => Some (self ++ S_ "." ++ f_name f)
  | _ => match defined_at m with Some (_, n) => Some n | None => None end
  end.
Definition left_out (c : conf) (m : metadata) : Prop :=
  exists k, key m = Some k /\ In k (excluded c).

(** [l'] is [l] without what is [P]. *)
Inductive without {A} (P : A -> Prop) : list A -> list A -> Prop :=
| wo_nil : without P [] []
| wo_drop x l l' : P x -> without P l l' -> without P (x :: l) l'
| wo_keep x l l' : ~ P x -> without P l l' -> without P (x :: l) (x :: l').

(** The bindings show the items that are not left out, in their order, and nothing else. *)
Definition shows_type (c : conf) (v : view metadata) (y : typ) : Prop :=
  y_item y = v_item v /\
  without (left_out c) (v_constructors v) (map c_item (y_constructors y)) /\
  without (left_out c) (v_methods v) (map c_item (y_methods y)) /\
  map c_item (y_traits y) = v_traits v /\ y_impls y = v_impls v.
Definition shows (c : conf) (items : list metadata) (b : bindings) : Prop :=
  exists a, says items a /\
  without (left_out c) (a_functions a) (map c_item (b_functions b)) /\
  exists vs, without (fun v => left_out c (v_item v)) (a_types a) vs /\
             Forall2 (shows_type c) vs (b_types b).

(** The same is shown, but for the order of what has no order. *)
Definition same_calls (l l' : list call) : Prop := Permutation (map c_item l) (map c_item l').
Definition same_typ (y z : typ) : Prop :=
  y_item y = y_item z /\ same_calls (y_constructors y) (y_constructors z) /\
  same_calls (y_methods y) (y_methods z) /\
  filter is_trait_method (map c_item (y_methods y)) = filter is_trait_method (map c_item (y_methods z)) /\
  same_calls (y_traits y) (y_traits z) /\ Permutation (y_impls y) (y_impls z).
Definition same_shown (b b' : bindings) : Prop :=
  same_calls (b_functions b) (b_functions b') /\
  exists ts, Permutation (b_types b) ts /\ Forall2 same_typ ts (b_types b').

(** ** Symbols *)

(** The methods of a callback interface are only called by Rust. *)
Definition of_callback (items : list metadata) (m : metadata) : Prop :=
  exists mp n doc, In (MCallback mp n doc) items /\ written_for m = defines (MCallback mp n doc).
(** The traits that foreign code may implement. *)
Definition foreign (m : metadata) : Prop :=
  match m with
  | MCallback _ _ _ => True
  | MObject o => o_imp o = ITrait Both \/ o_imp o = ITrait ForeignOnly
  | _ => False
  end.
(** What a compiled library exports for an item (uniffi_meta/src/ffi_names.rs says how symbols are
    named): the functions the foreign code calls, *)
Definition entry (m : metadata) : list str :=
  match m with
  | MFunc f => [fn_symbol_name (f_mp f) (f_name f)]
  | MConstructor s f => [constructor_symbol_name (f_mp f) s (f_name f)]
  | MMethod s f | MTraitMethod s _ f => [method_symbol_name (f_mp f) s (f_name f)]
  | MUniffiTrait (UTDebug s f | UTDisplay s f | UTHash s f | UTOrd s f) =>
      [method_symbol_name (f_mp f) s (f_name f)]
  | MUniffiTrait (UTEq s e s' n) =>
      [method_symbol_name (f_mp e) s (f_name e); method_symbol_name (f_mp n) s' (f_name n)]
  | _ => []
  end.
(** those that return checksums, *)
Definition checksum_of (m : metadata) : list str :=
  match m with
  | MFunc f => [fn_checksum_symbol_name (f_mp f) (f_name f)]
  | MConstructor s f => [constructor_checksum_symbol_name (f_mp f) s (f_name f)]
  | MMethod s f | MTraitMethod s _ f => [method_checksum_symbol_name (f_mp f) s (f_name f)]
  | _ => []
  end.
(** those that clone and free an object, and those that take tables. *)
Definition handles (m : metadata) : list str :=
  match m with
  | MObject o => [clone_fn_symbol_name (o_mp o) (o_name o); free_fn_symbol_name (o_mp o) (o_name o)]
  | _ => []
  end.
Definition init_of (m : metadata) : option str :=
  match defined_at m with
  | Some (mp, n) => Some (init_callback_vtable_fn_symbol_name mp n)
  | None => None
  end.
Inductive exports (items : list metadata) (m : metadata) : str -> Prop :=
| ex_entry s : In m items -> ~ of_callback items m -> In s (entry m) -> exports items m s
| ex_checksum s : In m items -> In s (checksum_of m) -> exports items m s
| ex_handle s : In m items -> In s (handles m) -> exports items m s
| ex_init s : In m items -> foreign m -> init_of m = Some s -> exports items m s.

(** The bindings link against the library. *)
Definition links (items : list metadata) (b : bindings) : Prop :=
  forall s, In s (b_declared b) -> exists m, exports items m s.

(** An item that is in the bindings: neither it nor its type is left out. *)
Definition stays (c : conf) (items : list metadata) (m : metadata) : Prop :=
  In m items /\ ~ left_out c m /\
  forall d, In d items -> defines d <> None -> written_for m = defines d -> ~ left_out c d.
(** The bindings do not depend on what they leave out. *)
Definition needs_only (c : conf) (items : list metadata) (b : bindings) : Prop :=
  forall s, In s (b_declared b) -> exists m, stays c items m /\ exports items m s.

(** Each callable calls the functions of its item. *)
Definition calls_own (k : call) : Prop := c_symbols k = entry (c_item k).
Definition calls (b : bindings) : Prop :=
  Forall calls_own (b_functions b) /\
  Forall (fun y => Forall calls_own (y_constructors y ++ y_methods y ++ y_traits y)) (b_types b).

(** All symbols that are used are declared. *)
Definition callback (m : metadata) : Prop := match m with MCallback _ _ _ => True | _ => False end.
Definition declares (b : bindings) : Prop :=
  (forall k s, In k (b_functions b) -> In s (c_symbols k) -> In s (b_declared b)) /\
  (forall y, In y (b_types b) ->
     (forall k s, In k (y_constructors y ++ y_methods y ++ y_traits y) -> ~ callback (y_item y) ->
        In s (c_symbols k) -> In s (b_declared b)) /\
     (forall s, In s (handles (y_item y)) -> In s (b_declared b)) /\
     (forall t, y_table y = Some t -> In (t_init t) (b_declared b))) /\
  (forall s, In s (b_checked b) -> In s (b_declared b)).

(** ** Tables *)

(** Rust reads a table by position: it has to have all methods of the trait, in their order. *)
Definition table_of (v : view metadata) (y : typ) : Prop :=
  (foreign (v_item v) -> y_table y <> None) /\
  forall t, y_table y = Some t -> init_of (v_item v) = Some (t_init t) /\ t_slots t = v_methods v.
Definition tables (items : list metadata) (b : bindings) : Prop :=
  exists a, says items a /\
  forall y, In y (b_types b) -> exists v, In v (a_types a) /\ y_item y = v_item v /\ table_of v y.

(** ** Everything mentioned is there *)

(** The crate and name of a user-defined type. *)
Definition refers_to (t : ty) : option (str * str) :=
  match t with
  | TObject mp n _ | TRecord mp n | TEnum mp n | TCallback mp n | TCustom mp n _ => Some (crate_of mp, n)
  | _ => None
  end.
(** The items the bindings show. *)
Definition shown_item (b : bindings) (m : metadata) : Prop :=
  In m (map c_item (b_functions b)) \/
  exists y, In y (b_types b) /\
    (m = y_item y \/ In m (map c_item (y_constructors y ++ y_methods y ++ y_traits y)) \/ In m (y_impls y)).
(** The types of an item: what it defines and what is written in it. *)
Definition types_of (m : metadata) : list ty := signature m ++ Api_Spec.written m.
(** What the bindings say about types: in what is shown, and in converters. *)
Definition says_type (b : bindings) (t : ty) : Prop :=
  In t (b_converters b) \/ exists m, shown_item b m /\ In t (types_of m).
Definition there (b : bindings) (r : str * str) : Prop :=
  exists y, In y (b_types b) /\ defines (y_item y) = Some r.
Definition closed (crate : str) (b : bindings) : Prop :=
  forall t u n, says_type b t -> inside u t -> refers_to u = Some (crate, n) -> there b (crate, n).

(** The items do not mention what they do not define. *)
Definition items_closed (crate : str) (items : list metadata) : Prop :=
  forall m t u n, In m items -> In t (types_of m) -> inside u t -> refers_to u = Some (crate, n) ->
  exists d, In d items /\ defines d = Some (crate, n).
(** [t] has a type in it that is left out. *)
Definition tainted (c : conf) (crate : str) (t : ty) : Prop :=
  exists u n, inside u t /\ refers_to u = Some (crate, n) /\ In n (excluded c).
(** Types left out are only used by what is left out, *)
Definition unused (c : conf) (crate : str) (items : list metadata) : Prop :=
  forall m t, stays c items m -> In t (types_of m) -> ~ tainted c crate t.
(** and nowhere as a part of another type. *)
Definition never_nested (c : conf) (crate : str) (items : list metadata) : Prop :=
  forall m t u, In m items -> In t (types_of m) -> inside u t -> tainted c crate u ->
  exists n, refers_to u = Some (crate, n) /\ In n (excluded c).

(** ** What is supposed *)

(** Custom types are not among what is left out. *)
Definition no_custom (c : conf) (items : list metadata) : Prop :=
  forall mp n b doc, In (MCustom mp n b doc) items -> ~ In n (excluded c).
(** A new name for a trait that foreign code implements is the old one but for the case of letters. *)
Definition keeps_traits (c : conf) (items : list metadata) : Prop :=
  forall m mp n n', In m items -> foreign m -> defined_at m = Some (mp, n) -> In (n, n') (renames c) ->
  lower n' = lower n.
(** No method of such a trait is left out. *)
Definition whole_traits (c : conf) (items : list metadata) : Prop :=
  forall m d, In m items -> In d items -> foreign d -> written_for m = defines d ->
  role_of m = Some AMethod \/ role_of m = Some ATraitMethod -> ~ left_out c m.
(** The two methods of [Eq] are of one type. *)
Definition eq_whole (items : list metadata) : Prop :=
  forall s e s' n, In (MUniffiTrait (UTEq s e s' n)) items -> s' = s /\ crate_of (f_mp n) = crate_of (f_mp e).
