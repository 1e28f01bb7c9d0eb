(** Where other crates can import an item from: public modules and what they offer.  No search here. *)
From Verif Require Import Base Meta_Types Path_Types Path_Spec.

Definition item_name (it : item) : str :=
  match ident it with
  | Some x => x
  | None => match i_kind it with KUdl => i_name it | KStd b => std_name b | _ => S_ "<unnamed>" end
  end.
(** The names along a path, from the crate down. *)
Definition path_of (q : rpath) : list str := rev (map item_name q).

(** A module all of whose modules around it are public. *)
Inductive pub_module (r : ir) (root : item) : rpath -> Prop :=
| pm_root m : i_kind root = KModule m -> pub_module r root [root]
| pm_child q m it k : pub_module r root q -> top_module q = Some m -> In it (items_of r m) ->
    i_kind it = KModule k -> i_vis it = Public -> pub_module r root (it :: q).

(** A module offers an item under a name: its own, by a public [use], or through a public glob.
    [to] says what paths refer to, [to_module] which modules paths of globs refer to.
    Whether the item itself is public is left out. *)
Section Offers.
  Variable r : ir.
  Variable to : rpath -> path -> rpath -> Prop.
  Variable to_module : rpath -> path -> rpath -> Prop.
  Inductive offers : rpath -> str -> rpath -> Prop :=
  | of_own q m it x : top_module q = Some m -> In it (items_of r m) -> ident it = Some x -> offers q x (it :: q)
  | of_use q m it p i : top_module q = Some m -> In it (items_of r m) -> i_kind it = KUse p -> i_vis it = Public ->
      to q p i -> offers q (i_name it) i
  | of_glob q m it p q' k x i : top_module q = Some m -> In it (items_of r m) -> i_kind it = KGlob p ->
      i_vis it = Public -> to_module q p q' -> top_module q' = Some k -> offers q' x i -> offers q x i.
End Offers.
(** With the two meanings of C56: what a path may refer to, and what it does refer to. *)
Definition may_offer (r : ir) (n : ns) : rpath -> str -> rpath -> Prop :=
  offers r (fun q p i => may_refer r q p n i) (fun q p i => exists k, may_refer r q p k i).
Definition does_offer (r : ir) (n : ns) : rpath -> str -> rpath -> Prop :=
  offers r (fun q p i => refers r q p n (Some i)) (fun q p i => refers r q p NsType (Some i)).
(** Items are the same only if they are one. *)
Definition own_addresses (r : ir) : Prop :=
  forall a b s u, place r (a :: s) -> place r (b :: u) -> is_item a b = true -> a = b.
(** [i] is a path to the item [t]. *)
Definition is_path_to (t : item) (i : rpath) : Prop := exists a s, i = a :: s /\ is_item a t = true.

(** What public [use]s and globs refer to is settled, in the sense of C56, and globs are of modules. *)
Definition settled (r : ir) (n : ns) : Prop :=
  forall q m it p, place r q -> top_module q = Some m -> In it (items_of r m) -> i_vis it = Public ->
    (i_kind it = KUse p -> exists o, refers r q p n o) /\
    (i_kind it = KGlob p -> exists o, refers r q p NsType o /\ forall i, o = Some i -> exists k, top_module i = Some k).
(** Functions are values, the other items types or modules. *)
Definition lives_in (it : item) : ns := match i_kind it with KFn => NsValue | _ => NsType end.
(** The name of an item in the bindings: the one its attribute gives, or its own. *)
Definition binding_name (it : item) : str :=
  match i_kind it with
  | KRecord _ | KEnum _ | KObject _ | KFn | KTrait => match i_alias it with Some a => a | None => item_name it end
  | _ => item_name it
  end.
