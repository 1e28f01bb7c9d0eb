(** What it means for a type to contain another. *)
From Verif Require Import Base Meta_Types Reach_Model.

(** [u] is written inside [t]. *)
Inductive inside (u : ty) : ty -> Prop :=
| in_self : inside u u
| in_option t : inside u t -> inside u (TOption t)
| in_seq t : inside u t -> inside u (TSeq t)
| in_set t : inside u t -> inside u (TSet t)
| in_key k v : inside u k -> inside u (TMap k v)
| in_value k v : inside u v -> inside u (TMap k v)
| in_custom mp n t : inside u t -> inside u (TCustom mp n t)
| in_box t : inside u t -> inside u (TBox t).

(** [d] is the definition of the named type [t] in one of the interfaces. *)
Definition describes (world : list ci) (t : ty) (d : def) : Prop :=
  exists k mp n c, named t = Some (k, mp, n) /\ In c world /\ crate_name c = mp /\
    In d (defs c) /\ d_kind d = k /\ d_name d = n.

(** [u] is found in [t] by following definitions; [parts] says which types of a definition count. *)
Inductive contains (world : list ci) (parts : def -> list ty) (t : ty) : ty -> Prop :=
| c_inside u : inside u t -> contains world parts t u
| c_define u d f v :
    contains world parts t u -> describes world u d -> In f (parts d) -> inside v f ->
    contains world parts t v.

(** Fields and signatures, or fields alone. *)
Definition everything (d : def) : list ty := d_fields d ++ d_callables d.
Definition only_fields (d : def) : list ty := d_fields d.

(** The types written in the interfaces or in the item. *)
Definition written (world : list ci) (item : ty) (t : ty) : Prop :=
  inside t item \/
  exists c d f, In c world /\ In d (defs c) /\ In f (everything d) /\ inside t f.

(** A set of interfaces as the library mode builds it: one per crate, names unique in each, and every
    crate mentioned is there. *)
Definition well_formed (world : list ci) (item : ty) : Prop :=
  (forall c c', In c world -> In c' world -> crate_name c = crate_name c' -> c = c') /\
  (forall c d d', In c world -> In d (defs c) -> In d' (defs c) -> d_name d = d_name d' -> d = d') /\
  (forall t k mp n, written world item t -> named t = Some (k, mp, n) ->
     exists c, In c world /\ crate_name c = mp) /\
  (forall t t' k k' mp n, written world item t -> written world item t' ->
     named t = Some (k, mp, n) -> named t' = Some (k', mp, n) -> k = k').

(** No [Box] in a signature or field. *)
Definition no_box (world : list ci) (item : ty) : Prop :=
  forall t, written world item t -> match t with TBox _ => False | _ => True end.

Definition an_object (t : ty) : Prop := exists mp n i, t = TObject mp n i.
Definition an_unsigned (t : ty) : Prop := t = TU8 \/ t = TU16 \/ t = TU32 \/ t = TU64.
