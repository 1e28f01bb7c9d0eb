(** The items that are read in a UDL file (C61), as the metadata they are. *)
From Verif Require Import Base Meta_Types Udl_Types.

(** uniffi_udl/src/converters/*.rs make these of uniffi_meta directly: callables.rs l.103-126,
    l.139-154, l.185-204, l.235-254, mod.rs l.109-123, l.167-183, enum_.rs l.31-48, l.83-99,
    interface.rs l.145-158, collectors.rs l.54-72.  [Udl_Types] keeps what only UDL says besides. *)
Definition meta_fn (c : str) (f : ufn) : fn_meta :=
  Fn c (u_name f) None (u_async f) (map fst (u_inputs f)) (u_ret f) (u_throws f) None (u_doc f).
Definition meta_trait (c self k : str) (fs : list ufn) : list metadata :=
  match fs with
  | [f] =>
      if bytes_eqb k (S_ "Debug") then [MUniffiTrait (UTDebug self (meta_fn c f))]
      else if bytes_eqb k (S_ "Display") then [MUniffiTrait (UTDisplay self (meta_fn c f))]
      else if bytes_eqb k (S_ "Hash") then [MUniffiTrait (UTHash self (meta_fn c f))]
      else if bytes_eqb k (S_ "Ord") then [MUniffiTrait (UTOrd self (meta_fn c f))]
      else []
  | [e; n] => if bytes_eqb k (S_ "Eq") then [MUniffiTrait (UTEq self (meta_fn c e) self (meta_fn c n))] else []
  | _ => []
  end.
Definition meta_of (c : str) (i : uitem) : list metadata :=
  match i with
  | IFunc f => [MFunc (meta_fn c f)]
  | IObject x imp _ doc => [MObject (Obj c x None imp doc)]
  | ICallback x doc => [MCallback c x doc]
  | IRecord x _ fs doc => [MRecord (Rec c x None fs doc)]
  | IEnum x sh _ vs ne doc => [MEnum (Enum c x None sh None vs ne doc)]
  | ICons s f => [MConstructor s (meta_fn c f)]
  | IMethod s f _ => [MMethod s (meta_fn c f)]
  | ITraitMethod s i f _ => [MTraitMethod s (Z.of_nat i) (meta_fn c f)]
  | ICustom mp x t => [MCustom mp x t None]
  | ITraitOf s k fs => meta_trait c s k fs
  end.
Definition metas (c : str) (l : list uitem) : list metadata := flat_map (meta_of c) l.
