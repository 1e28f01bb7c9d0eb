(** What is said of a library built from a UDL file (C72). *)
From Verif Require Import Base Meta_Types Api_Types Api_Spec Excl_Types Excl_Spec.

(** ** Items that a UDL file gives (C61) *)

Definition udl_fn (c : str) (f : fn_meta) : Prop :=
  f_mp f = c /\ f_orig f = None /\
  (f_async f = true -> Forall (fun p => p_pass p <> ByMutRef) (f_inputs f)).
Definition udl_field (f : field) : Prop := fd_orig f = None.
Definition udl_variant (v : variant) : Prop :=
  v_orig v = None /\ v_discr v = None /\ Forall udl_field (v_fields v).
(** An error whose variants have no fields is declared with `enum`, any other with `interface`. *)
Definition fieldless (e : enum_meta) : Prop := Forall (fun v => v_fields v = []) (e_variants e).

(** The type an item defines, where it can have built-in traits. *)
Definition type_of (d : metadata) : option ty :=
  match d with
  | MRecord r => Some (TRecord (r_mp r) (r_name r))
  | MEnum e => Some (TEnum (e_mp e) (e_name e))
  | MObject o => Some (TObject (o_mp o) (o_name o) (o_imp o))
  | _ => None
  end.
Definition builtin (c : str) (name : string) (args : list param) (ret : ty) : fn_meta :=
  Fn c (S_ name) None false args (Some ret) None None None.
(** The built-in traits of the type [t], called [self]. *)
Definition built_in (c self : str) (t : ty) (u : utrait) : Prop :=
  let other := [Param (S_ "other") t ByRef None] in
  match u with
  | UTDebug s f => s = self /\ f = builtin c "uniffi_trait_debug" [] TString
  | UTDisplay s f => s = self /\ f = builtin c "uniffi_trait_display" [] TString
  | UTEq s e s' n => s = self /\ s' = self /\ e = builtin c "uniffi_trait_eq_eq" other TBool /\
                     n = builtin c "uniffi_trait_eq_ne" other TBool
  | UTHash s f => s = self /\ f = builtin c "uniffi_trait_hash" [] TU64
  | UTOrd s f => s = self /\ f = builtin c "uniffi_trait_ord_cmp" other TI8
  end.
(** Where members are: constructors in interfaces that are no traits, methods in interfaces, numbered
    methods in callback interfaces. *)
Definition udl_item (c : str) (items : list metadata) (m : metadata) : Prop :=
  match m with
  | MFunc f => udl_fn c f
  | MConstructor s f => udl_fn c f /\ f_ret f = None /\
      exists o, In (MObject o) items /\ o_name o = s /\ o_imp o = IStruct
  | MMethod s f => udl_fn c f /\ exists o, In (MObject o) items /\ o_name o = s
  | MTraitMethod s _ f => udl_fn c f /\ exists mp doc, In (MCallback mp s doc) items
  | MRecord r => r_mp r = c /\ r_orig r = None /\ Forall udl_field (r_fields r)
  | MEnum e => e_mp e = c /\ e_orig e = None /\ e_discr_ty e = None /\
               Forall udl_variant (e_variants e) /\ (e_shape e = ShError true -> fieldless e)
  | MObject o => o_mp o = c /\ o_orig o = None /\ o_imp o <> ITrait ForeignOnly
  | MCallback mp _ _ => mp = c
  | MUniffiTrait u =>
      exists d t n, In d items /\ type_of d = Some t /\ defined_at d = Some (c, n) /\ built_in c n t u
  | MTraitImpl _ _ => False
  | MCustom _ _ _ _ | MNamespace _ _ | MUdlFile _ _ _ => True
  end.
Definition udl (c : str) (items : list metadata) : Prop := forall m, In m items -> udl_item c items m.

(** ** Errors *)

Definition named (t : ty) (n : str) : Prop :=
  match t with
  | TObject _ x _ | TRecord _ x | TEnum _ x | TCallback _ x | TCustom _ x _ => x = n
  | _ => False
  end.
Definition signature (m : metadata) (f : fn_meta) : Prop :=
  match m with
  | MFunc g | MConstructor _ g | MMethod _ g | MTraitMethod _ _ g => g = f
  | _ => False
  end.
(** A name is an error's if an enum of this name is declared an error, or something of this name is
    thrown. *)
Definition an_error (items : list metadata) (n : str) : Prop :=
  (exists e flat, In (MEnum e) items /\ e_name e = n /\ e_shape e = ShError flat) \/
  (exists m f t, In m items /\ signature m f /\ f_throws f = Some t /\ named t n).

(** ** What the generated code says again *)

Definition bare_param (p : param) : param := Param (p_name p) (p_ty p) (p_pass p) None.
Definition bare_fn (f : fn_meta) : fn_meta :=
  Fn (f_mp f) (f_name f) None (f_async f) (map bare_param (f_inputs f)) (f_ret f) (f_throws f) None None.
Definition bare_field (f : field) : field := Field (fd_name f) None (fd_ty f) None None.
Definition bare_variant (v : variant) : variant :=
  Variant (v_name v) None None (map bare_field (v_fields v)) None.
Definition bare_enum (sh : shape) (e : enum_meta) : enum_meta :=
  Enum (e_mp e) (e_name e) None sh None (map bare_variant (e_variants e)) (e_non_exhaustive e) None.
(** [m] is [x] without documentation, default values and checksum.  Whether an enum is an error, and
    whether its fields are sent, is a matter of its use.  The methods of a trait are numbered. *)
Inductive again (items : list metadata) : metadata -> metadata -> Prop :=
| ag_fn f : again items (MFunc f) (MFunc (bare_fn f))
| ag_constructor s f : again items (MConstructor s f) (MConstructor s (bare_fn f))
| ag_method s f : again items (MMethod s f) (MMethod s (bare_fn f))
| ag_trait_method s i f k : again items (MTraitMethod s i f) (MTraitMethod s k (bare_fn f))
| ag_numbered s f k : again items (MMethod s f) (MTraitMethod s k (bare_fn f))
| ag_record r : again items (MRecord r)
    (MRecord (Rec (r_mp r) (r_name r) None (map bare_field (r_fields r)) None))
| ag_enum e : ~ an_error items (e_name e) -> again items (MEnum e) (MEnum (bare_enum ShEnum e))
| ag_flat_error e : an_error items (e_name e) ->
    fieldless e -> e_shape e <> ShError false -> again items (MEnum e) (MEnum (bare_enum (ShError true) e))
| ag_error e : an_error items (e_name e) ->
    ~ fieldless e \/ e_shape e = ShError false -> again items (MEnum e) (MEnum (bare_enum (ShError false) e))
| ag_object o : again items (MObject o) (MObject (Obj (o_mp o) (o_name o) None (o_imp o) None))
| ag_callback mp n doc : again items (MCallback mp n doc) (MCallback mp n None)
| ag_trait u : again items (MUniffiTrait u) (MUniffiTrait u).

Definition parts (v : view metadata) : list metadata :=
  v_item v :: v_constructors v ++ v_methods v ++ v_traits v.
Definition same_parts (items : list metadata) (xs ms : list metadata) : Prop :=
  (forall x, In x xs -> exists m, In m ms /\ again items x m) /\
  (forall m, In m ms -> exists x, In x xs /\ again items x m).

(** ** What is supposed besides *)

(** Built-in traits are on no error and on no trait, and an enum has Debug where it has Display. *)
Definition no_error_traits (items : list metadata) : Prop :=
  forall e u, In (MEnum e) items -> In (MUniffiTrait u) items ->
  written_for (MUniffiTrait u) = defines (MEnum e) -> ~ an_error items (e_name e).
Definition no_trait_traits (items : list metadata) : Prop :=
  forall o u, In (MObject o) items -> In (MUniffiTrait u) items ->
  written_for (MUniffiTrait u) = defines (MObject o) -> o_imp o = IStruct.
Definition debug_and_display (items : list metadata) : Prop :=
  forall e, In (MEnum e) items ->
  ((exists f, In (MUniffiTrait (UTDebug (e_name e) f)) items) <->
   (exists f, In (MUniffiTrait (UTDisplay (e_name e) f)) items)).
Definition plain_traits (items : list metadata) : Prop :=
  no_error_traits items /\ no_trait_traits items /\ debug_and_display items.
(** Only bytes are borrowed mutably. *)
Definition mutable_bytes (items : list metadata) : Prop :=
  forall m f p, In m items -> signature m f -> In p (f_inputs f) -> p_pass p = ByMutRef -> p_ty p = TBytes.
(** Callback interfaces have no asynchronous methods and none that borrow mutably. *)
Definition plain_callbacks (items : list metadata) : Prop :=
  forall s i f, In (MTraitMethod s i f) items ->
  f_async f = false /\ Forall (fun p => p_pass p <> ByMutRef) (f_inputs f).

(** ** The library *)

(** [l] are the functions the items ask for (C63), and no others. *)
Definition exports_exactly (items : list metadata) (l : list str) : Prop :=
  forall s, In s l <-> exists m, exports items m s.

(** ** Tables *)

(** The names of methods. *)
Definition method_names (ms : list metadata) : list str :=
  flat_map (fun m => match m with MMethod _ f | MTraitMethod _ _ f => [f_name f] | _ => [] end) ms.

(** ** Errors that foreign code throws *)

(** Only the name of the variant and a message are sent. *)
Definition sent_flat (items : list metadata) (e : enum_meta) : Prop :=
  an_error items (e_name e) /\ fieldless e /\ e_shape e <> ShError false.
(** A method that foreign code may implement throws it; some function takes it. *)
Definition thrown_to_rust (items : list metadata) (e : enum_meta) : Prop :=
  exists m f d, In m items /\ signature m f /\ f_throws f = Some (TEnum (e_mp e) (e_name e)) /\
  In d items /\ foreign d /\ written_for m = defines d.
Definition passed_to_rust (items : list metadata) (e : enum_meta) : Prop :=
  exists f p, In (MFunc f) items /\ In p (f_inputs f) /\ p_ty p = TEnum (e_mp e) (e_name e).
