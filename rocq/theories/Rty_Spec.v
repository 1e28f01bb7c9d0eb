(** Which types are meant by the types in Rust sources: aliases with their parameters, the types the
    library knows, exported items.  And what metadata says of such types.  No resolution here. *)
From Verif Require Import Base Meta_Types Path_Types Path_Spec Pub_Spec Rty_Types.

Inductive sem :=
| MUnit | MBase (t : ty) | MStr | MSelf | MCallbackError
| MItem (q : rpath)                          (* a record, enum or object *)
| MTrait (q : rpath)                         (* [dyn Trait] *)
| MUdl (q : rpath)
| MCustom (q : rpath) (t : sem)
| MOption (t : sem) | MVec (t : sem) | MArc (t : sem) | MBox (t : sem) | MSlice (t : sem) | MSet (t : sem)
| MMap (k v : sem) | MResult (a e : sem)
| MRef (mutable : bool) (t : sem).

Open Scope string_scope.
(** Types without parameters. *)
Definition simple (x : str) : option sem :=
  assoc [(S_ "()", MUnit); (S_ "bool", MBase TBool); (S_ "u8", MBase TU8); (S_ "i8", MBase TI8);
         (S_ "u16", MBase TU16); (S_ "i16", MBase TI16); (S_ "u32", MBase TU32); (S_ "i32", MBase TI32);
         (S_ "u64", MBase TU64); (S_ "i64", MBase TI64); (S_ "f32", MBase TF32); (S_ "f64", MBase TF64);
         (S_ "String", MBase TString); (S_ "str", MStr); (S_ "SystemTime", MBase TTimestamp);
         (S_ "Duration", MBase TDuration); (S_ "UnexpectedUniFFICallbackError", MCallbackError)] x.
Definition generic1 (x : str) : option (sem -> sem) :=
  assoc [(S_ "Option", MOption); (S_ "Vec", MVec); (S_ "Arc", MArc); (S_ "Box", MBox); (S_ "HashSet", MSet)] x.
Definition generic2 (x : str) : option (sem -> sem -> sem) :=
  assoc [(S_ "HashMap", MMap); (S_ "Result", MResult)] x.
Definition self_name : str := S_ "Self".
Close Scope string_scope.
Definition nominal (it : item) : bool :=
  match i_kind it with KRecord _ | KEnum _ | KObject _ => true | _ => false end.
(** A path that is the name of a parameter. *)
Definition param_of {A} (env : list (str * A)) (p : path) (args : list garg) : option A :=
  match lead p, segs p, args with
  | false, [x], [] => assoc env x
  | _, _, _ => None
  end.
Definition is_self (p : path) (args : list garg) : bool :=
  match lead p, segs p, args with
  | false, [x], [] => bytes_eqb x self_name
  | _, _, _ => false
  end.
(** Types of UDL files that are traits. *)
Definition udl_trait (t : ty) : bool := match t with TObject _ _ (ITrait _) | TCallback _ _ => true | _ => false end.
Fixpoint type_args (l : list garg) : list sty :=
  match l with
  | [] => []
  | GType t :: l => t :: type_args l
  | GOther :: l => type_args l
  end.

Section Denotes.
  Variable w : world.
  (** What paths refer to from a module. *)
  Variable to : rpath -> path -> rpath -> Prop.
  (** [denotes self env t m]: in the module [self], where the parameters [env] stand for types. *)
  Inductive denotes : rpath -> list (str * sem) -> sty -> sem -> Prop :=
  | dn_paren self env t m : denotes self env t m -> denotes self env (SParen t) m
  | dn_ref self env b t m : denotes self env t m -> denotes self env (SRef b t) (MRef b m)
  | dn_slice self env t m : denotes self env t m -> denotes self env (SSlice t) (MSlice m)
  | dn_unit self env : denotes self env SUnit MUnit
  | dn_self self env p : is_self p [] = true -> denotes self env (SPath p []) MSelf
  | dn_param self env p m : is_self p [] = false -> param_of env p [] = Some m -> denotes self env (SPath p []) m
  | dn_item self env p it up : is_self p [] = false -> param_of env p [] = None ->
      to self p (it :: up) -> nominal it = true -> denotes self env (SPath p []) (MItem (it :: up))
  (** Arguments of types from UDL files and of custom types are left to rustc. *)
  | dn_udl self env p args it up : is_self p args = false -> param_of env p args = None ->
      to self p (it :: up) -> i_kind it = KUdl -> denotes self env (SPath p args) (MUdl (it :: up))
  | dn_custom self env p args it up m : is_self p args = false -> param_of env p args = None ->
      to self p (it :: up) -> i_kind it = KCustom -> denotes up [] (w_custom w it) m ->
      denotes self env (SPath p args) (MCustom (it :: up) m)
  | dn_simple self env p x it up m : is_self p [] = false -> param_of env p [] = None ->
      to self p (it :: up) -> i_kind it = KStd (StdType x) -> simple x = Some m -> denotes self env (SPath p []) m
  | dn_generic1 self env p args x it up f t m : is_self p args = false -> param_of env p args = None ->
      to self p (it :: up) -> i_kind it = KStd (StdType x) -> generic1 x = Some f -> type_args args = [t] ->
      denotes self env t m -> denotes self env (SPath p args) (f m)
  | dn_generic2 self env p args x it up f t u m k : is_self p args = false -> param_of env p args = None ->
      to self p (it :: up) -> i_kind it = KStd (StdType x) -> generic2 x = Some f -> type_args args = [t; u] ->
      denotes self env t m -> denotes self env u k -> denotes self env (SPath p args) (f m k)
  | dn_alias self env p args it up env' m : is_self p args = false -> param_of env p args = None ->
      to self p (it :: up) -> i_kind it = KType ->
      given_args self env up [] (a_params (w_alias w it)) (type_args args) env' ->
      denotes up env' (a_ty (w_alias w it)) m -> denotes self env (SPath p args) m
  | dn_dyn self env p it up : to self p (it :: up) -> i_kind it = KTrait -> denotes self env (SDyn [p]) (MTrait (it :: up))
  | dn_dyn_udl self env p it up : to self p (it :: up) -> i_kind it = KUdl -> udl_trait (w_udl w it) = true ->
      denotes self env (SDyn [p]) (MTrait (it :: up))
  (** What the parameters of an alias of the module [up] stand for: arguments, then defaults, which may use
      the parameters before them. *)
  with given_args : rpath -> list (str * sem) -> rpath -> list (str * sem) -> list (str * option sty) -> list sty ->
      list (str * sem) -> Prop :=
  | ga_nil self env up before : given_args self env up before [] [] before
  | ga_arg self env up before x d ps t args m e : denotes self env t m ->
      given_args self env up (before ++ [(x, m)]) ps args e ->
      given_args self env up before ((x, d) :: ps) (t :: args) e
  | ga_default self env up before x t ps m e : denotes up before t m ->
      given_args self env up (before ++ [(x, m)]) ps [] e ->
      given_args self env up before ((x, Some t) :: ps) [] e.
End Denotes.

(** *** What metadata says of a type; [named] says how items are called, [s] is the type of [Self] *)
Section Records.
  Variable w : world.
  Variable named : rpath -> list str -> str -> Prop.
  Variable s : option ty.
  Inductive trait_as : rpath -> export -> list str -> str -> Prop :=
  | ta_source it up l x : i_kind it = KTrait -> named (it :: up) l x -> trait_as (it :: up) (w_trait w it) l x.
  Inductive records : sem -> ty -> Prop :=
  | rc_base t : records (MBase t) t
  | rc_record it up b l x : i_kind it = KRecord b -> named (it :: up) l x ->
      records (MItem (it :: up)) (TRecord (text l) x)
  | rc_enum it up b l x : i_kind it = KEnum b -> named (it :: up) l x ->
      records (MItem (it :: up)) (TEnum (text l) x)
  | rc_object it up b l x : i_kind it = KObject b -> named (it :: up) l x ->
      records (MItem (it :: up)) (TObject (text l) x IStruct)
  | rc_arc_object it up b l x : i_kind it = KObject b -> named (it :: up) l x ->
      records (MArc (MItem (it :: up))) (TObject (text l) x IStruct)
  | rc_arc_trait q k l x : trait_as q (ETrait k) l x -> records (MArc (MTrait q)) (TObject (text l) x (ITrait k))
  | rc_box_callback q l x : trait_as q ECallback l x -> records (MBox (MTrait q)) (TCallback (text l) x)
  | rc_arc_udl_trait it up mp x k : i_kind it = KUdl -> w_udl w it = TObject mp x (ITrait k) ->
      records (MArc (MTrait (it :: up))) (TObject mp x (ITrait k))
  | rc_box_udl_callback it up mp x : i_kind it = KUdl -> w_udl w it = TCallback mp x ->
      records (MBox (MTrait (it :: up))) (TCallback mp x)
  | rc_box_udl it up mp x : w_udl w it = TCallback mp x -> records (MBox (MUdl (it :: up))) (TCallback mp x)
  | rc_udl it up : records (MUdl (it :: up)) (w_udl w it)
  | rc_arc_udl it up : records (MArc (MUdl (it :: up))) (w_udl w it)
  | rc_self t : s = Some t -> records MSelf t
  | rc_arc_self t : s = Some t -> records (MArc MSelf) t
  | rc_option m t : records m t -> records (MOption m) (TOption t)
  | rc_bytes : records (MVec (MBase TU8)) TBytes
  | rc_vec m t : records m t -> m <> MBase TU8 -> records (MVec m) (TSeq t)
  | rc_set m t : records m t -> records (MSet m) (TSet t)
  | rc_map m t m' t' : records m t -> records m' t' -> records (MMap m m') (TMap t t')
  | rc_box m t : records m t -> (forall it up mp x, m = MUdl (it :: up) -> w_udl w it <> TCallback mp x) ->
      records (MBox m) (TBox t)
  | rc_custom q l x m t : named q l x -> records m t -> records (MCustom q m) (TCustom (text l) x t).
  (** Arguments: by value, by reference, or a mutable reference to bytes. *)
  Inductive pass_by := ByValue | ByRef | ByMutRef.
  Inductive as_arg : sem -> ty -> pass_by -> Prop :=
  | aa_value m t : records m t -> as_arg m t ByValue
  | aa_str b : as_arg (MRef b MStr) TString ByRef
  | aa_dyn b q e l x t : trait_as q e l x ->
      t = match e with ETrait k => TObject (text l) x (ITrait k) | ECallback => TCallback (text l) x end ->
      as_arg (MRef b (MTrait q)) t ByRef
  | aa_dyn_udl b it up : i_kind it = KUdl -> as_arg (MRef b (MTrait (it :: up))) (w_udl w it) ByRef
  | aa_slice b m t : records (MVec m) t -> b = false \/ t <> TBytes -> as_arg (MRef b (MSlice m)) t ByRef
  | aa_bytes : as_arg (MRef true (MSlice (MBase TU8))) TBytes ByMutRef
  | aa_ref b m t : records m t -> as_arg (MRef b m) t ByRef.
  (** Results: nothing, a value, or one of the two with an error. *)
  Inductive as_result : sem -> option ty -> option ty -> Prop :=
  | ar_unit : as_result MUnit None None
  | ar_value m t : records m t -> as_result m (Some t) None
  | ar_error e te : records e te -> as_result (MResult MUnit e) None (Some te)
  | ar_either m t e te : records m t -> records e te -> as_result (MResult m e) (Some t) (Some te).
End Records.
