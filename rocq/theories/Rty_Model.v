(** Resolving the types of signatures: uniffi_parse_rs/src/types.rs. *)
From Verif Require Import Base Meta_Types Path_Types Path_Spec Path_Model Pub_Spec Pub_Model Rty_Types Rty_Spec.

(** l.38-98 [Type]. *)
Inductive named_kind := NRecord | NEnum | NObject.
Inductive rty :=
| RUnit | RBase (t : ty) | RStr | RSelf | RCallbackError
| RNamed (k : named_kind) (m : list str) (x : str)
| RTrait (m : str) (x : str) (e : export)
| RUdl (t : ty)
| RCustom (m : list str) (x : str) (t : rty)
| ROption (t : rty) | RVec (t : rty) | RArc (t : rty) | RBox (t : rty) | RSlice (t : rty) | RSet (t : rty)
| RMap (k v : rty) | RResult (a e : rty)
| RRef (mutable : bool) (t : rty).

Open Scope string_scope.
(** l.437-483: what is known, by its number of arguments. *)
Definition known0 (x : str) : option rty :=
  assoc [(S_ "()", RUnit); (S_ "bool", RBase TBool); (S_ "String", RBase TString); (S_ "str", RStr);
         (S_ "u8", RBase TU8); (S_ "i8", RBase TI8);
         (S_ "u16", RBase TU16); (S_ "i16", RBase TI16); (S_ "u32", RBase TU32); (S_ "i32", RBase TI32);
         (S_ "u64", RBase TU64); (S_ "i64", RBase TI64); (S_ "f32", RBase TF32); (S_ "f64", RBase TF64);
         (S_ "SystemTime", RBase TTimestamp);
         (S_ "Duration", RBase TDuration); (S_ "UnexpectedUniFFICallbackError", RCallbackError)] x.
Definition known1 (x : str) : option (rty -> rty) :=
  assoc [(S_ "Option", ROption); (S_ "Vec", RVec); (S_ "Arc", RArc); (S_ "Box", RBox); (S_ "HashSet", RSet)] x.
Definition known2 (x : str) : option (rty -> rty -> rty) :=
  assoc [(S_ "HashMap", RMap); (S_ "Result", RResult)] x.
Close Scope string_scope.

Section Resolve.
  Variable w : world.
  Variable d b : nat.
  Let r := w_ir w.
  Definition find_path (self : rpath) (p : path) : M pcache rpath :=
    fun c => match lookup r d self p NsType (p_cache c) with
             | None => None
             | Some (o, c') => Some (o, PCache c' (p_known c))
             end.
  (** [Found None] is the error that there is no public path. *)
  Definition named_at (k : named_kind) (q : rpath) : M pcache rty :=
    bind (public r d b q) (fun o => match o with Some nm => ret (RNamed k (n_module nm) (n_name nm)) | None => fail Invalid end).
  Definition no_args {A} (args : list garg) (x : M pcache A) : M pcache A :=
    match args with [] => x | _ => fail Invalid end.
  Section With.
    Variable again : rpath -> sty -> list (list str) -> list (str * rty) -> M pcache rty.
    (** l.671-705 [GenericArgs::resolve_arg]. *)
    Definition garg_type (self : rpath) (env : list (str * rty)) (g : garg) : M pcache rty :=
      match g with
      | GType t =>
          match t with
          | SPath p args => match param_of env p args with Some x => ret x | None => again self t [] [] end
          | _ => again self t [] []
          end
      | GOther => fail Invalid
      end.
    (** l.618-669 [resolve_generic_params]: the loop. *)
    Fixpoint params (self : rpath) (env : list (str * rty)) (up : rpath) (ps : list (str * option sty)) (args : list garg)
      : M pcache (list (str * rty)) :=
      match ps with
      | [] => ret []
      | (x, dflt) :: ps =>
          match args with
          | g :: args =>
              bind (garg_type self env g) (fun t => bind (params self env up ps args) (fun l => ret ((x, t) :: l)))
          | [] =>
              match dflt with
              | Some t => bind (again up t [] []) (fun t => bind (params self env up ps []) (fun l => ret ((x, t) :: l)))
              | None => fail Invalid
              end
          end
      end.
    (** l.433-484. *)
    Definition known_type (self : rpath) (env : list (str * rty)) (s : std_item) (args : list garg) : M pcache rty :=
      match s with
      | StdType x =>
          match known1 x, known2 x, known0 x with
          | Some f, _, _ =>
              match args with [g] => bind (garg_type self env g) (fun t => ret (f t)) | _ => fail Invalid end
          | None, Some f, _ =>
              match args with
              | [g; h] => bind (garg_type self env g) (fun t => bind (garg_type self env h) (fun u => ret (f t u)))
              | _ => fail Invalid
              end
          | None, None, Some t => no_args args (ret t)
          | None, None, None => fail Invalid
          end
      | StdMacro _ => fail Invalid
      end.
    (** l.387-503: a path that refers to [it :: up]. *)
    Definition item_type (self : rpath) (seen : list (list str)) (env : list (str * rty)) (it : item) (up : rpath)
      (args : list garg) : M pcache rty :=
      match i_kind it with
      | KRecord _ => no_args args (named_at NRecord (it :: up))
      | KEnum _ => no_args args (named_at NEnum (it :: up))
      | KObject _ => no_args args (named_at NObject (it :: up))
      | KType =>
          if existsb (strs_eqb (path_of (it :: up))) seen then fail Cycle
          else match up with
          | [] => fail Invalid
          | _ =>
              if (length (a_params (w_alias w it)) <? length args)%nat then fail Invalid
              else bind (params self env up (a_params (w_alias w it)) args) (fun env' =>
                     again up (a_ty (w_alias w it)) (path_of (it :: up) :: seen) env')
          end
      | KStd s => known_type self env s args
      | KCustom =>
          match up with
          | [] => fail Invalid
          | _ => bind (again up (w_custom w it) seen []) (fun t => ret (RCustom (path_of up) (item_name it) t))
          end
      | KUdl => ret (RUdl (w_udl w it))
      | _ => fail Invalid
      end.
    (** l.505-557. *)
    Definition dyn_type (self : rpath) (it : item) : M pcache rty :=
      match i_kind it with
      | KTrait => ret (RTrait (text (path_of self)) (item_name it) (w_trait w it))
      | KUdl =>
          match w_udl w it with
          | TObject mp x (ITrait k) => ret (RTrait mp x (ETrait k))
          | TCallback mp x => ret (RTrait mp x ECallback)
          | _ => fail Invalid
          end
      | _ => fail Invalid
      end.
    (** l.347-558 [_resolve_type]. *)
    Definition one_type (self : rpath) (t : sty) (seen : list (list str)) (env : list (str * rty)) : M pcache rty :=
      match t with
      | SParen t => again self t seen env
      | SRef m t => bind (again self t seen env) (fun t => ret (RRef m t))
      | SSlice t => bind (again self t seen env) (fun t => ret (RSlice t))
      | SUnit => ret RUnit
      | SPath p args =>
          if is_self p args then ret RSelf
          else bind (find_path self p) (fun q =>
                 match q with
                 | it :: up => item_type self seen env it up args
                 | [] => fail Invalid
                 end)
      | SDyn [p] =>
          bind (find_path self p) (fun q => match q with it :: _ => dyn_type self it | [] => fail Invalid end)
      | SDyn _ => fail Invalid
      | SOther => fail Invalid
      end.
  End With.
  (** With at most [f] resolutions inside each other. *)
  Fixpoint rtype (f : nat) (self : rpath) (t : sty) (seen : list (list str)) (env : list (str * rty)) : M pcache rty :=
    match f with
    | O => fun _ => None
    | S f => one_type (rtype f) self t seen env
    end.
End Resolve.

(** l.106-199 [try_into_uniffi_meta]. *)
Fixpoint to_meta (s : option ty) (t : rty) : option ty :=
  match t with
  | RBase t => Some t
  | RNamed NRecord m x => Some (TRecord (text m) x)
  | RNamed NEnum m x => Some (TEnum (text m) x)
  | RNamed NObject m x => Some (TObject (text m) x IStruct)
  | ROption t => option_map TOption (to_meta s t)
  | RVec (RBase TU8) => Some TBytes
  | RVec t => option_map TSeq (to_meta s t)
  | RMap k v => match to_meta s k, to_meta s v with Some k, Some v => Some (TMap k v) | _, _ => None end
  | RSet t => option_map TSet (to_meta s t)
  | RArc t =>
      match t with
      | RNamed NObject m x => Some (TObject (text m) x IStruct)
      | RTrait m x (ETrait k) => Some (TObject m x (ITrait k))
      | RSelf => s
      | RUdl t => Some t
      | _ => None
      end
  | RBox t =>
      match t with
      | RTrait m x ECallback => Some (TCallback m x)
      | RUdl (TCallback m x) => Some (TCallback m x)
      | t => option_map TBox (to_meta s t)
      end
  | RCustom m x t => option_map (TCustom (text m) x) (to_meta s t)
  | RSelf => s
  | RUdl t => Some t
  | RUnit | RStr | RCallbackError | RTrait _ _ _ | RSlice _ | RResult _ _ | RRef _ _ => None
  end.
(** l.201-216 [trait_to_uniffi_meta]. *)
Definition trait_meta (m x : str) (e : export) : ty :=
  match e with ETrait k => TObject m x (ITrait k) | ECallback => TCallback m x end.
(** l.242-296 [resolve_arg], after the type is resolved. *)
Definition arg_meta (s : option ty) (t : rty) : option (ty * pass_by) :=
  match t with
  | RRef mutable t =>
      match t with
      | RStr => Some (TString, ByRef)
      | RTrait m x e => Some (trait_meta m x e, ByRef)
      | RSlice t =>
          option_map (fun t => (t, if mutable && match t with TBytes => true | _ => false end then ByMutRef else ByRef))
            (to_meta s (RVec t))
      | t => option_map (fun t => (t, ByRef)) (to_meta s t)
      end
  | t => option_map (fun t => (t, ByValue)) (to_meta s t)
  end.
(** l.298-328 [resolve_return_type]. *)
Definition result_meta (s : option ty) (t : rty) : option (option ty * option ty) :=
  match t with
  | RUnit => Some (None, None)
  | RResult a e =>
      match a, to_meta s e with
      | RUnit, Some e => Some (None, Some e)
      | a, Some e => option_map (fun t => (Some t, Some e)) (to_meta s a)
      | _, None => None
      end
  | RRef _ _ => None
  | t => option_map (fun t => (Some t, None)) (to_meta s t)
  end.
(** l.330-345 [resolve_self_type]: whether [self] is taken by [Arc]. *)
Definition self_meta (t : rty) : option bool :=
  match t with
  | RRef false RSelf => Some false
  | RArc RSelf => Some true
  | _ => None
  end.
