(** The C types of the functions a Rust library exports, as the macros write them and as the
    generators declare them. *)
From Verif Require Import Base Meta_Types Names_Model Sig_Spec.

(** * Rust types

    Types as they are written in an exported signature.  [RAlias t] is any other way of writing [t],
    such as a type alias or a longer path: the compiler sees [t], a macro does not.  [RForeignBytes]
    and [RForeignBytesMut] are written by the macros. *)
Inductive prim := PU8 | PI8 | PU16 | PI16 | PU32 | PI32 | PU64 | PI64 | PF32 | PF64 | PBool.
Inductive rty :=
| RPrim (p : prim) | RString | RStr | RTime | RDur
| RVec (t : rty) | RSlice (t : rty) | ROption (t : rty) | RSet (t : rty) | RMap (k v : rty)
| RBox (t : rty) | RArc (t : rty)
| RRecord (mp n : str) | REnum (mp n : str) | RObject (mp n : str)
| RDynTrait (mp n : str) (k : trait_kind) | RDynCallback (mp n : str)
| RCustom (mp n : str) (t : rty)
| RUnit | RResult (t e : rty)
| RForeignBytes | RForeignBytesMut
| RAlias (t : rty).
Fixpoint head (t : rty) : rty := match t with RAlias t => head t | t => t end.

(** The structures of uniffi_core: rustbuffer.rs l.51-62, foreignbytes.rs l.25-34 (the two kinds have
    the same fields), rustcalls.rs l.42-53 (the code is [repr(i8)]), foreignfuture.rs l.37-45;
    [Handle] is a transparent [u64] (handle.rs l.21-22). *)
Definition rs_buffer := CStruct [cu64; cu64; CData].
Definition rs_foreign_bytes := CStruct [ci32; CData].
Definition rs_status := CStruct [ci8; rs_buffer].
Definition rs_dropped := CStruct [cu64; CFn [cu64] None].

(** uniffi_core/src/ffi_converter_impls.rs l.40-105: numbers are themselves, [bool] is an [i8]. *)
Definition prim_c (p : prim) : cty :=
  match p with
  | PU8 => cu8 | PI8 => ci8 | PU16 => cu16 | PI16 => ci16 | PU32 => cu32 | PI32 => ci32
  | PU64 => cu64 | PI64 => ci64 | PF32 => CFloat | PF64 => CDouble | PBool => ci8
  end.

(** [Lift::FfiType]; [None] where there is no such implementation and the program does not compile.
    ffi_converter_impls.rs l.108-480 (strings, times, [Option], [Box], [Vec], maps, sets),
    foreignbytes.rs l.80-110 and l.190-215, macros object.rs l.170-195 ([Arc<Self>]),
    export/trait_interface.rs l.230-260 ([Arc<dyn Trait>]), export/callback_interface.rs l.168-171
    ([Box<dyn Trait>]), custom.rs l.230-260 (the builtin's), records, enums and errors: [RustBuffer].
    Simplification: [Lower::FfiType] is the same, and is only missing for the borrowed bytes (see
    [lowers]); other missing implementations would only refuse more programs. *)
Fixpoint lift (t : rty) : option cty :=
  match t with
  | RPrim p => Some (prim_c p)
  | RString | RTime | RDur | RRecord _ _ | REnum _ _ => Some rs_buffer
  | RVec t | ROption t | RSet t => match lift t with Some _ => Some rs_buffer | None => None end
  | RMap k v =>
      match lift k, lift v with Some _, Some _ => Some rs_buffer | _, _ => None end
  | RBox t => match head t with RDynCallback _ _ => Some cu64 | _ => lift t end
  | RArc t =>
      match head t with RObject _ _ | RDynTrait _ _ _ => Some cu64 | _ => None end
  | RCustom _ _ t => lift t
  | RForeignBytes | RForeignBytesMut => Some rs_foreign_bytes
  | RAlias t => lift t
  | RStr | RSlice _ | RObject _ _ | RDynTrait _ _ _ | RDynCallback _ _ | RUnit | RResult _ _ => None
  end.
Definition lowers (t : rty) : bool :=
  match head t with RForeignBytes | RForeignBytesMut => false | _ => true end.

(** [LowerReturn::ReturnType] and [LiftReturn::ReturnType]: ffi_converter_impls.rs l.540-640 (unit and
    [Result]), object.rs l.225-245 (an object by value).  The inner option is [None] for unit. *)
Fixpoint lower_return (t : rty) : option (option cty) :=
  match t with
  | RUnit => Some None
  | RResult t _ => lower_return t
  | RObject _ _ => Some (Some cu64)
  | RAlias t => lower_return t
  | t => option_map Some (lift t)
  end.
Fixpoint lift_return (t : rty) : option (option cty) :=
  match t with
  | RUnit => Some None
  | RResult t _ => lift_return t
  | RAlias t => lift_return t
  | t => option_map Some (lift t)
  end.

(** [LiftRef::LiftType]: ffi_converter_impls.rs l.640-660 (slices and [str]), object.rs l.247,
    trait_interface.rs l.276; any other liftable type is its own. *)
Definition lift_ref (t : rty) : rty :=
  match head t with
  | RSlice u => RVec u
  | RStr => RString
  | RObject mp n => RArc (RObject mp n)
  | RDynTrait mp n k => RArc (RDynTrait mp n k)
  | _ => t
  end.

(** [TypeId::TYPE_ID_META] as read back by uniffi_meta/src/reader.rs l.165-230: a vector of [u8]s is
    read as bytes (l.196-204). *)
Definition prim_ty (p : prim) : ty :=
  match p with
  | PU8 => TU8 | PI8 => TI8 | PU16 => TU16 | PI16 => TI16 | PU32 => TU32 | PI32 => TI32
  | PU64 => TU64 | PI64 => TI64 | PF32 => TF32 | PF64 => TF64 | PBool => TBool
  end.
Definition vec_ty (t : ty) : ty := match t with TU8 => TBytes | t => TSeq t end.
Fixpoint type_id (t : rty) : option ty :=
  match t with
  | RPrim p => Some (prim_ty p)
  | RString | RStr => Some TString
  | RTime => Some TTimestamp
  | RDur => Some TDuration
  | RVec t | RSlice t => option_map vec_ty (type_id t)
  | ROption t => option_map TOption (type_id t)
  | RSet t => option_map TSet (type_id t)
  | RMap k v =>
      match type_id k, type_id v with Some a, Some b => Some (TMap a b) | _, _ => None end
  | RBox t => match head t with RDynCallback mp n => Some (TCallback mp n) | _ => option_map TBox (type_id t) end
  | RArc t => type_id t
  | RRecord mp n => Some (TRecord mp n)
  | REnum mp n => Some (TEnum mp n)
  | RObject mp n => Some (TObject mp n IStruct)
  | RDynTrait mp n k => Some (TObject mp n (ITrait k))
  | RDynCallback mp n => Some (TCallback mp n)
  | RCustom mp n t => option_map (TCustom mp n) (type_id t)
  | RForeignBytes | RForeignBytesMut => Some TBytes
  | RAlias t => type_id t
  | RUnit | RResult _ _ => None
  end.
(** uniffi_meta/src/reader.rs l.232-262 [read_return_type]; the errors are left out. *)
Definition return_id (t : rty) : option (option ty) :=
  match head t with
  | RUnit => Some None
  | RResult u _ => match head u with RUnit => Some None | _ => option_map Some (type_id u) end
  | _ => option_map Some (type_id t)
  end.

(** * The macros

    An exported function, method of [self] or constructor of [self].  Each argument is written with
    no reference, [&] or [&mut]. *)
Inductive reference := Owned | Shared | Mutable.
Record rarg := RArg { ra_name : str; ra_ref : reference; ra_ty : rty }.
Inductive rkind := KFunction | KMethod (self : rty) | KConstructor (self : rty).
Record rsig := RSig { s_kind : rkind; s_async : bool; s_args : list rarg; s_ret : rty }.

(** uniffi_macros/src/fnsig.rs l.24-31 [is_u8_slice]: by its look. *)
Definition is_u8_slice (t : rty) : bool :=
  match t with RSlice (RPrim PU8) => true | _ => false end.
(** fnsig.rs l.527-562 [NamedArg::new].  A [&mut] to anything else gives a call that does not compile
    (l.228-236 passes a shared reference). *)
Definition named_arg (a : rarg) : option (rty * pass_by) :=
  match ra_ref a with
  | Mutable => if is_u8_slice (ra_ty a) then Some (RForeignBytesMut, ByMutRef) else None
  | Shared => if is_u8_slice (ra_ty a) then Some (RForeignBytes, ByRef) else Some (lift_ref (ra_ty a), ByRef)
  | Owned => Some (ra_ty a, ByValue)
  end.
Fixpoint mapM {A B} (f : A -> option B) (l : list A) : option (list B) :=
  match l with
  | [] => Some []
  | x :: l =>
      match f x, mapM f l with Some y, Some ys => Some (y :: ys) | _, _ => None end
  end.
(** fnsig.rs l.281-300 [scaffolding_param_types]. *)
Definition param_c (a : rarg) : option cty :=
  match named_arg a with Some (t, _) => lift t | None => None end.
(** fnsig.rs l.150-158: no [&mut [u8]] in an async function. *)
Definition async_ok (s : rsig) : bool :=
  negb (s_async s && existsb (fun a => match ra_ref a with Mutable => true | _ => false end) (s_args s)).
(** export/scaffolding.rs l.100-140 [new_for_method]: the receiver comes first. *)
Definition receiver_c (k : rkind) : option (list cty) :=
  match k with
  | KMethod self => option_map (fun c => [c]) (lift (lift_ref self))
  | _ => Some []
  end.
(** export/scaffolding.rs l.213-318 [gen_ffi_function]. *)
Definition macro_fn (s : rsig) : option cty :=
  match receiver_c (s_kind s), mapM param_c (s_args s), lower_return (s_ret s), async_ok s with
  | Some rc, Some ps, Some r, true =>
      Some (if s_async s then CFn (rc ++ ps) (Some cu64)
            else CFn (rc ++ ps ++ [CPtr rs_status]) r)
  | _, _, _, _ => None
  end.

(** What the library says about it: fnsig.rs l.571-586 [arg_metadata] and l.300-430, read back by
    reader.rs l.232-320 and l.500-540.  A constructor must return an object of its own name, or the
    reader stops (l.264-298). *)
Inductive ckind := CFunction | CMethod (self : ty) | CConstructor.
Record csig := CSig { c_kind : ckind; c_async : bool; c_inputs : list param; c_ret : option ty }.
Definition arg_meta (a : rarg) : option param :=
  match named_arg a with
  | Some (t, pb) => option_map (fun ty => Param (ra_name a) ty pb None) (type_id t)
  | None => None
  end.
Definition kind_meta (k : rkind) (r : option ty) : option ckind :=
  match k with
  | KFunction => Some CFunction
  | KMethod self => option_map CMethod (type_id self)
  | KConstructor self =>
      match type_id self, r with
      | Some (TObject _ n _), Some (TObject _ n' IStruct) => if bytes_eqb n n' then Some CConstructor else None
      | _, _ => None
      end
  end.
Definition macro_meta (s : rsig) : option csig :=
  match mapM arg_meta (s_args s), return_id (s_ret s) with
  | Some ps, Some r =>
      match kind_meta (s_kind s) r with
      | Some k => Some (CSig k (s_async s) ps r)
      | None => None
      end
  | _, _ => None
  end.

(** A trait foreign code can implement: uniffi_macros/src/export/callback_interface.rs l.59-84 (a
    slot) and l.98-103 (the table).  The methods take their arguments by value: the generated
    implementation (l.200-270) does, so with a reference it is not an implementation of the trait;
    and every argument must have a [lower].  A result of type [()] has no size. *)
Definition out_pointer (r : option cty) : cty :=
  match r with Some c => CPtr c | None => CData end.
Definition future_result (r : option cty) : cty :=
  CStruct (match r with Some c => [c; rs_status] | None => [rs_status] end).
Definition slot_c (is_async : bool) (ps : list cty) (r : option cty) : cty :=
  if is_async
  then CFn (cu64 :: ps ++ [CFn [cu64; future_result r] None; cu64; CPtr rs_dropped]) None
  else CFn (cu64 :: ps ++ [out_pointer r; CPtr rs_status]) None.
Definition lowerable (a : rarg) : bool :=
  match named_arg a with Some (t, _) => lowers t | None => false end.
Definition macro_slot (s : rsig) : option cty :=
  match mapM param_c (s_args s), lift_return (s_ret s), async_ok s && forallb lowerable (s_args s) with
  | Some ps, Some r, true => Some (slot_c (s_async s) ps r)
  | _, _, _ => None
  end.
Definition owned (a : rarg) : bool := match ra_ref a with Owned => true | _ => false end.
Definition macro_table (ss : list rsig) : option cty :=
  option_map (fun slots => CStruct (CFn [cu64] None :: CFn [cu64] (Some cu64) :: slots)) (mapM macro_slot ss).
Definition macro_trait (ss : list rsig) : option cty :=
  if forallb (fun s => forallb owned (s_args s)) ss then macro_table ss else None.
(** callback_interface.rs l.107-111: the function that registers the table. *)
Definition macro_init (table : cty) : cty := CFn [CPtr table] None.

(** object.rs l.97-145 and export/trait_interface.rs l.60-100: cloning and freeing a handle. *)
Definition macro_clone : cty := CFn [cu64; CPtr rs_status] (Some cu64).
Definition macro_free : cty := CFn [cu64; CPtr rs_status] None.
(** util.rs l.170-200: the functions returning a checksum. *)
Definition macro_checksum : cty := CFn [] (Some cu16).
(** setup_scaffolding.rs l.44-106 and l.153-208. *)
Definition fut_c (r : fut_ret) : option cty :=
  match r with
  | RU8 => Some cu8 | RI8 => Some ci8 | RU16 => Some cu16 | RI16 => Some ci16 | RU32 => Some cu32
  | RI32 => Some ci32 | RU64 => Some cu64 | RI64 => Some ci64 | RF32 => Some CFloat | RF64 => Some CDouble
  | RBuf => Some rs_buffer | RVoid => None
  end.
Definition macro_builtin (b : builtin) : cty :=
  match b with
  | BVersion => CFn [] (Some cu32)
  | BAlloc => CFn [cu64; CPtr rs_status] (Some rs_buffer)
  | BFromBytes => CFn [rs_foreign_bytes; CPtr rs_status] (Some rs_buffer)
  | BFree => CFn [rs_buffer; CPtr rs_status] None
  | BReserve => CFn [rs_buffer; cu64; CPtr rs_status] (Some rs_buffer)
  | BFuture FPoll _ => CFn [cu64; CFn [cu64; ci8] None; cu64] None
  | BFuture FCancel _ => CFn [cu64] None
  | BFuture FComplete r => CFn [cu64; CPtr rs_status] (fut_c r)
  | BFuture FFree _ => CFn [cu64] None
  end.

(** * UDL

    What a UDL file says of a callable, and the Rust the scaffolding template writes for it.
    uniffi_bindgen/src/scaffolding/mod.rs l.52-107 [type_rs_inner], l.33-50 [arg_rs];
    templates/TopLevelFunctionTemplate.rs and ObjectTemplate.rs.  [E] stands for the error's type. *)
Fixpoint udl_type (t : ty) : rty :=
  match t with
  | TU8 => RPrim PU8 | TI8 => RPrim PI8 | TU16 => RPrim PU16 | TI16 => RPrim PI16 | TU32 => RPrim PU32
  | TI32 => RPrim PI32 | TU64 => RPrim PU64 | TI64 => RPrim PI64 | TF32 => RPrim PF32 | TF64 => RPrim PF64
  | TBool => RPrim PBool | TString => RString | TBytes => RVec (RPrim PU8) | TTimestamp => RTime
  | TDuration => RDur
  | TObject mp n IStruct => RArc (RObject mp n)
  | TObject mp n (ITrait k) => RArc (RDynTrait mp n k)
  | TRecord mp n => RRecord mp n | TEnum mp n => REnum mp n
  | TCallback mp n => RBox (RDynCallback mp n)
  | TBox t => RBox (udl_type t)
  | TOption t => ROption (udl_type t) | TSeq t => RVec (udl_type t) | TSet t => RSet (udl_type t)
  | TMap k v => RMap (udl_type k) (udl_type v)
  | TCustom mp n t => RCustom mp n (udl_type t)
  end.
Definition is_bytes (t : ty) : bool := match t with TBytes => true | _ => false end.
Definition udl_arg (p : param) : rarg :=
  match p_pass p with
  | ByMutRef => if is_bytes (p_ty p) then RArg (p_name p) Mutable (RSlice (RPrim PU8))
                else RArg (p_name p) Shared (udl_type (p_ty p))
  | ByRef => if is_bytes (p_ty p) then RArg (p_name p) Shared (RSlice (RPrim PU8))
             else RArg (p_name p) Shared (udl_type (p_ty p))
  | ByValue => RArg (p_name p) Owned (udl_type (p_ty p))
  end.
Definition udl_return (r : option ty) (throws : option ty) : rty :=
  let ok := match r with Some t => udl_type t | None => RUnit end in
  match throws with Some e => RResult ok (udl_type e) | None => ok end.
(** The receiver of a method: an object, a trait, a record or an enum. *)
Definition udl_self (t : ty) : rty :=
  match t with
  | TObject mp n IStruct => RObject mp n
  | TObject mp n (ITrait k) => RDynTrait mp n k
  | t => udl_type t
  end.
Definition udl_kind (k : ckind) (r : option ty) : rkind :=
  match k with
  | CFunction => KFunction
  | CMethod self => KMethod (udl_self self)
  | CConstructor => KConstructor (match r with Some t => udl_self t | None => RUnit end)
  end.
Definition udl_sig (c : csig) (throws : option ty) : rsig :=
  RSig (udl_kind (c_kind c) (c_ret c)) (c_async c) (map udl_arg (c_inputs c)) (udl_return (c_ret c) throws).
(** templates/CallbackInterfaceTemplate.rs: never [async], and a plain [&] before whatever is
    borrowed. *)
Definition udl_callback_arg (p : param) : rarg :=
  RArg (p_name p) (match p_pass p with ByValue => Owned | _ => Shared end) (udl_type (p_ty p)).
Definition udl_callback_sig (c : csig) (throws : option ty) : rsig :=
  RSig (udl_kind (c_kind c) (c_ret c)) false (map udl_callback_arg (c_inputs c)) (udl_return (c_ret c) throws).

(** * The generators

    uniffi_bindgen/src/interface/ffi.rs l.24-61 [FfiType] and pipeline/general/nodes.rs [FfiType].
    Simplifications: callbacks and structures are given by their definitions instead of their names;
    which crate's or which object's a buffer or handle is, is left out. *)
Inductive fty :=
| FU8 | FI8 | FU16 | FI16 | FU32 | FI32 | FU64 | FI64 | FF32 | FF64
| FBuffer | FForeignBytes | FHandle | FStatus | FVoidPointer
| FRef (t : fty) | FMutRef (t : fty)
| FCallback (args : list fty) (ret : option fty) (status : bool)
| FStruct (fields : list fty).
Record ffn := FFn { ff_args : list fty; ff_ret : option fty; ff_status : bool }.

(** interface/ffi.rs l.100-158 [FfiType::from]. *)
Fixpoint ci_type (t : ty) : fty :=
  match t with
  | TU8 => FU8 | TI8 => FI8 | TU16 => FU16 | TI16 => FI16 | TU32 => FU32 | TI32 => FI32
  | TU64 => FU64 | TI64 => FI64 | TF32 => FF32 | TF64 => FF64
  | TBool => FI8
  | TString | TBytes | TTimestamp | TDuration | TOption _ | TSeq _ | TSet _ | TMap _ _
  | TRecord _ _ | TEnum _ _ => FBuffer
  | TObject _ _ _ => FHandle
  | TCallback _ _ => FU64
  | TCustom _ _ t => ci_type t
  | TBox t => ci_type t
  end.
(** interface/function.rs l.205-250: [is_borrowed_bytes] and the conversion of an argument. *)
Definition borrowed_bytes (p : param) : bool :=
  is_bytes (p_ty p) && match p_pass p with ByValue => false | _ => true end.
Definition ci_arg (p : param) : fty := if borrowed_bytes p then FForeignBytes else ci_type (p_ty p).
(** ffi.rs l.267-296 [FfiFunction::init]; function.rs l.165-175, object.rs l.444-448 (a constructor),
    l.542-558 and l.596-610 (the receiver of a method). *)
Definition ci_fn (c : csig) : ffn :=
  let args := match c_kind c with CMethod self => [ci_type self] | _ => [] end ++ map ci_arg (c_inputs c) in
  let ret := match c_kind c with CConstructor => Some FHandle | _ => option_map ci_type (c_ret c) end in
  if c_async c then FFn args (Some FHandle) false else FFn args ret true.
(** interface/callbacks.rs l.155-230 and l.233-262, interface/mod.rs l.700-745 (the definitions the
    names stand for).  Excluded methods are gone from the list: interface/exclude.rs l.20-34. *)
Definition ci_dropped : fty := FStruct [FU64; FCallback [FU64] None false].
Definition ci_result (r : option fty) : fty :=
  FStruct (match r with Some t => [t; FStatus] | None => [FStatus] end).
Definition ci_complete (r : option fty) : fty := FCallback [FU64; ci_result r] None false.
Definition ci_slot (c : csig) : fty :=
  let r := option_map ci_type (c_ret c) in
  if c_async c
  then FCallback (FU64 :: map ci_arg (c_inputs c) ++ [ci_complete r; FU64; FMutRef ci_dropped]) None false
  else FCallback (FU64 :: map ci_arg (c_inputs c) ++
                  [match r with Some t => FMutRef t | None => FVoidPointer end]) None true.
Definition ci_table (excluded : str -> bool) (ms : list (str * csig)) : fty :=
  FStruct (FCallback [FU64] None false :: FCallback [FU64] (Some FU64) false ::
           map (fun m => ci_slot (snd m)) (filter (fun m => negb (excluded (fst m))) ms)).
(** ffi.rs l.225-236 [callback_init]; object.rs l.238-258. *)
Definition ci_init (table : fty) : ffn := FFn [FRef table] None false.
Definition ci_clone : ffn := FFn [FHandle] (Some FHandle) true.
Definition ci_free : ffn := FFn [FHandle] None true.
(** interface/mod.rs l.850-880 and l.483-640, l.760-800. *)
Definition ci_checksum : ffn := FFn [] (Some FU16) false.
Definition fut_fty (r : fut_ret) : option fty :=
  match r with
  | RU8 => Some FU8 | RI8 => Some FI8 | RU16 => Some FU16 | RI16 => Some FI16 | RU32 => Some FU32
  | RI32 => Some FI32 | RU64 => Some FU64 | RI64 => Some FI64 | RF32 => Some FF32 | RF64 => Some FF64
  | RBuf => Some FBuffer | RVoid => None
  end.
Definition ci_builtin (b : builtin) : ffn :=
  match b with
  | BVersion => FFn [] (Some FU32) false
  | BAlloc => FFn [FU64] (Some FBuffer) true
  | BFromBytes => FFn [FForeignBytes] (Some FBuffer) true
  | BFree => FFn [FBuffer] None true
  | BReserve => FFn [FBuffer; FU64] (Some FBuffer) true
  | BFuture FPoll _ => FFn [FHandle; FCallback [FU64; FI8] None false; FHandle] None false
  | BFuture FCancel _ => FFn [FHandle] None false
  | BFuture FComplete r => FFn [FHandle] (fut_fty r) true
  | BFuture FFree _ => FFn [FHandle] None false
  end.
(** ffi.rs l.73-94 [return_type_name]: which of the functions on futures serve an async function. *)
Definition fut_of (r : option fty) : option fut_ret :=
  match r with
  | None => Some RVoid
  | Some FU8 => Some RU8 | Some FI8 => Some RI8 | Some FU16 => Some RU16 | Some FI16 => Some RI16
  | Some FU32 => Some RU32 | Some FI32 => Some RI32 | Some FU64 => Some RU64 | Some FI64 => Some RI64
  | Some FF32 => Some RF32 | Some FF64 => Some RF64 | Some FHandle => Some RU64 | Some FBuffer => Some RBuf
  | Some _ => None
  end.
Definition ci_future (c : csig) : option fut_ret :=
  fut_of (match c_kind c with CConstructor => Some FHandle | _ => option_map ci_type (c_ret c) end).

(** pipeline/general/ffi_types.rs l.7-68: as above but for callback interfaces. *)
Fixpoint pl_type (t : ty) : fty :=
  match t with
  | TU8 => FU8 | TI8 => FI8 | TU16 => FU16 | TI16 => FI16 | TU32 => FU32 | TI32 => FI32
  | TU64 => FU64 | TI64 => FI64 | TF32 => FF32 | TF64 => FF64
  | TBool => FI8
  | TString | TBytes | TTimestamp | TDuration | TOption _ | TSeq _ | TSet _ | TMap _ _
  | TRecord _ _ | TEnum _ _ => FBuffer
  | TObject _ _ _ | TCallback _ _ => FHandle
  | TCustom _ _ t => pl_type t
  | TBox t => pl_type t
  end.
(** pipeline/general/ffi_functions.rs l.9-160. *)
Definition pl_arg (p : param) : fty := if borrowed_bytes p then FForeignBytes else pl_type (p_ty p).
Definition pl_fn (c : csig) : ffn :=
  let args := match c_kind c with CMethod self => [pl_type self] | _ => [] end ++ map pl_arg (c_inputs c) in
  let ret := match c_kind c with CConstructor => Some FHandle | _ => option_map pl_type (c_ret c) end in
  if c_async c then FFn args (Some FHandle) false else FFn args ret true.
(** pipeline/general/callback_interfaces.rs l.67-253 and l.255-357: from the methods before any is
    excluded. *)
Definition pl_dropped : fty := FStruct [FHandle; FCallback [FHandle] None false].
Definition pl_result (r : option fty) : fty :=
  FStruct (match r with Some t => [t; FStatus] | None => [FStatus] end).
Definition pl_complete (r : option fty) : fty := FCallback [FHandle; pl_result r] None false.
Definition pl_slot (c : csig) : fty :=
  let r := option_map pl_type (c_ret c) in
  let args := FHandle :: map (fun p => pl_type (p_ty p)) (c_inputs c) in
  if c_async c
  then FCallback (args ++ [pl_complete r; FHandle; FMutRef pl_dropped]) None false
  else FCallback (args ++ [match r with Some t => FMutRef t | None => FVoidPointer end]) None true.
Definition pl_table (ms : list (str * csig)) : fty :=
  FStruct (FCallback [FHandle] None false :: FCallback [FHandle] (Some FHandle) false ::
           map (fun m => pl_slot (snd m)) ms).
Definition pl_init (table : fty) : ffn := FFn [FRef table] None false.
(** pipeline/general/objects.rs l.40-75, checksums.rs l.15-75, rust_buffer.rs, rust_future.rs. *)
Definition pl_clone : ffn := FFn [FHandle] (Some FHandle) true.
Definition pl_free : ffn := FFn [FHandle] None true.
Definition pl_checksum : ffn := FFn [] (Some FU16) false.
Definition pl_builtin (b : builtin) : ffn :=
  match b with
  | BVersion => FFn [] (Some FU32) false
  | BAlloc => FFn [FU64] (Some FBuffer) true
  | BFromBytes => FFn [FForeignBytes] (Some FBuffer) true
  | BFree => FFn [FBuffer] None true
  | BReserve => FFn [FBuffer; FU64] (Some FBuffer) true
  | BFuture FPoll _ => FFn [FHandle; FCallback [FHandle; FI8] None false; FHandle] None false
  | BFuture FCancel _ => FFn [FHandle] None false
  | BFuture FComplete r => FFn [FHandle] (fut_fty r) true
  | BFuture FFree _ => FFn [FHandle] None false
  end.
(** pipeline/general/ffi_async_data.rs l.50-66. *)
Definition pl_future (c : csig) : option fut_ret :=
  fut_of (match c_kind c with CConstructor => Some FHandle | _ => option_map pl_type (c_ret c) end).

(** * The languages

    Swift: gen_swift/mod.rs l.1045-1075 and BridgingHeaderTemplate.h (structures; arguments in order,
    the call status last). *)
Definition sw_buffer := CStruct [cu64; cu64; CData].
Definition sw_foreign_bytes := CStruct [ci32; CData].
Definition sw_status := CStruct [ci8; sw_buffer].
Fixpoint sw_c (t : fty) : cty :=
  match t with
  | FU8 => cu8 | FI8 => ci8 | FU16 => cu16 | FI16 => ci16 | FU32 => cu32 | FI32 => ci32
  | FU64 | FHandle => cu64 | FI64 => ci64 | FF32 => CFloat | FF64 => CDouble
  | FBuffer => sw_buffer | FForeignBytes => sw_foreign_bytes | FStatus => sw_status
  | FVoidPointer => CData
  | FRef t | FMutRef t => CPtr (sw_c t)
  | FCallback a r s => CFn (map sw_c a ++ if s then [CPtr sw_status] else []) (option_map sw_c r)
  | FStruct fs => CStruct (map sw_c fs)
  end.
Definition sw_fn (f : ffn) : cty :=
  CFn (map sw_c (ff_args f) ++ if ff_status f then [CPtr sw_status] else []) (option_map sw_c (ff_ret f)).

(** Python: bindings/python/pipeline/ffi_types.rs l.7-35; templates/RustBufferTemplate.py l.4-9 and
    l.75-79, Helpers.py l.7-14; NamespaceLibraryTemplate.py. *)
Definition py_buffer := CStruct [cu64; cu64; CData].
Definition py_foreign_bytes := CStruct [ci32; CData].
Definition py_status := CStruct [ci8; py_buffer].
Fixpoint py_c (t : fty) : cty :=
  match t with
  | FU8 => cu8 | FI8 => ci8 | FU16 => cu16 | FI16 => ci16 | FU32 => cu32 | FI32 => ci32
  | FU64 | FHandle => cu64 | FI64 => ci64 | FF32 => CFloat | FF64 => CDouble
  | FBuffer => py_buffer | FForeignBytes => py_foreign_bytes | FStatus => py_status
  | FVoidPointer => CData
  | FRef t | FMutRef t => CPtr (py_c t)
  | FCallback a r s => CFn (map py_c a ++ if s then [CPtr py_status] else []) (option_map py_c r)
  | FStruct fs => CStruct (map py_c fs)
  end.
Definition py_fn (f : ffn) : cty :=
  CFn (map py_c (ff_args f) ++ if ff_status f then [CPtr py_status] else []) (option_map py_c (ff_ret f)).

(** Kotlin with JNA: gen_kotlin/mod.rs l.501-604; templates/RustBufferTemplate.kt l.8-14 and l.61-67,
    Helpers.kt l.8-11, NamespaceLibraryTemplate.kt.  [Byte], [Short], [Int] and [Long] are signed; the
    result of a function is widened (l.513-522). *)
Definition kt_buffer := CStruct [ci64; ci64; CData].
Definition kt_foreign_bytes := CStruct [ci32; CData].
Definition kt_status := CStruct [ci8; kt_buffer].
Fixpoint kt_c (t : fty) : cty :=
  match t with
  | FU8 | FI8 => ci8 | FU16 | FI16 => ci16 | FU32 | FI32 => ci32
  | FU64 | FHandle | FI64 => ci64 | FF32 => CFloat | FF64 => CDouble
  | FBuffer => kt_buffer | FForeignBytes => kt_foreign_bytes | FStatus => kt_status
  | FVoidPointer => CData
  | FRef t | FMutRef t => CPtr (kt_c t)
  | FCallback a r s => CFn (map kt_c a ++ if s then [CPtr kt_status] else []) (option_map kt_c r)
  | FStruct fs => CStruct (map kt_c fs)
  end.
Definition kt_ret (t : fty) : cty := match t with FU8 | FU16 => ci32 | t => kt_c t end.
Definition kt_fn (f : ffn) : cty :=
  CFn (map kt_c (ff_args f) ++ if ff_status f then [CPtr kt_status] else []) (option_map kt_ret (ff_ret f)).

(** Ruby: gen_ruby/mod.rs l.170-194, templates/NamespaceLibraryTemplate.rb, RustBufferTemplate.rb
    l.1-4, ErrorTemplate.rb l.1-3.  A structure's class on its own stands for the structure in a
    layout, for its address among a function's arguments: ruby-ffi's [FFI::Type] for a [Struct] class.
    [RustCallStatus] only occurs in layouts, [ForeignBytes] only among arguments. *)
Definition rb_buffer := CStruct [cu64; cu64; CData].
Definition rb_foreign_bytes := CStruct [ci32; CData].
Definition rb_status := CStruct [ci8; rb_buffer].
Fixpoint rb_c (t : fty) : cty :=
  match t with
  | FU8 => cu8 | FI8 => ci8 | FU16 => cu16 | FI16 => ci16 | FU32 => cu32 | FI32 => ci32
  | FU64 | FHandle => cu64 | FI64 => ci64 | FF32 => CFloat | FF64 => CDouble
  | FBuffer => rb_buffer
  | FForeignBytes => CPtr rb_foreign_bytes
  | FStatus => rb_status
  | FVoidPointer => CData
  | FRef t | FMutRef t => match t with FStruct fs => CPtr (CStruct (map rb_c fs)) | _ => CData end
  | FCallback a r s => CFn (map rb_c a ++ if s then [CPtr rb_status] else []) (option_map rb_c r)
  | FStruct fs => CStruct (map rb_c fs)
  end.
Definition rb_fn (f : ffn) : cty :=
  CFn (map rb_c (ff_args f) ++ if ff_status f then [CPtr rb_status] else []) (option_map rb_c (ff_ret f)).
