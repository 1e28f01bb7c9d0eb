(** The data types of the [uniffi_meta] crate: what the macros record about an API and what the
    bindings generator reads back.  Shared by the models of metadata, names, types and checksums. *)
From Verif Require Import Base.

(** A Rust [String]/[&str]: its bytes.  Whether they are UTF-8 is a separate predicate
    ([Utf8.utf8_valid]); the reader checks it, the macros get it from the compiler. *)
Notation str := bytes.

(** Readable literals for the examples. *)
Definition S_ (s : string) : str := String.list_byte_of_string s.

(** uniffi_meta/src/types.rs l.40-62 [TraitKind]. *)
Inductive trait_kind := RustOnly | Both | ForeignOnly.

(** uniffi_meta/src/types.rs l.24-34 [ObjectImpl]. *)
Inductive obj_impl := IStruct | ITrait (k : trait_kind).

(** uniffi_meta/src/types.rs l.82-147 [Type]. *)
Inductive ty :=
| TU8 | TI8 | TU16 | TI16 | TU32 | TI32 | TU64 | TI64 | TF32 | TF64
| TBool | TString | TBytes | TTimestamp | TDuration
| TObject (mp name : str) (imp : obj_impl)
| TRecord (mp name : str)
| TEnum (mp name : str)
| TCallback (mp name : str)
| TBox (t : ty)
| TOption (t : ty)
| TSeq (t : ty)
| TSet (t : ty)
| TMap (k v : ty)
| TCustom (mp name : str) (builtin : ty).

(** [Type]'s derived [PartialEq] (types.rs l.82). *)
Definition trait_kind_eqb (a b : trait_kind) : bool :=
  match a, b with
  | RustOnly, RustOnly | Both, Both | ForeignOnly, ForeignOnly => true
  | _, _ => false
  end.
Definition obj_impl_eqb (a b : obj_impl) : bool :=
  match a, b with
  | IStruct, IStruct => true
  | ITrait k, ITrait l => trait_kind_eqb k l
  | _, _ => false
  end.
Fixpoint ty_eqb (a b : ty) : bool :=
  match a, b with
  | TU8, TU8 | TI8, TI8 | TU16, TU16 | TI16, TI16 | TU32, TU32 | TI32, TI32
  | TU64, TU64 | TI64, TI64 | TF32, TF32 | TF64, TF64 | TBool, TBool | TString, TString
  | TBytes, TBytes | TTimestamp, TTimestamp | TDuration, TDuration => true
  | TObject m n i, TObject m' n' i' => bytes_eqb m m' && bytes_eqb n n' && obj_impl_eqb i i'
  | TRecord m n, TRecord m' n' => bytes_eqb m m' && bytes_eqb n n'
  | TEnum m n, TEnum m' n' => bytes_eqb m m' && bytes_eqb n n'
  | TCallback m n, TCallback m' n' => bytes_eqb m m' && bytes_eqb n n'
  | TBox t, TBox t' => ty_eqb t t'
  | TOption t, TOption t' => ty_eqb t t'
  | TSeq t, TSeq t' => ty_eqb t t'
  | TSet t, TSet t' => ty_eqb t t'
  | TMap k v, TMap k' v' => ty_eqb k k' && ty_eqb v v'
  | TCustom m n t, TCustom m' n' t' => bytes_eqb m m' && bytes_eqb n n' && ty_eqb t t'
  | _, _ => false
  end.

(** uniffi_meta/src/lib.rs l.318-322 [Radix]. *)
Inductive radix := Decimal_ | Octal_ | Hexadecimal_.

(** uniffi_meta/src/lib.rs l.286-305 [LiteralMetadata] and l.327-332 [DefaultValueMetadata].
    The integers are the Rust [u64]/[i64] values. *)
Inductive literal :=
| LBool (b : bool)
| LString (s : str)
| LUInt (z : Z) (r : radix) (t : ty)
| LInt (z : Z) (r : radix) (t : ty)
| LFloat (s : str) (t : ty)
| LEnum (s : str) (t : ty)
| LEmptySeq | LEmptyMap | LEmptySet
| LNone
| LSome (d : default)
with default :=
| DDefault
| DLit (l : literal).

(** uniffi_meta/src/types.rs l.267-271 [PassBy]. *)
Inductive pass_by := ByValue | ByRef | ByMutRef.

(** uniffi_meta/src/lib.rs l.257-264 [FnParamMetadata].  Simplification: [optional] is left out, it
    is always [false] for items that come from a library (reader.rs l.526). *)
Record param := Param {
  p_name : str; p_ty : ty; p_pass : pass_by; p_default : option default }.

(** The part common to [FnMetadata], [ConstructorMetadata], [MethodMetadata] and
    [TraitMethodMetadata] (lib.rs l.139-236).  Simplification: [takes_self_by_arc] is left out, it is
    always [false] for items that come from a library (reader.rs l.317, l.450). *)
Record fn_meta := Fn {
  f_mp : str; f_name : str; f_orig : option str; f_async : bool; f_inputs : list param;
  f_ret : option ty; f_throws : option ty; f_checksum : option Z; f_doc : option str }.

(** uniffi_meta/src/lib.rs l.345-352 [FieldMetadata]. *)
Record field := Field {
  fd_name : str; fd_orig : option str; fd_ty : ty; fd_default : option default;
  fd_doc : option str }.

(** uniffi_meta/src/lib.rs l.354-358 [EnumShape]. *)
Inductive shape := ShEnum | ShError (flat : bool).

(** uniffi_meta/src/lib.rs l.396-404 [VariantMetadata]. *)
Record variant := Variant {
  v_name : str; v_orig : option str; v_discr : option literal; v_fields : list field;
  v_doc : option str }.

(** uniffi_meta/src/lib.rs l.334-343 [RecordMetadata].  Simplification: [remote] is left out, it is
    always [false] for items that come from a library (reader.rs l.329, l.352, l.377). *)
Record record_meta := Rec {
  r_mp : str; r_name : str; r_orig : option str; r_fields : list field; r_doc : option str }.

(** uniffi_meta/src/lib.rs l.382-394 [EnumMetadata]. *)
Record enum_meta := Enum {
  e_mp : str; e_name : str; e_orig : option str; e_shape : shape; e_discr_ty : option ty;
  e_variants : list variant; e_non_exhaustive : bool; e_doc : option str }.

(** uniffi_meta/src/lib.rs l.406-415 [ObjectMetadata]. *)
Record object_meta := Obj {
  o_mp : str; o_name : str; o_orig : option str; o_imp : obj_impl; o_doc : option str }.

(** uniffi_meta/src/lib.rs l.445-466 [UniffiTraitMetadata]; a method is its [self_name] and the
    common part. *)
Inductive utrait :=
| UTDebug (self : str) (f : fn_meta)
| UTDisplay (self : str) (f : fn_meta)
| UTEq (self1 : str) (eq : fn_meta) (self2 : str) (ne : fn_meta)
| UTHash (self : str) (f : fn_meta)
| UTOrd (self : str) (f : fn_meta).

(** uniffi_meta/src/lib.rs l.575-590 [Metadata].  For a constructor [f_ret] is [None]:
    [ConstructorMetadata] (l.160-172) has no such field.  Left out:
    [FromUnexpectedCallbackErrorImpl], which never comes from a library (lib.rs l.541-543). *)
Inductive metadata :=
| MNamespace (crate_name name : str)
| MUdlFile (mp namespace file_stub : str)
| MFunc (f : fn_meta)
| MObject (o : object_meta)
| MCallback (mp name : str) (doc : option str)
| MRecord (r : record_meta)
| MEnum (e : enum_meta)
| MConstructor (self : str) (f : fn_meta)
| MMethod (self : str) (f : fn_meta)
| MTraitMethod (trait_name : str) (index : Z) (f : fn_meta)
| MCustom (mp name : str) (builtin : ty) (doc : option str)
| MUniffiTrait (u : utrait)
| MTraitImpl (t trait_ty : ty).
