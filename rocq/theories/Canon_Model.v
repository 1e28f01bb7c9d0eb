(** The names generated converters are given, one per type. *)
From Verif Require Import Base Meta_Types.

(** uniffi_bindgen/src/pipeline/general/types.rs l.20-65 [canonical_name], used by the Python
    bindings ([_UniffiFfiConverter…], bindings/python/pipeline/types.rs l.147-151) and as the key of
    the definition sorter. *)
Fixpoint canonical_name (t : ty) : str :=
  match t with
  | TU8 => S_ "UInt8" | TI8 => S_ "Int8" | TU16 => S_ "UInt16" | TI16 => S_ "Int16"
  | TU32 => S_ "UInt32" | TI32 => S_ "Int32" | TU64 => S_ "UInt64" | TI64 => S_ "Int64"
  | TF32 => S_ "Float32" | TF64 => S_ "Float64" | TBool => S_ "Boolean"
  | TString => S_ "String" | TBytes => S_ "Bytes"
  | TTimestamp => S_ "Timestamp" | TDuration => S_ "Duration"
  | TObject _ name _ | TCallback _ name | TRecord _ name | TEnum _ name | TCustom _ name _ =>
      S_ "Type" ++ name
  | TOption t => S_ "Optional" ++ canonical_name t
  | TSeq t => S_ "Sequence" ++ canonical_name t
  | TMap k v => S_ "Map" ++ canonical_name k ++ canonical_name v
  | TBox t => S_ "Box" ++ canonical_name t
  | TSet t => S_ "Set" ++ canonical_name t
  end.

(** uniffi_bindgen/src/bindings/kotlin/gen_kotlin/{primitives.rs l.81-93, miscellany.rs l.25-27,
    compounds.rs l.34-39, l.74-79, l.120-126, l.161-166, object.rs, record.rs, enum_.rs, custom.rs,
    callback_interface.rs [canonical_name]} and mod.rs l.657: a box is what is in it. *)
Fixpoint kotlin_name (t : ty) : str :=
  match t with
  | TU8 => S_ "UByte" | TI8 => S_ "Byte" | TU16 => S_ "UShort" | TI16 => S_ "Short"
  | TU32 => S_ "UInt" | TI32 => S_ "Int" | TU64 => S_ "ULong" | TI64 => S_ "Long"
  | TF32 => S_ "Float" | TF64 => S_ "Double" | TBool => S_ "Boolean"
  | TString => S_ "String" | TBytes => S_ "ByteArray"
  | TTimestamp => S_ "Timestamp" | TDuration => S_ "Duration"
  | TObject _ name _ | TCallback _ name | TRecord _ name | TEnum _ name | TCustom _ name _ =>
      S_ "Type" ++ name
  | TOption t => S_ "Optional" ++ kotlin_name t
  | TSeq t => S_ "Sequence" ++ kotlin_name t
  | TMap k v => S_ "Map" ++ kotlin_name k ++ kotlin_name v
  | TBox t => kotlin_name t
  | TSet t => S_ "Set" ++ kotlin_name t
  end.

(** uniffi_bindgen/src/bindings/swift/gen_swift/{primitives.rs l.86-98, miscellany.rs,
    compounds.rs l.28-33, l.65-70, l.103-109, l.138-143, object.rs, record.rs, enum_.rs, custom.rs
    [canonical_name], callback_interface.rs l.23-25} and mod.rs l.727-771.  [class_name] is the
    conversion to upper camel case (mod.rs l.776), which is not modelled. *)
Fixpoint swift_name (class_name : str -> str) (t : ty) : str :=
  match t with
  | TU8 => S_ "UInt8" | TI8 => S_ "Int8" | TU16 => S_ "UInt16" | TI16 => S_ "Int16"
  | TU32 => S_ "UInt32" | TI32 => S_ "Int32" | TU64 => S_ "UInt64" | TI64 => S_ "Int64"
  | TF32 => S_ "Float" | TF64 => S_ "Double" | TBool => S_ "Bool"
  | TString => S_ "String" | TBytes => S_ "Data"
  | TTimestamp => S_ "Timestamp" | TDuration => S_ "Duration"
  | TObject _ name _ | TRecord _ name | TEnum _ name | TCustom _ name _ => S_ "Type" ++ name
  | TCallback _ name => S_ "CallbackInterface" ++ class_name name
  | TOption t => S_ "Option" ++ swift_name class_name t
  | TSeq t => S_ "Sequence" ++ swift_name class_name t
  | TMap k v => S_ "Dictionary" ++ swift_name class_name k ++ swift_name class_name v
  | TBox t => swift_name class_name t
  | TSet t => S_ "Set" ++ swift_name class_name t
  end.
