(** Model of the metadata writer (the [uniffi_macros] crate and [uniffi_core/src/metadata.rs]) and of
    the reader ([uniffi_meta/src/reader.rs]). *)
From Coq Require Import Decimal DecimalZ.
From Verif Require Import Base Utf8 Meta_Types.
Open Scope Z_scope.

(** * Codes *)

(** uniffi_core/src/metadata.rs l.30-43 and uniffi_meta/src/metadata.rs (the same numbers). *)
Inductive icode :=
| FUNC | METHOD | RECORD | ENUM | INTERFACE | NAMESPACE | CONSTRUCTOR | UDL_FILE
| CALLBACK_INTERFACE | TRAIT_METHOD | UNIFFI_TRAIT | TRAIT_INTERFACE | OBJECT_TRAIT_IMPL
| CUSTOM_TYPE.
Definition icode_byte (c : icode) : byte :=
  match c with
  | FUNC => x00 | METHOD => x01 | RECORD => x02 | ENUM => x03 | INTERFACE => x04
  | NAMESPACE => x06 | CONSTRUCTOR => x07 | UDL_FILE => x08 | CALLBACK_INTERFACE => x09
  | TRAIT_METHOD => x0a | UNIFFI_TRAIT => x0b | TRAIT_INTERFACE => x0c
  | OBJECT_TRAIT_IMPL => x0e | CUSTOM_TYPE => x0f
  end.
(** The reader's [match value], reader.rs l.39-67. *)
Definition icode_of (b : byte) : option icode :=
  match b with
  | x00 => Some FUNC | x01 => Some METHOD | x02 => Some RECORD | x03 => Some ENUM
  | x04 => Some INTERFACE | x06 => Some NAMESPACE | x07 => Some CONSTRUCTOR
  | x08 => Some UDL_FILE | x09 => Some CALLBACK_INTERFACE | x0a => Some TRAIT_METHOD
  | x0b => Some UNIFFI_TRAIT | x0c => Some TRAIT_INTERFACE | x0e => Some OBJECT_TRAIT_IMPL
  | x0f => Some CUSTOM_TYPE
  | _ => None
  end.

(** uniffi_core/src/metadata.rs l.46-73. *)
Inductive tcode :=
| TYPE_U8 | TYPE_U16 | TYPE_U32 | TYPE_U64 | TYPE_I8 | TYPE_I16 | TYPE_I32 | TYPE_I64
| TYPE_F32 | TYPE_F64 | TYPE_BOOL | TYPE_STRING | TYPE_OPTION | TYPE_RECORD | TYPE_ENUM
| TYPE_INTERFACE | TYPE_VEC | TYPE_HASH_MAP | TYPE_SYSTEM_TIME | TYPE_DURATION
| TYPE_CALLBACK_INTERFACE | TYPE_CUSTOM | TYPE_RESULT | TYPE_TRAIT_INTERFACE | TYPE_BOX
| TYPE_HASH_SET | TYPE_UNIT.
Definition tcode_byte (c : tcode) : byte :=
  match c with
  | TYPE_U8 => x00 | TYPE_U16 => x01 | TYPE_U32 => x02 | TYPE_U64 => x03
  | TYPE_I8 => x04 | TYPE_I16 => x05 | TYPE_I32 => x06 | TYPE_I64 => x07
  | TYPE_F32 => x08 | TYPE_F64 => x09 | TYPE_BOOL => x0a | TYPE_STRING => x0b
  | TYPE_OPTION => x0c | TYPE_RECORD => x0d | TYPE_ENUM => x0e | TYPE_INTERFACE => x10
  | TYPE_VEC => x11 | TYPE_HASH_MAP => x12 | TYPE_SYSTEM_TIME => x13 | TYPE_DURATION => x14
  | TYPE_CALLBACK_INTERFACE => x15 | TYPE_CUSTOM => x16 | TYPE_RESULT => x17
  | TYPE_TRAIT_INTERFACE => x18 | TYPE_BOX => x1a | TYPE_HASH_SET => x1b | TYPE_UNIT => xff
  end.
(** The reader's [match value], reader.rs l.143-216. *)
Definition tcode_of (b : byte) : option tcode :=
  match b with
  | x00 => Some TYPE_U8 | x01 => Some TYPE_U16 | x02 => Some TYPE_U32 | x03 => Some TYPE_U64
  | x04 => Some TYPE_I8 | x05 => Some TYPE_I16 | x06 => Some TYPE_I32 | x07 => Some TYPE_I64
  | x08 => Some TYPE_F32 | x09 => Some TYPE_F64 | x0a => Some TYPE_BOOL | x0b => Some TYPE_STRING
  | x0c => Some TYPE_OPTION | x0d => Some TYPE_RECORD | x0e => Some TYPE_ENUM
  | x10 => Some TYPE_INTERFACE | x11 => Some TYPE_VEC | x12 => Some TYPE_HASH_MAP
  | x13 => Some TYPE_SYSTEM_TIME | x14 => Some TYPE_DURATION
  | x15 => Some TYPE_CALLBACK_INTERFACE | x16 => Some TYPE_CUSTOM | x17 => Some TYPE_RESULT
  | x18 => Some TYPE_TRAIT_INTERFACE | x1a => Some TYPE_BOX | x1b => Some TYPE_HASH_SET
  | xff => Some TYPE_UNIT
  | _ => None
  end.

(** uniffi_core/src/metadata.rs l.81-89. *)
Inductive lcode :=
| LIT_STR | LIT_INT | LIT_FLOAT | LIT_BOOL | LIT_NONE | LIT_SOME | LIT_EMPTY_SEQ
| LIT_EMPTY_MAP | LIT_EMPTY_SET.
Definition lcode_byte (c : lcode) : byte :=
  match c with
  | LIT_STR => x00 | LIT_INT => x01 | LIT_FLOAT => x02 | LIT_BOOL => x03 | LIT_NONE => x04
  | LIT_SOME => x05 | LIT_EMPTY_SEQ => x06 | LIT_EMPTY_MAP => x07 | LIT_EMPTY_SET => x08
  end.
Definition lcode_of (b : byte) : option lcode :=
  match b with
  | x00 => Some LIT_STR | x01 => Some LIT_INT | x02 => Some LIT_FLOAT | x03 => Some LIT_BOOL
  | x04 => Some LIT_NONE | x05 => Some LIT_SOME | x06 => Some LIT_EMPTY_SEQ
  | x07 => Some LIT_EMPTY_MAP | x08 => Some LIT_EMPTY_SET
  | _ => None
  end.

(** uniffi_core/src/metadata.rs l.76-78; reader.rs l.363-370. *)
Definition kind_byte (k : trait_kind) : byte :=
  match k with RustOnly => x00 | Both => x01 | ForeignOnly => x02 end.
Definition kind_of (b : byte) : option trait_kind :=
  match b with x00 => Some RustOnly | x01 => Some Both | x02 => Some ForeignOnly | _ => None end.

(** uniffi_core/src/metadata.rs l.92-93. *)
Definition DEFVALUE_DEFAULT : byte := x00.
Definition DEFVALUE_LITERAL : byte := x01.

(** uniffi_meta/src/lib.rs l.361-376 [EnumShape::as_u8], [EnumShape::from]. *)
Definition shape_byte (s : shape) : byte :=
  match s with ShEnum => x00 | ShError false => x01 | ShError true => x02 end.
Definition shape_of (b : byte) : option shape :=
  match b with
  | x00 => Some ShEnum | x01 => Some (ShError false) | x02 => Some (ShError true) | _ => None
  end.

(** * The buffer: [MetadataBuffer], uniffi_core/src/metadata.rs l.100-254

    The model of a buffer is the list of its first [size] bytes; the rest of the fixed array is never
    looked at.  [None] is a failing [assert!] in a const function: the crate does not compile. *)
Definition BUF_SIZE : Z := 32768.
Definition size (b : bytes) : Z := Z.of_nat (length b).

(** l.142-153 [concat]. *)
Definition concat_buf (b other : bytes) : option bytes :=
  if size b + size other <=? BUF_SIZE then Some (b ++ other) else None.
(** l.159-164 [concat_value]. *)
Definition concat_value (b : bytes) (v : byte) : option bytes :=
  if size b <? BUF_SIZE then Some (b ++ [v]) else None.
(** l.170-179 [concat_u32]. *)
Definition concat_u32 (b : bytes) (v : Z) : option bytes :=
  if size b + 4 <=? BUF_SIZE then Some (b ++ le_bytes 4 (Z.to_N v)) else None.
(** l.185-187 [concat_bool]. *)
Definition concat_bool (b : bytes) (v : bool) : option bytes :=
  concat_value b (if v then x01 else x00).
(** l.196-209 [concat_str]; [string.len() as u8] keeps the low byte. *)
Definition concat_str (b : bytes) (s : str) : option bytes :=
  if (size s <? 256) && (size b + size s <? BUF_SIZE)
  then Some (b ++ n2b (N.of_nat (length s)) :: s) else None.
(** l.217-231 [concat_long_str]; [string.len() as u16] keeps the low two bytes. *)
Definition concat_long_str (b : bytes) (s : str) : option bytes :=
  if size b + size s + 1 <? BUF_SIZE
  then Some (b ++ le_bytes 2 (N.of_nat (length s)) ++ s) else None.

(** One method call in the chain of calls a macro generates.  [CLen n] is [.concat_value(#len)] with
    [len] checked by [try_metadata_value_from_usize] (uniffi_macros/src/util.rs l.153-157) when the
    macro runs: over 255 the macro reports an error.  [CBuf] is [.concat(c)] for a constant buffer
    [c], itself [None] if evaluating that constant fails. *)
Inductive call :=
| CValue (v : byte)
| CLen (n : nat)
| CU32 (v : Z)
| CBool (v : bool)
| CStr (s : str)
| CLong (s : str)
| CBuf (c : option bytes).

Definition exec1 (b : bytes) (c : call) : option bytes :=
  match c with
  | CValue v => concat_value b v
  | CLen n => if Z.of_nat n <? 256 then concat_value b (n2b (N.of_nat n)) else None
  | CU32 v => concat_u32 b v
  | CBool v => concat_bool b v
  | CStr s => concat_str b s
  | CLong s => concat_long_str b s
  | CBuf None => None
  | CBuf (Some o) => concat_buf b o
  end.
Fixpoint exec_from (b : bytes) (cs : list call) : option bytes :=
  match cs with
  | [] => Some b
  | c :: cs' => match exec1 b c with Some b' => exec_from b' cs' | None => None end
  end.
(** [MetadataBuffer::new()] (l.127) followed by the calls; [from_code] (l.134) is [new] and one
    [concat_value]. *)
Definition exec (cs : list call) : option bytes := exec_from [] cs.

(** l.276-291 [calc_checksum]; also uniffi_meta/src/metadata.rs l.83-102 [checksum_metadata], the
    same code.  FNV-1a on 64 bits, folded to 16. *)
Definition M64 : Z := 2 ^ 64.
Definition FNV_INIT : Z := 14695981039346656037. (* 0xcbf29ce484222325 *)
Definition FNV_PRIME : Z := 1099511628211. (* 0x100000001b3 *)
Fixpoint fnv (h : Z) (bs : bytes) : Z :=
  match bs with
  | [] => h
  | b :: bs' => fnv ((Z.lxor h (Z.of_N (b2n b)) * FNV_PRIME) mod M64) bs'
  end.
Definition fold16 (h : Z) : Z :=
  Z.lxor (Z.lxor (Z.lxor h (Z.shiftr h 16)) (Z.shiftr h 32)) (Z.shiftr h 48) mod 65536.
Definition calc_checksum (bs : bytes) : Z := fold16 (fnv FNV_INIT bs).

(** * What the macros write *)

(** [TYPE_ID_META] of each type.  uniffi_core/src/ffi_converter_impls.rs l.65 (numbers), l.109
    (bool), l.166 (String), l.216 (SystemTime), l.241 (Duration), l.290 (Option), l.324 (Vec), l.379
    (HashMap), l.434 (HashSet), l.523 (Box); records, enums, objects, callback and custom types:
    uniffi_macros/src/record.rs l.175, enum_.rs l.258, object.rs l.226, export/trait_interface.rs
    l.260-273, callback_interface.rs l.188-192, custom.rs l.268-271.  [Bytes] is [Vec<u8>]. *)
Fixpoint type_id (t : ty) : option bytes :=
  let c k := CValue (tcode_byte k) in
  match t with
  | TU8 => exec [c TYPE_U8] | TI8 => exec [c TYPE_I8]
  | TU16 => exec [c TYPE_U16] | TI16 => exec [c TYPE_I16]
  | TU32 => exec [c TYPE_U32] | TI32 => exec [c TYPE_I32]
  | TU64 => exec [c TYPE_U64] | TI64 => exec [c TYPE_I64]
  | TF32 => exec [c TYPE_F32] | TF64 => exec [c TYPE_F64]
  | TBool => exec [c TYPE_BOOL]
  | TString => exec [c TYPE_STRING]
  | TBytes => exec [c TYPE_VEC; CBuf (exec [c TYPE_U8])]
  | TTimestamp => exec [c TYPE_SYSTEM_TIME]
  | TDuration => exec [c TYPE_DURATION]
  | TObject mp n IStruct => exec [c TYPE_INTERFACE; CStr mp; CStr n]
  | TObject mp n (ITrait k) => exec [c TYPE_TRAIT_INTERFACE; CStr mp; CStr n; CValue (kind_byte k)]
  | TRecord mp n => exec [c TYPE_RECORD; CStr mp; CStr n]
  | TEnum mp n => exec [c TYPE_ENUM; CStr mp; CStr n]
  | TCallback mp n => exec [c TYPE_CALLBACK_INTERFACE; CStr mp; CStr n]
  | TBox t => exec [c TYPE_BOX; CBuf (type_id t)]
  | TOption t => exec [c TYPE_OPTION; CBuf (type_id t)]
  | TSeq t => exec [c TYPE_VEC; CBuf (type_id t)]
  | TSet t => exec [c TYPE_HASH_SET; CBuf (type_id t)]
  | TMap k v => exec [c TYPE_HASH_MAP; CBuf (type_id k); CBuf (type_id v)]
  | TCustom mp n t => exec [c TYPE_CUSTOM; CStr mp; CStr n; CBuf (type_id t)]
  end.

(** The canonical decimal digits of an integer literal: [LitInt::base10_digits] of the [syn] crate
    (which also covers a leading minus sign).  Simplification: [base10_digits] is taken to be
    canonical; the parser below is the general one. *)
Fixpoint uint_bytes (u : Decimal.uint) : bytes :=
  match u with
  | Nil => []
  | D0 u => x30 :: uint_bytes u | D1 u => x31 :: uint_bytes u | D2 u => x32 :: uint_bytes u
  | D3 u => x33 :: uint_bytes u | D4 u => x34 :: uint_bytes u | D5 u => x35 :: uint_bytes u
  | D6 u => x36 :: uint_bytes u | D7 u => x37 :: uint_bytes u | D8 u => x38 :: uint_bytes u
  | D9 u => x39 :: uint_bytes u
  end.
Definition digits (z : Z) : bytes :=
  match Z.to_int z with
  | Pos u => uint_bytes u
  | Neg u => x2d :: uint_bytes u
  end.

(** uniffi_macros/src/default.rs l.70-131 [metadata_calls].  There is no syntax for the enum, empty
    map and empty set literals: a chain that fails. *)
Fixpoint lit_calls (l : literal) : list call :=
  let c k := CValue (lcode_byte k) in
  match l with
  | LString s => [c LIT_STR; CStr s]
  | LUInt z _ _ => [c LIT_INT; CStr (digits z)]
  | LInt z _ _ => [c LIT_INT; CStr (digits z)]
  | LFloat s _ => [c LIT_FLOAT; CStr s]
  | LBool b => [c LIT_BOOL; CBool b]
  | LEmptySeq => [c LIT_EMPTY_SEQ]
  | LNone => [c LIT_NONE]
  | LSome d => c LIT_SOME :: default_calls d
  | LEnum _ _ | LEmptyMap | LEmptySet => [CBuf None]
  end
with default_calls (d : default) : list call :=
  match d with
  | DDefault => [CValue DEFVALUE_DEFAULT]
  | DLit l => CValue DEFVALUE_LITERAL :: lit_calls l
  end.

(** default.rs l.134-145 [default_value_metadata_calls]. *)
Definition opt_default_calls (d : option default) : list call :=
  match d with Some d => CBool true :: default_calls d | None => [CBool false] end.

(** uniffi_macros/src/util.rs l.139-151 [orig_name_metadata]. *)
Definition orig_calls (o : option str) : list call :=
  match o with Some s => [CBool true; CStr s] | None => [CBool false] end.

(** A missing doc comment is the empty string (uniffi_macros/src/util.rs [extract_docstring]). *)
Definition doc_calls (o : option str) : list call :=
  match o with Some s => [CLong s] | None => [CLong []] end.

(** uniffi_macros/src/fnsig.rs l.571-586 [arg_metadata]. *)
Definition param_calls (p : param) : list call :=
  [CStr (p_name p); CBuf (type_id (p_ty p));
   CBool (match p_pass p with ByValue => false | _ => true end);
   CBool (match p_pass p with ByMutRef => true | _ => false end)] ++
  opt_default_calls (p_default p).

Definition counted {A} (f : A -> list call) (l : list A) : list call :=
  CLen (length l) :: flat_map f l.

(** [LowerReturn::TYPE_ID_META]: uniffi_core/src/ffi_converter_impls.rs l.560 for [()], l.641 for
    [Result<R, E>]. *)
Definition opt_type_id (t : option ty) : option bytes :=
  match t with Some t => type_id t | None => exec [CValue (tcode_byte TYPE_UNIT)] end.
Definition return_id (ret throws : option ty) : option bytes :=
  match throws with
  | None => opt_type_id ret
  | Some e => exec [CValue (tcode_byte TYPE_RESULT); CBuf (opt_type_id ret); CBuf (type_id e)]
  end.

(** uniffi_macros/src/fnsig.rs l.295-385 [metadata_expr]: the calls after the names; [ret] is the
    return type written (for a constructor the object's). *)
Definition fn_tail_calls (ret : option ty) (f : fn_meta) : list call :=
  orig_calls (f_orig f) ++ [CBool (f_async f)] ++ counted param_calls (f_inputs f) ++
  [CBuf (return_id ret (f_throws f))] ++ doc_calls (f_doc f).
(** fnsig.rs l.336-350. *)
Definition method_calls (self : str) (f : fn_meta) : list call :=
  [CValue (icode_byte METHOD); CStr (f_mp f); CStr self; CStr (f_name f)] ++
  fn_tail_calls (f_ret f) f.

(** uniffi_macros/src/record.rs l.222-229, enum_.rs l.386-392: one field. *)
Definition field_calls (f : field) : list call :=
  [CStr (fd_name f)] ++ orig_calls (fd_orig f) ++ [CBuf (type_id (fd_ty f))] ++
  opt_default_calls (fd_default f) ++ doc_calls (fd_doc f).
(** enum_.rs l.303-351 [variant_value]. *)
Definition discr_calls (d : option literal) : list call :=
  match d with Some l => CBool true :: lit_calls l | None => [CBool false] end.
(** enum_.rs l.402-409. *)
Definition variant_calls (v : variant) : list call :=
  [CStr (v_name v)] ++ orig_calls (v_orig v) ++ discr_calls (v_discr v) ++
  counted field_calls (v_fields v) ++ doc_calls (v_doc v).
(** error.rs l.211-215. *)
Definition flat_variant_calls (v : variant) : list call :=
  [CStr (v_name v)] ++ orig_calls (v_orig v) ++ doc_calls (v_doc v).

(** uniffi_macros/src/export/utrait.rs l.20-167: the builtin traits; the method's metadata is a
    constant buffer of its own. *)
Definition utrait_calls (u : utrait) : list call :=
  match u with
  | UTDebug s f => [CValue x00; CBuf (exec (method_calls s f))]
  | UTDisplay s f => [CValue x01; CBuf (exec (method_calls s f))]
  | UTEq s f s' f' => [CValue x02; CBuf (exec (method_calls s f)); CBuf (exec (method_calls s' f'))]
  | UTHash s f => [CValue x03; CBuf (exec (method_calls s f))]
  | UTOrd s f => [CValue x04; CBuf (exec (method_calls s f))]
  end.

(** Every item's chain of calls.  [omp] is the module path recorded in the [TYPE_ID_META] of the
    object a constructor returns (its [Self] type, which may be defined in another module than the
    [impl] block).  setup_scaffolding.rs l.53-56; the UDL file item: setup_scaffolding.rs/scaffolding
    template; fnsig.rs l.322-384; record.rs l.232-243; enum_.rs l.274-301 and error.rs l.173-199;
    object.rs l.256-288; callback_interface.rs l.283-286; custom.rs l.390-409; export.rs l.98-104. *)
Definition item_calls (omp : str) (m : metadata) : list call :=
  let c k := CValue (icode_byte k) in
  match m with
  | MNamespace cr n => [c NAMESPACE; CStr cr; CStr n]
  | MUdlFile mp ns fs => [c UDL_FILE; CStr mp; CStr ns; CStr fs]
  | MFunc f => [c FUNC; CStr (f_mp f); CStr (f_name f)] ++ fn_tail_calls (f_ret f) f
  | MConstructor self f =>
      [c CONSTRUCTOR; CStr (f_mp f); CStr self; CStr (f_name f)] ++
      fn_tail_calls (Some (TObject omp self IStruct)) f
  | MMethod self f => method_calls self f
  | MTraitMethod tr i f =>
      [c TRAIT_METHOD; CStr (f_mp f); CStr tr; CU32 i; CStr (f_name f)] ++ fn_tail_calls (f_ret f) f
  | MRecord r =>
      [c RECORD; CStr (r_mp r); CStr (r_name r)] ++ orig_calls (r_orig r) ++
      counted field_calls (r_fields r) ++ doc_calls (r_doc r)
  | MEnum e =>
      [c ENUM; CStr (e_mp e); CStr (e_name e)] ++ orig_calls (e_orig e) ++
      [CValue (shape_byte (e_shape e))] ++
      (match e_discr_ty e with
       | Some t => [CBool true; CBuf (type_id t)]
       | None => [CBool false]
       end) ++
      (match e_shape e with
       | ShError true => counted flat_variant_calls (e_variants e)
       | _ => counted variant_calls (e_variants e)
       end) ++
      [CBool (e_non_exhaustive e)] ++ doc_calls (e_doc e)
  | MObject o =>
      match o_imp o with
      | IStruct =>
          [c INTERFACE; CStr (o_mp o); CStr (o_name o)] ++ orig_calls (o_orig o) ++
          doc_calls (o_doc o)
      | ITrait k =>
          [c TRAIT_INTERFACE; CStr (o_mp o); CStr (o_name o)] ++ orig_calls (o_orig o) ++
          doc_calls (o_doc o) ++ [CValue (kind_byte k)]
      end
  | MCallback mp n d => [c CALLBACK_INTERFACE; CStr mp; CStr n] ++ doc_calls d
  | MCustom mp n t d => [c CUSTOM_TYPE; CStr mp; CStr n; CBuf (type_id t)] ++ doc_calls d
  | MUniffiTrait u => c UNIFFI_TRAIT :: utrait_calls u
  | MTraitImpl (TObject mp n IStruct) tr =>
      [c OBJECT_TRAIT_IMPL; CBuf (exec [CValue (tcode_byte TYPE_INTERFACE)]); CStr mp; CStr n;
       CBuf (type_id tr)]
  | MTraitImpl _ _ => [CBuf None]
  end.

(** uniffi_macros/src/util.rs l.101-137 [create_metadata_items]: the static byte array of the item,
    and the value the item's exported checksum function returns (functions, constructors, methods). *)
Definition write (omp : str) (m : metadata) : option bytes := exec (item_calls omp m).
Definition scaffolding_checksum (omp : str) (m : metadata) : option Z :=
  match write omp m with Some b => Some (calc_checksum b) | None => None end.

(** * The reader: uniffi_meta/src/reader.rs

    [MetadataReader] is a cursor over the data; a function of the remaining bytes here.  [Panic] is a
    panic ([split_at] past the end), [Err] an [anyhow] error, [Deep] a recursion deeper than the [d]
    frames the stack allows. *)
Definition rd (A : Type) := bytes -> res (A * bytes).
Definition ret {A} (x : A) : rd A := fun b => Ok (x, b).
Definition fail {A} : rd A := fun _ => Err.
Definition rbind {A B} (p : rd A) (f : A -> rd B) : rd B :=
  fun b => match p b with
           | Ok (x, r) => f x r
           | Err => Err
           | Panic => Panic
           | Deep => Deep
           end.
Notation "x <- p ;; q" := (rbind p (fun x => q)) (at level 61, p at next level, right associativity).

(** l.71-79 [read_u8]. *)
Definition read_u8 : rd byte :=
  fun b => match b with [] => Err | v :: r => Ok (v, r) end.
(** l.81-87 [peek_u8]. *)
Definition peek_u8 : rd byte :=
  fun b => match b with [] => Err | v :: _ => Ok (v, b) end.
(** l.89-98 [read_u16], l.100-112 [read_u32]. *)
Definition read_le (k : nat) : rd Z :=
  fun b => match split_n k b with Some (a, r) => Ok (Z.of_N (le_val a), r) | None => Err end.
Definition read_u16 : rd Z := read_le 2.
Definition read_u32 : rd Z := read_le 4.
(** l.114-116 [read_bool]. *)
Definition read_bool : rd bool :=
  v <- read_u8 ;; ret (Byte.eqb v x01).
(** l.121-122 and l.133-134: [split_at] panics past the end; [String::from_utf8] is an error. *)
Definition take_str (n : nat) : rd str :=
  fun b => match split_n n b with
           | Some (a, r) => if utf8_valid a then Ok (a, r) else Err
           | None => Panic
           end.
(** l.118-123 [read_string]. *)
Definition read_string : rd str :=
  v <- read_u8 ;; take_str (N.to_nat (b2n v)).
(** l.125-128 [read_optional_string]. *)
Definition read_opt_string : rd (option str) :=
  b <- read_bool ;; if (b : bool) then s <- read_string ;; ret (Some s) else ret None.
(** l.130-135 [read_long_string]. *)
Definition read_long_string : rd str :=
  n <- read_u16 ;; take_str (Z.to_nat n).
(** l.137-139 [read_optional_long_string]. *)
Definition read_opt_long_string : rd (option str) :=
  s <- read_long_string ;; ret (match s with [] => None | _ => Some s end).

(** l.363-370 [read_trait_kind]. *)
Definition read_trait_kind : rd trait_kind :=
  v <- read_u8 ;; match kind_of v with Some k => ret k | None => fail end.

(** l.141-217 [read_type]. *)
Fixpoint read_type (d : nat) : rd ty :=
  match d with
  | O => fun _ => Deep
  | S d =>
      v <- read_u8 ;;
      match tcode_of v with
      | Some TYPE_U8 => ret TU8
      | Some TYPE_I8 => ret TI8
      | Some TYPE_U16 => ret TU16
      | Some TYPE_I16 => ret TI16
      | Some TYPE_U32 => ret TU32
      | Some TYPE_I32 => ret TI32
      | Some TYPE_U64 => ret TU64
      | Some TYPE_I64 => ret TI64
      | Some TYPE_F32 => ret TF32
      | Some TYPE_F64 => ret TF64
      | Some TYPE_BOOL => ret TBool
      | Some TYPE_STRING => ret TString
      | Some TYPE_DURATION => ret TDuration
      | Some TYPE_SYSTEM_TIME => ret TTimestamp
      | Some TYPE_RECORD => mp <- read_string ;; n <- read_string ;; ret (TRecord mp n)
      | Some TYPE_ENUM => mp <- read_string ;; n <- read_string ;; ret (TEnum mp n)
      | Some TYPE_INTERFACE =>
          mp <- read_string ;; n <- read_string ;; ret (TObject mp n IStruct)
      | Some TYPE_TRAIT_INTERFACE =>
          mp <- read_string ;; n <- read_string ;; k <- read_trait_kind ;;
          ret (TObject mp n (ITrait k))
      | Some TYPE_CALLBACK_INTERFACE =>
          mp <- read_string ;; n <- read_string ;; ret (TCallback mp n)
      | Some TYPE_CUSTOM =>
          mp <- read_string ;; n <- read_string ;; t <- read_type d ;; ret (TCustom mp n t)
      | Some TYPE_OPTION => t <- read_type d ;; ret (TOption t)
      | Some TYPE_BOX => t <- read_type d ;; ret (TBox t)
      | Some TYPE_VEC =>
          t <- read_type d ;; ret (if ty_eqb t TU8 then TBytes else TSeq t)
      | Some TYPE_HASH_MAP =>
          k <- read_type d ;; w <- read_type d ;; ret (TMap k w)
      | Some TYPE_HASH_SET => t <- read_type d ;; ret (TSet t)
      | Some TYPE_UNIT | Some TYPE_RESULT | None => fail
      end
  end.

(** l.219-227 [read_optional_type]. *)
Definition read_opt_type (d : nat) : rd (option ty) :=
  v <- peek_u8 ;;
  match tcode_of v with
  | Some TYPE_UNIT => _ <- read_u8 ;; ret None
  | _ => t <- read_type d ;; ret (Some t)
  end.
(** l.229-241 [read_return_type]. *)
Definition read_return_type (d : nat) : rd (option ty * option ty) :=
  v <- peek_u8 ;;
  match tcode_of v with
  | Some TYPE_UNIT => _ <- read_u8 ;; ret (None, None)
  | Some TYPE_RESULT =>
      _ <- read_u8 ;; a <- read_opt_type d ;; b <- read_opt_type d ;; ret (a, b)
  | _ => t <- read_type d ;; ret (Some t, None)
  end.

(** Rust's [str::parse] for the fixed-width integers ([core::num::FromStr]): an optional sign (a minus
    only for signed types), at least one digit, nothing else, and the value in range. *)
Fixpoint parse_digits (bs : bytes) : option Decimal.uint :=
  match bs with
  | [] => Some Nil
  | b :: r =>
      match parse_digits r with
      | None => None
      | Some u =>
          match b with
          | x30 => Some (D0 u) | x31 => Some (D1 u) | x32 => Some (D2 u) | x33 => Some (D3 u)
          | x34 => Some (D4 u) | x35 => Some (D5 u) | x36 => Some (D6 u) | x37 => Some (D7 u)
          | x38 => Some (D8 u) | x39 => Some (D9 u)
          | _ => None
          end
      end
  end.
Definition parse_nonempty (bs : bytes) : option Decimal.uint :=
  match bs with [] => None | _ => parse_digits bs end.
Definition parse_int (signed : bool) (lo hi : Z) (bs : bytes) : option Z :=
  let v := match bs with
           | x2b :: r => option_map Z.of_uint (parse_nonempty r)
           | x2d :: r =>
               if signed then option_map (fun u => - Z.of_uint u) (parse_nonempty r) else None
           | _ => option_map Z.of_uint (parse_nonempty bs)
           end in
  match v with
  | Some z => if (lo <=? z) && (z <=? hi) then Some z else None
  | None => None
  end.

(** The integer types a literal can have: signedness, least and greatest value. *)
Definition int_range (t : ty) : option (bool * Z * Z) :=
  match t with
  | TU8 => Some (false, 0, 2 ^ 8 - 1) | TI8 => Some (true, - 2 ^ 7, 2 ^ 7 - 1)
  | TU16 => Some (false, 0, 2 ^ 16 - 1) | TI16 => Some (true, - 2 ^ 15, 2 ^ 15 - 1)
  | TU32 => Some (false, 0, 2 ^ 32 - 1) | TI32 => Some (true, - 2 ^ 31, 2 ^ 31 - 1)
  | TU64 => Some (false, 0, 2 ^ 64 - 1) | TI64 => Some (true, - 2 ^ 63, 2 ^ 63 - 1)
  | _ => None
  end.

(** l.582-586: a custom type's literal is one of its builtin type (one level only). *)
Definition unwrap_custom (t : ty) : ty :=
  match t with TCustom _ _ b => b | _ => t end.

(** l.597-636: an integer literal. *)
Definition int_lit (t : ty) (ds : bytes) : option literal :=
  let t' := match ds, t with x2d :: _, TU64 => TI64 | _, _ => t end in
  match int_range t' with
  | Some (sg, lo, hi) =>
      match parse_int sg lo hi ds with
      | Some z => Some (if sg then LInt z Decimal_ t' else LUInt z Decimal_ t')
      | None => None
      end
  | None => None
  end.

(** l.579-661 [read_literal] and l.561-569 [read_default].  The recursion is on the type (through the
    optional's inner type), which bounds it by the depth already allowed for [read_type]. *)
Definition read_default_ (rl : rd literal) : rd default :=
  v <- read_u8 ;;
  if Byte.eqb v DEFVALUE_DEFAULT then ret DDefault
  else if Byte.eqb v DEFVALUE_LITERAL then l <- rl ;; ret (DLit l)
  else fail.
Definition read_literal_ (some : rd literal) (t : ty) : rd literal :=
  v <- read_u8 ;;
  match lcode_of v with
  | Some LIT_STR =>
      match t with TString => s <- read_string ;; ret (LString s) | _ => fail end
  | Some LIT_INT =>
      ds <- read_string ;; match int_lit t ds with Some l => ret l | None => fail end
  | Some LIT_FLOAT =>
      match t with
      | TF32 | TF64 => s <- read_string ;; ret (LFloat s t)
      | _ => fail
      end
  | Some LIT_BOOL => b <- read_bool ;; ret (LBool b)
  | Some LIT_NONE => match t with TOption _ => ret LNone | _ => fail end
  | Some LIT_SOME => some
  | Some LIT_EMPTY_SEQ => ret LEmptySeq
  | Some LIT_EMPTY_MAP => ret LEmptyMap
  | Some LIT_EMPTY_SET => ret LEmptySet
  | None => fail
  end.
Fixpoint read_literal (t : ty) : rd literal :=
  match t with
  | TCustom _ _ (TOption u) as t' =>
      read_literal_ (x <- read_default_ (read_literal u) ;; ret (LSome x)) (unwrap_custom t')
  | TOption u => read_literal_ (x <- read_default_ (read_literal u) ;; ret (LSome x)) t
  | _ => read_literal_ fail (unwrap_custom t)
  end.
Definition read_default (t : ty) : rd default := read_default_ (read_literal t).
(** l.549-559 [read_optional_default], l.571-577 [read_optional_literal]. *)
Definition read_opt_default (t : ty) : rd (option default) :=
  b <- read_bool ;; if (b : bool) then x <- read_default t ;; ret (Some x) else ret None.
Definition read_opt_literal (t : ty) : rd (option literal) :=
  b <- read_bool ;; if (b : bool) then x <- read_literal t ;; ret (Some x) else ret None.

(** [(0..len).map(..).collect()] *)
Fixpoint read_n {A} (n : nat) (p : rd A) : rd (list A) :=
  match n with
  | O => ret []
  | S n => x <- p ;; l <- read_n n p ;; ret (x :: l)
  end.
Definition read_list {A} (p : rd A) : rd (list A) :=
  v <- read_u8 ;; read_n (N.to_nat (b2n v)) p.

(** l.532-541 [read_pass_by]. *)
Definition read_pass_by : rd pass_by :=
  a <- read_bool ;; b <- read_bool ;;
  match a, b with
  | false, false => ret ByValue
  | true, false => ret ByRef
  | true, true => ret ByMutRef
  | false, true => fail
  end.
(** l.513-530 [read_inputs]. *)
Definition read_param (d : nat) : rd param :=
  n <- read_string ;; t <- read_type d ;; p <- read_pass_by ;; x <- read_opt_default t ;;
  ret (Param n t p x).
(** l.464-481 [read_fields]. *)
Definition read_field (d : nat) : rd field :=
  n <- read_string ;; o <- read_opt_string ;; t <- read_type d ;; x <- read_opt_default t ;;
  c <- read_opt_long_string ;; ret (Field n o t x c).
(** l.483-496 [read_variants]. *)
Definition read_variant (d : nat) : rd variant :=
  n <- read_string ;; o <- read_opt_string ;; x <- read_opt_literal TU64 ;;
  fs <- read_list (read_field d) ;; c <- read_opt_long_string ;; ret (Variant n o x fs c).
(** l.498-511 [read_flat_variants]. *)
Definition read_flat_variant : rd variant :=
  n <- read_string ;; o <- read_opt_string ;; c <- read_opt_long_string ;;
  ret (Variant n o None [] c).

(** l.543-547 [calc_checksum]: over the data read so far; [init] is all the data. *)
Definition checksum_so_far (init : bytes) : rd (option Z) :=
  fun b => Ok (Some (calc_checksum (firstn (length init - length b) init)), b).

(** The common tail of l.243-262, l.264-298, l.300-322, l.431-455. *)
Definition read_fn_tail (d : nat) (init mp n : bytes) : rd fn_meta :=
  o <- read_opt_string ;; a <- read_bool ;; ps <- read_list (read_param d) ;;
  rt <- read_return_type d ;; c <- read_opt_long_string ;; cs <- checksum_so_far init ;;
  ret (Fn mp n o a ps (fst rt) (snd rt) cs c).

(** l.281-292: the check on a constructor's return type. *)
Definition is_self (self : str) (t : option ty) : bool :=
  match t with
  | Some (TObject _ n IStruct) => bytes_eqb n self
  | _ => false
  end.
Definition drop_ret (f : fn_meta) : fn_meta :=
  Fn (f_mp f) (f_name f) (f_orig f) (f_async f) (f_inputs f) None (f_throws f) (f_checksum f)
     (f_doc f).

(** l.300-322 [read_method]. *)
Definition read_method (d : nat) (init : bytes) : rd (str * fn_meta) :=
  mp <- read_string ;; s <- read_string ;; n <- read_string ;;
  f <- read_fn_tail d init mp n ;; ret (s, f).
(** l.397-401 [read_metadata_method]. *)
Definition read_metadata_method (d : nat) (init : bytes) : rd (str * fn_meta) :=
  v <- read_u8 ;;
  match icode_of v with Some METHOD => read_method d init | _ => fail end.
(** l.395-421 [read_uniffi_trait]. *)
Definition read_utrait (d : nat) (init : bytes) : rd utrait :=
  v <- read_u8 ;;
  match v with
  | x00 => m <- read_metadata_method d init ;; ret (UTDebug (fst m) (snd m))
  | x01 => m <- read_metadata_method d init ;; ret (UTDisplay (fst m) (snd m))
  | x02 => m <- read_metadata_method d init ;; m' <- read_metadata_method d init ;;
           ret (UTEq (fst m) (snd m) (fst m') (snd m'))
  | x03 => m <- read_metadata_method d init ;; ret (UTHash (fst m) (snd m))
  | x04 => m <- read_metadata_method d init ;; ret (UTOrd (fst m) (snd m))
  | _ => fail
  end.
(** l.372-381 [read_object]. *)
Definition read_object : rd object_meta :=
  mp <- read_string ;; n <- read_string ;; o <- read_opt_string ;; c <- read_opt_long_string ;;
  ret (Obj mp n o IStruct c).

(** l.37-69 [read_metadata], with the functions l.243-462 it calls. *)
Definition read_item (d : nat) (init : bytes) : rd metadata :=
  v <- read_u8 ;;
  match icode_of v with
  | Some NAMESPACE => a <- read_string ;; b <- read_string ;; ret (MNamespace a b)
  | Some UDL_FILE =>
      a <- read_string ;; b <- read_string ;; c <- read_string ;; ret (MUdlFile a b c)
  | Some FUNC =>
      mp <- read_string ;; n <- read_string ;; f <- read_fn_tail d init mp n ;; ret (MFunc f)
  | Some CONSTRUCTOR =>
      mp <- read_string ;; s <- read_string ;; n <- read_string ;;
      f <- read_fn_tail d init mp n ;;
      if is_self s (f_ret f) then ret (MConstructor s (drop_ret f)) else fail
  | Some METHOD => m <- read_method d init ;; ret (MMethod (fst m) (snd m))
  | Some RECORD =>
      mp <- read_string ;; n <- read_string ;; o <- read_opt_string ;;
      fs <- read_list (read_field d) ;; c <- read_opt_long_string ;;
      ret (MRecord (Rec mp n o fs c))
  | Some ENUM =>
      mp <- read_string ;; n <- read_string ;; o <- read_opt_string ;; sv <- read_u8 ;;
      match shape_of sv with
      | None => fail
      | Some sh =>
          h <- read_bool ;;
          t <- (if (h : bool) then t <- read_type d ;; ret (Some t) else ret None) ;;
          vs <- read_list (match sh with
                           | ShError true => read_flat_variant
                           | _ => read_variant d
                           end) ;;
          ne <- read_bool ;; c <- read_opt_long_string ;;
          ret (MEnum (Enum mp n o sh t vs ne c))
      end
  | Some INTERFACE => o <- read_object ;; ret (MObject o)
  | Some TRAIT_INTERFACE =>
      o <- read_object ;; k <- read_trait_kind ;;
      ret (MObject (Obj (o_mp o) (o_name o) (o_orig o) (ITrait k) (o_doc o)))
  | Some CALLBACK_INTERFACE =>
      mp <- read_string ;; n <- read_string ;; c <- read_opt_long_string ;; ret (MCallback mp n c)
  | Some TRAIT_METHOD =>
      mp <- read_string ;; t <- read_string ;; i <- read_u32 ;; n <- read_string ;;
      f <- read_fn_tail d init mp n ;; ret (MTraitMethod t i f)
  | Some UNIFFI_TRAIT => u <- read_utrait d init ;; ret (MUniffiTrait u)
  | Some OBJECT_TRAIT_IMPL => t <- read_type d ;; u <- read_type d ;; ret (MTraitImpl t u)
  | Some CUSTOM_TYPE =>
      mp <- read_string ;; n <- read_string ;; t <- read_type d ;; c <- read_opt_long_string ;;
      ret (MCustom mp n t c)
  | None => fail
  end.

(** l.14-32 [MetadataReader::new], l.20 [read_metadata]: the data starts at the symbol's offset and
    goes on to the end of the file (uniffi_bindgen/src/macro_metadata/extract.rs l.260-268).  The bytes
    not consumed are part of the model's result only, to state properties. *)
Definition read (d : nat) (data : bytes) : res (metadata * bytes) := read_item d data data.
