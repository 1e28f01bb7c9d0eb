(** Default values: reading them from UDL and writing them in the bindings' languages. *)
From Verif Require Import Base Meta_Types Meta_Model Lit_Spec.
Local Open Scope Z_scope.

(** * Formatting of integers *)

(** Rust's [{i}], [{i:o}] and [{i:#x}] for a [u64] or [i64]: the digits of a number that is not
    negative, most significant first. *)
Definition digit_byte (d : Z) : byte :=
  n2b (Z.to_N (if d <? 10 then 48 + d else 87 + d)).
Fixpoint fmt_ (fuel : nat) (b n : Z) (acc : bytes) : bytes :=
  match fuel with
  | O => acc
  | S f =>
      let acc := digit_byte (n mod b) :: acc in
      if n <? b then acc else fmt_ f b (n / b) acc
  end.
Definition fmt (b n : Z) : bytes := fmt_ (S (Z.to_nat (Z.log2 n))) b n [].
(** [{i}] *)
Definition show_dec (z : Z) : bytes := if z <? 0 then x2d :: fmt 10 (- z) else fmt 10 z.
(** [{i:#x}] and [{i:o}]: negative numbers are shown as their two's complement. *)
Definition show_hex (z : Z) : bytes := S_ "0x" ++ fmt 16 (z mod 2 ^ 64).
Definition show_oct (z : Z) : bytes := fmt 8 (z mod 2 ^ 64).

(** [format!("\"{s}\"")] *)
Definition quoted (s : bytes) : bytes := x22 :: s ++ [x22].

(** * UDL: uniffi_udl/src/literal.rs *)

(** [i64::from_str_radix]/[u64::from_str_radix]: an optional sign (a minus only if signed), at least
    one digit, in either case; overflow is an error. *)
Definition from_str_radix (sg : bool) (b : Z) (s : bytes) : option Z :=
  let (lo, hi) := if sg then (- 2 ^ 63, 2 ^ 63 - 1) else (0, 2 ^ 64 - 1) in
  match
    match strip (S_ "+") s with
    | Some r => number b r
    | None =>
        match strip (S_ "-") s with
        | Some r => if sg then option_map Z.opp (number b r) else None
        | None => number b s
        end
    end
  with
  | Some z => if (lo <=? z) && (z <=? hi) then Some z else None
  | None => None
  end.
(** [trim_start_matches("0x")]: as often as it matches. *)
Fixpoint trim_0x (fuel : nat) (s : bytes) : bytes :=
  match fuel with
  | O => s
  | S f => match strip (S_ "0x") s with Some r => trim_0x f r | None => s end
  end.
(** [to_lowercase], on ASCII letters (the texts are tokens of digits). *)
Definition lower (c : byte) : byte :=
  let n := Z.of_N (b2n c) in if (65 <=? n) && (n <=? 90) then n2b (Z.to_N (n + 32)) else c.
Definition token_text (k : int_token) : bytes * radix :=
  match k with
  | TokDec s => (s, Decimal_) | TokHex s => (s, Hexadecimal_) | TokOct s => (s, Octal_)
  end.
Definition radix_z (r : radix) : Z :=
  match r with Decimal_ => 10 | Octal_ => 8 | Hexadecimal_ => 16 end.
(** l.16-55 [convert_integer]. *)
Definition convert_integer (k : int_token) (t : ty) : option literal :=
  let (s, r) := token_text k in
  let minus := strip (S_ "-") s in
  let dest := if bytes_eqb s (S_ "0") || is_some minus then Decimal_ else r in
  let s' :=
    map lower
      match minus with
      | Some r' => S_ "-" ++ trim_0x (length r') r'
      | None => trim_0x (length s) s
      end in
  match t with
  | TI8 | TI16 | TI32 | TI64 =>
      match from_str_radix true (radix_z r) s' with
      | Some z => Some (LInt z dest t)
      | None => None
      end
  | TU8 | TU16 | TU32 | TU64 =>
      match from_str_radix false (radix_z r) s' with
      | Some z => Some (LUInt z dest t)
      | None => None
      end
  | _ => None
  end.
(** l.57-68 [convert_float]. *)
Definition convert_float (s : str) (t : ty) : option literal :=
  match t with TF32 | TF64 => Some (LFloat s t) | _ => None end.
(** l.12-104 [convert_default_value]; the arms in the order of the [match]. *)
Fixpoint convert_default (u : udl) (t : ty) : option literal :=
  match u, t with
  | UBool b, TBool => Some (LBool b)
  | UString s, TString => Some (LString s)
  | UEmptyArray, TSeq _ => Some LEmptySeq
  | UEmptyDictionary, TMap _ _ => Some LEmptyMap
  | UString s, TEnum _ _ => Some (LEnum s t)
  | UNull, TOption _ => Some LNone
  | _, TOption t' =>
      match convert_default u t' with Some l => Some (LSome (DLit l)) | None => None end
  | UInteger k, _ => convert_integer k t
  | UFloat s, _ => convert_float s t
  | _, _ => None
  end.

(** * Python: uniffi_bindgen/src/bindings/python/pipeline/default.rs *)

(** l.24-54 [render_default] for the natural default of a type.  Simplification: class names come
    from [N] ([types::type_name]). *)
Fixpoint py_natural (N : names) (t : ty) : option bytes :=
  match t with
  | TU8 | TU16 | TU32 | TU64 | TI8 | TI16 | TI32 | TI64 => Some (S_ "0")
  | TF32 | TF64 => Some (S_ "0.0")
  | TBool => Some (S_ "False")
  | TBytes => Some (S_ "b""""")
  | TString => Some (S_ """""")
  | TRecord mp n | TEnum mp n | TObject mp n _ | TCallback mp n =>
      Some (n_class N mp n ++ S_ "()")
  | TOption _ => Some (S_ "None")
  | TMap _ _ => Some (S_ "{}")
  | TSeq _ => Some (S_ "[]")
  | TSet _ => Some (S_ "{*()}")
  | TCustom _ _ b => py_natural N b
  | _ => None
  end.
Definition py_int_text (z : Z) (r : radix) : bytes :=
  match r with
  | Octal_ => S_ "int(0o" ++ show_oct z ++ S_ ")"
  | Decimal_ => show_dec z
  | Hexadecimal_ => show_hex z
  end.
Definition uint_text (z : Z) (r : radix) : bytes :=
  match r with
  | Octal_ => S_ "0o" ++ show_oct z
  | Decimal_ => show_dec z
  | Hexadecimal_ => show_hex z
  end.
(** l.61-97 [render_literal].  [t] is the type of the argument or field: the natural default inside
    [Some] is that of [t] itself (uniffi_bindgen/src/pipeline/general/default.rs l.7-17).  The name of
    an enum is not put through [names::type_name]. *)
Fixpoint py_literal (N : names) (t : ty) (l : literal) : option bytes :=
  match l with
  | LBool true => Some (S_ "True")
  | LBool false => Some (S_ "False")
  | LString s => Some (quoted s)
  | LInt z r _ => Some (py_int_text z r)
  | LUInt z r _ => Some (uint_text z r)
  | LFloat s _ => Some s
  | LEmptySeq => Some (S_ "[]")
  | LEmptyMap => Some (S_ "{}")
  | LEmptySet => Some (S_ "{*()}")
  | LNone => Some (S_ "None")
  | LSome (DLit l') => py_literal N t l'
  | LSome DDefault => py_natural N t
  | LEnum v (TEnum _ n) => Some (n ++ S_ "." ++ n_variant N v)
  | LEnum _ _ => None
  end.
Definition py_default (N : names) (t : ty) (d : default) : option bytes :=
  match d with DDefault => py_natural N t | DLit l => py_literal N t l end.
(** l.7-22 [can_use_literal]. *)
Fixpoint can_use_literal (l : literal) : bool :=
  match l with
  | LBool _ | LString _ | LUInt _ _ _ | LInt _ _ _ | LFloat _ _ | LEnum _ _ => true
  | LSome (DLit l') => can_use_literal l'
  | _ => false
  end.
(** l.99-125 [arg_literal]. *)
Definition arg_literal (N : names) (t : ty) (d : default) : option bytes :=
  match d with
  | DDefault =>
      match t with
      | TU8 | TU16 | TU32 | TU64 | TI8 | TI16 | TI32 | TI64 | TF32 | TF64
      | TBool | TBytes | TString | TOption _ => py_default N t d
      | _ => Some (S_ "_DEFAULT")
      end
  | DLit l => if can_use_literal l then py_default N t d else Some (S_ "_DEFAULT")
  end.

(** A generated Python function or [__init__] with one defaulted parameter:
    templates/CallableArgs.py l.4, CallableBody.py l.1-7 and RecordTemplate.py l.6-24.  The
    expression after [=] is evaluated once, when the function is defined; the one in the body at
    each call. *)
Definition py_run (s : bytes) (next : Z) : option (pobj * Z) :=
  if bytes_eqb s (S_ "_DEFAULT") then Some (Sentinel, next)
  else match py_eval s with
       | Some v => if mutable v then Some (Object_ next v, next + 1) else Some (Plain v, next)
       | None => None
       end.
Record pyfun := PyFun { pf_arg : bytes; pf_body : option bytes; pf_stored : pobj }.
Definition py_define (N : names) (t : ty) (d : default) (next : Z) : option (pyfun * Z) :=
  match py_default N t d, arg_literal N t d with
  | Some full, Some arg =>
      match py_run arg next with
      | Some (o, next') =>
          Some (PyFun arg (if bytes_eqb full arg then None else Some full) o, next')
      | None => None
      end
  | _, _ => None
  end.
(** A call, with the argument or without. *)
Definition py_call (f : pyfun) (arg : option pobj) (next : Z) : option (pobj * Z) :=
  let o := match arg with Some o => o | None => pf_stored f end in
  match pf_body f with
  | Some full => match o with Sentinel => py_run full next | _ => Some (o, next) end
  | None => Some (o, next)
  end.
(** The objects received by calls one after the other. *)
Fixpoint py_calls (f : pyfun) (args : list (option pobj)) (next : Z) : option (list pobj) :=
  match args with
  | [] => Some []
  | a :: r =>
      match py_call f a next with
      | Some (o, next') => option_map (cons o) (py_calls f r next')
      | None => None
      end
  end.
(** templates/CallableArgs.py: the parameters in the order of the arguments, each with its default if
    it has one. *)
Definition py_params (args : list param) : list bool :=
  map (fun p => match p_default p with Some _ => true | None => false end) args.

(** * Kotlin: uniffi_bindgen/src/bindings/kotlin/gen_kotlin *)

Definition unwrap_option (t : ty) : ty := match t with TOption u => u | _ => t end.
(** primitives.rs l.13-29 [typed_number]. *)
Definition kt_number (t : ty) (s : bytes) : option bytes :=
  match unwrap_option t with
  | TI8 | TI16 | TI32 => Some s
  | TI64 => Some (s ++ S_ "L")
  | TU8 | TU16 | TU32 => Some (s ++ S_ "u")
  | TU64 => Some (s ++ S_ "uL")
  | TF32 => Some (s ++ S_ "f")
  | TF64 => Some s
  | _ => None
  end.
Definition kt_int_text (z : Z) (r : radix) : bytes :=
  match r with Decimal_ => show_dec z | _ => show_hex z end.
(** primitives.rs l.12-54 [render_literal]. *)
Definition kt_literal (l : literal) : option bytes :=
  match l with
  | LBool b => Some (if b then S_ "true" else S_ "false")
  | LString s => Some (quoted s)
  | LInt z r t => kt_number t (kt_int_text z r)
  | LUInt z r t => kt_number t (kt_int_text z r)
  | LFloat s t => kt_number t s
  | _ => None
  end.
(** primitives.rs l.80-92: the natural defaults. *)
Definition kt_natural (t : ty) : option bytes :=
  match t with
  | TBool => Some (S_ "false")
  | TString => Some (S_ """""")
  | TBytes => Some (S_ "byteArrayOf()")
  | TI8 => Some (S_ "0.toByte()")
  | TI16 | TI32 => Some (S_ "0")
  | TI64 => Some (S_ "0L")
  | TU8 | TU16 | TU32 => Some (S_ "0U")
  | TU64 => Some (S_ "0UL")
  | TF32 => Some (S_ "0.0f")
  | TF64 => Some (S_ "0.0")
  | _ => None
  end.
(** The [default] methods of the code types: primitives.rs l.69-74, compounds.rs, enum_.rs l.32-42,
    custom.rs l.29-33, mod.rs l.42-47 (named types), mod.rs l.657 (boxes).  Timestamps and durations
    (miscellany.rs) have the method of the named types. *)
Fixpoint kt_default (N : names) (t : ty) (d : default) : option bytes :=
  match t with
  | TBool | TString | TBytes | TI8 | TI16 | TI32 | TI64 | TU8 | TU16 | TU32 | TU64 | TF32 | TF64 =>
      match d with DDefault => kt_natural t | DLit l => kt_literal l end
  | TOption u =>
      match d with
      | DDefault | DLit LNone => Some (S_ "null")
      | DLit (LSome d') => kt_default N u d'
      | _ => None
      end
  | TSeq _ => match d with DDefault | DLit LEmptySeq => Some (S_ "listOf()") | _ => None end
  | TMap _ _ => match d with DDefault | DLit LEmptyMap => Some (S_ "mapOf()") | _ => None end
  | TSet _ => match d with DDefault | DLit LEmptySeq => Some (S_ "setOf()") | _ => None end
  | TEnum mp n =>
      match d with
      | DLit (LEnum v _) => Some (n_class N mp n ++ S_ "." ++ n_variant N v)
      | _ => None
      end
  | TCustom _ _ b => kt_default N b d
  | TBox u => kt_default N u d
  | TRecord mp n | TObject mp n _ | TCallback mp n =>
      match d with DDefault => Some (n_class N mp n ++ S_ "()") | _ => None end
  | TTimestamp => match d with DDefault => Some (S_ "java.time.Instant()") | _ => None end
  | TDuration => match d with DDefault => Some (S_ "java.time.Duration()") | _ => None end
  end.

(** * Kotlin over JNI: uniffi-bindgen-kotlin-jni/src/pipeline/defaults.rs *)

(** l.30-57 [render_type_default]. *)
Fixpoint jni_natural (N : names) (t : ty) : option bytes :=
  match t with
  | TU8 => Some (S_ "0.toUByte()")
  | TI8 => Some (S_ "0.toByte()")
  | TU16 => Some (S_ "0.toUShort()")
  | TI16 => Some (S_ "0.toShort()")
  | TU32 => Some (S_ "0u")
  | TI32 => Some (S_ "0")
  | TU64 => Some (S_ "0uL")
  | TI64 => Some (S_ "0L")
  | TF32 => Some (S_ "0.0f")
  | TF64 => Some (S_ "0.0")
  | TBool => Some (S_ "false")
  | TBytes => Some (S_ "byteArrayOf()")
  | TString => Some (S_ """""")
  | TRecord mp n | TEnum mp n | TObject mp n _ | TCallback mp n =>
      Some (n_class N mp n ++ S_ "()")
  | TOption _ => Some (S_ "null")
  | TMap _ _ => Some (S_ "emptyMap()")
  | TSeq _ => Some (S_ "emptyList()")
  | TCustom _ _ b => jni_natural N b
  | _ => None
  end.
(** l.63 [s.replace('"', "\\\"")]. *)
Definition escape_quotes (s : bytes) : bytes :=
  flat_map (fun c => if byte_eqb c x22 then [x5c; x22] else [c]) s.
Definition jni_number (t : ty) (s : bytes) : option bytes :=
  match t with
  | TI8 => Some (s ++ S_ ".toByte()") | TU8 => Some (s ++ S_ ".toUByte()")
  | TI16 => Some (s ++ S_ ".toShort()") | TU16 => Some (s ++ S_ ".toUShort()")
  | TI32 => Some s | TU32 => Some (s ++ S_ "u")
  | TI64 => Some (s ++ S_ "L") | TU64 => Some (s ++ S_ "uL")
  | _ => None
  end.
(** l.59-115 [render_lit]; the natural default inside [Some] as for Python. *)
Fixpoint jni_literal (N : names) (t : ty) (l : literal) : option bytes :=
  match l with
  | LBool b => Some (if b then S_ "true" else S_ "false")
  | LString s => Some (quoted (escape_quotes s))
  | LUInt z _ t' | LInt z _ t' => jni_number t' (show_dec z)
  | LFloat s t' =>
      let s := if existsb (byte_eqb x2e) s then s else s ++ S_ ".0" in
      match t' with TF32 => Some (s ++ S_ "f") | TF64 => Some s | _ => None end
  | LEnum v (TEnum mp n) => Some (n_class N mp n ++ S_ "." ++ n_variant N v)
  | LEnum _ _ => None
  | LEmptySeq => Some (S_ "emptyList()")
  | LEmptyMap => Some (S_ "emptyMap()")
  | LEmptySet => Some (S_ "emptySet()")
  | LNone => Some (S_ "null")
  | LSome (DLit l') => jni_literal N t l'
  | LSome DDefault => jni_natural N t
  end.
Definition jni_default (N : names) (t : ty) (d : default) : option bytes :=
  match d with DDefault => jni_natural N t | DLit l => jni_literal N t l end.

(** * Swift: uniffi_bindgen/src/bindings/swift/gen_swift *)

(** primitives.rs l.84-96: labels and natural defaults. *)
Definition sw_label (t : ty) : bytes :=
  match t with
  | TI8 => S_ "Int8" | TU8 => S_ "UInt8" | TI16 => S_ "Int16" | TU16 => S_ "UInt16"
  | TI32 => S_ "Int32" | TU32 => S_ "UInt32" | TI64 => S_ "Int64" | TU64 => S_ "UInt64"
  | TF32 => S_ "Float" | TF64 => S_ "Double" | TBool => S_ "Bool" | TString => S_ "String"
  | _ => S_ "Data"
  end.
Definition sw_natural (t : ty) : option bytes :=
  match t with
  | TBool => Some (S_ "false")
  | TString => Some (S_ """""")
  | TBytes => Some (S_ "Data([])")
  | TI8 => Some (S_ "Int8(0)") | TI16 => Some (S_ "Int16(0)")
  | TI32 => Some (S_ "0") | TI64 => Some (S_ "Int64(0)")
  | TU8 => Some (S_ "UInt8(0)") | TU16 => Some (S_ "UInt16(0)")
  | TU32 => Some (S_ "UInt32(0)") | TU64 => Some (S_ "UInt64(0)")
  | TF32 => Some (S_ "Float(0)") | TF64 => Some (S_ "Double(0)")
  | _ => None
  end.
(** primitives.rs l.13-39 [typed_number].  Simplification: a literal whose own type is optional (no
    front end makes one) is refused here; the code would write [Label?(…)]. *)
Definition sw_number (t : ty) (s : bytes) : option bytes :=
  match t with
  | TI32 => Some s
  | TI8 | TU8 | TI16 | TU16 | TU32 | TI64 | TU64 | TF32 | TF64 =>
      Some (sw_label t ++ S_ "(" ++ s ++ S_ ")")
  | _ => None
  end.
(** primitives.rs l.41-62 [render_literal]. *)
Definition sw_literal (l : literal) : option bytes :=
  match l with
  | LBool b => Some (if b then S_ "true" else S_ "false")
  | LString s => Some (quoted s)
  | LInt z r t => sw_number t (uint_text z r)
  | LUInt z r t => sw_number t (uint_text z r)
  | LFloat s t => sw_number t s
  | _ => None
  end.
(** The [default] methods: primitives.rs l.75-80, compounds.rs, enum_.rs l.32-38, custom.rs l.28-32,
    mod.rs l.46-51. *)
Fixpoint sw_default (N : names) (t : ty) (d : default) : option bytes :=
  match t with
  | TBool | TString | TBytes | TI8 | TI16 | TI32 | TI64 | TU8 | TU16 | TU32 | TU64 | TF32 | TF64 =>
      match d with DDefault => sw_natural t | DLit l => sw_literal l end
  | TOption u =>
      match d with
      | DDefault | DLit LNone => Some (S_ "nil")
      | DLit (LSome d') => sw_default N u d'
      | _ => None
      end
  | TSeq _ => match d with DDefault | DLit LEmptySeq => Some (S_ "[]") | _ => None end
  | TMap _ _ => match d with DDefault | DLit LEmptyMap => Some (S_ "[:]") | _ => None end
  | TSet _ => match d with DDefault | DLit LEmptySeq => Some (S_ "Set()") | _ => None end
  | TEnum _ _ =>
      match d with DLit (LEnum v _) => Some (S_ "." ++ n_variant N v) | _ => None end
  | TCustom _ _ b => sw_default N b d
  | TBox u => sw_default N u d
  | TRecord mp n | TObject mp n _ | TCallback mp n =>
      match d with DDefault => Some (n_class N mp n ++ S_ "()") | _ => None end
  | TTimestamp => match d with DDefault => Some (S_ "Date()") | _ => None end
  | TDuration => match d with DDefault => Some (S_ "TimeInterval()") | _ => None end
  end.

(** * Ruby: uniffi_bindgen/src/bindings/ruby/gen_ruby/mod.rs *)

(** l.299-328 [type_zero_value_rb]. *)
Fixpoint rb_natural (N : names) (t : ty) : option bytes :=
  match t with
  | TU8 | TU16 | TU32 | TU64 | TI8 | TI16 | TI32 | TI64 => Some (S_ "0")
  | TF32 | TF64 => Some (S_ "0.0")
  | TBool => Some (S_ "false")
  | TString => Some (S_ """""")
  | TOption _ => Some (S_ "nil")
  | TSeq _ => Some (S_ "[]")
  | TBytes => Some (S_ """"".b")
  | TMap _ _ => Some (S_ "{}")
  | TSet _ => Some (S_ "Set.new")
  | TRecord mp n | TObject mp n _ => Some (n_class N mp n ++ S_ ".new")
  | TCustom _ _ b => rb_natural N b
  | _ => None
  end.
(** l.254-297 [literal_rb_inner] and [default_rb_inner], whose [unimplemented!] is [None]. *)
Fixpoint rb_literal (N : names) (l : literal) : option bytes :=
  match l with
  | LBool b => Some (if b then S_ "true" else S_ "false")
  | LString s => Some (quoted s)
  | LNone => Some (S_ "nil")
  | LSome (DLit l') => rb_literal N l'
  | LSome DDefault => None
  | LEmptySeq => Some (S_ "[]")
  | LEmptyMap => Some (S_ "{}")
  | LEmptySet => Some (S_ "Set.new")
  | LEnum v (TEnum mp n) => Some (n_class N mp n ++ S_ "::" ++ n_variant N v)
  | LEnum _ _ => None
  | LInt z r _ => Some (uint_text z r)
  | LUInt z r _ => Some (uint_text z r)
  | LFloat s _ => Some s
  end.
(** l.331-356 [field_default_rb] and [arg_default_rb]. *)
Definition rb_default (N : names) (t : ty) (d : default) : option bytes :=
  match d with DDefault => rb_natural N t | DLit l => rb_literal N l end.
