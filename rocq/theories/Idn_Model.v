(** The names the generators give to functions, variables, types and variants in Kotlin, Swift,
    Python and Ruby. *)
From Coq Require Export String Ascii List Bool Arith NArith Lia.
Export ListNotations.
Open Scope string_scope.
Open Scope list_scope.

(** Names are lists of ASCII characters.  (Rust allows other letters in names too; those are left out
    of the model.) *)
Definition text := list ascii.
Definition t (s : string) : text := list_ascii_of_string s.

(** [char::is_lowercase], [is_uppercase], [is_numeric], [is_alphanumeric], [to_lowercase],
    [to_uppercase] of the Rust standard library on ASCII characters. *)
Definition between (a b : N) (c : ascii) : bool := ((a <=? N_of_ascii c) && (N_of_ascii c <=? b))%N.
Definition is_lower (c : ascii) : bool := between 97 122 c.
Definition is_upper (c : ascii) : bool := between 65 90 c.
Definition is_digit (c : ascii) : bool := between 48 57 c.
Definition is_alnum (c : ascii) : bool := is_lower c || is_upper c || is_digit c.
Definition to_lower (c : ascii) : ascii := if is_upper c then ascii_of_N (N_of_ascii c + 32) else c.
Definition to_upper (c : ascii) : ascii := if is_lower c then ascii_of_N (N_of_ascii c - 32) else c.

(** * The crate heck

    All names are changed by version 0.5 of the crate heck, a dependency (uniffi_bindgen/Cargo.toml
    l.29) whose source is not in /repo.  This models its function [transform]: the name is split at
    characters that are not letters or digits; within a piece a word ends before a capital that
    follows a small letter (digits between them belong to the first word), and before the last of
    several capitals if a small letter follows it. *)
Inductive mode := Boundary | Lowercase | Uppercase.
Definition mode_eqb (a b : mode) : bool :=
  match a, b with
  | Boundary, Boundary | Lowercase, Lowercase | Uppercase, Uppercase => true
  | _, _ => false
  end.
Fixpoint piece_words (m : mode) (word : text) (l : text) : list text :=
  match l with
  | [] => []
  | c :: rest =>
    match rest with
    | [] => [word ++ [c]]
    | next :: _ =>
        let m' := if is_lower c then Lowercase else if is_upper c then Uppercase else m in
        if mode_eqb m' Lowercase && is_upper next then (word ++ [c]) :: piece_words Boundary [] rest
        else if mode_eqb m Uppercase && is_upper c && is_lower next then
          word :: piece_words Boundary [c] rest
        else piece_words m' (word ++ [c]) rest
    end
  end.
Fixpoint pieces (piece : text) (l : text) : list text :=
  match l with
  | [] => [piece]
  | c :: l => if is_alnum c then pieces (piece ++ [c]) l else piece :: pieces [] l
  end.
Definition words (n : text) : list text := flat_map (piece_words Boundary []) (pieces [] n).

Definition lowercase (w : text) : text := map to_lower w.
Definition uppercase (w : text) : text := map to_upper w.
Definition capitalize (w : text) : text :=
  match w with [] => [] | c :: w => to_upper c :: lowercase w end.
Fixpoint join (sep : text) (ws : list text) : text :=
  match ws with [] => [] | [w] => w | w :: ws => w ++ sep ++ join sep ws end.
Definition to_snake_case (n : text) : text := join (t "_") (map lowercase (words n)).
Definition to_shouty_snake_case (n : text) : text := join (t "_") (map uppercase (words n)).
Definition to_upper_camel_case (n : text) : text := concat (map capitalize (words n)).
Definition to_lower_camel_case (n : text) : text :=
  match words n with [] => [] | w :: ws => lowercase w ++ concat (map capitalize ws) end.

Definition text_eqb (a b : text) : bool := if list_eq_dec ascii_dec a b then true else false.
Definition listed (n : text) (l : list text) : bool := existsb (text_eqb n) l.
Definition quoted (n : text) : text := t "`" ++ n ++ t "`".
Fixpoint strip_suffix (suffix n : text) : option text :=
  if text_eqb n suffix then Some []
  else match n with
       | [] => None
       | c :: n => match strip_suffix suffix n with Some s => Some (c :: s) | None => None end
       end.

(** * Kotlin: uniffi_bindgen/src/bindings/kotlin/gen_kotlin/mod.rs *)
(** l.465-470 [convert_error_suffix]. *)
Definition convert_error_suffix (n : text) : text :=
  match strip_suffix (t "Error") n with Some s => s ++ t "Exception" | None => n end.
(** l.454-463 [class_name]; [err]: whether [is_name_used_as_error] holds of the name. *)
Definition kt_class_name (err : bool) (n : text) : text :=
  let n := to_upper_camel_case n in if err then convert_error_suffix n else n.
(** l.472-485 [fn_name], [var_name]. *)
Definition kt_fn_name (n : text) : text := quoted (to_lower_camel_case n).
Definition kt_var_name (n : text) : text := quoted (to_lower_camel_case n).
(** l.487-490 [enum_variant_name]; l.971-978 [error_variant_name]. *)
Definition kt_enum_variant_name (n : text) : text := to_shouty_snake_case n.
Definition kt_error_variant_name (n : text) : text := convert_error_suffix (to_upper_camel_case n).
(** l.492-500 [ffi_callback_name], [ffi_struct_name]. *)
Definition kt_ffi_struct_name (n : text) : text := t "Uniffi" ++ to_upper_camel_case n.
(** l.395-402 [object_interface_name], l.435-443 [object_impl_name]: the interface and the class of an
    object; [callback]: whether the trait can be implemented in Kotlin. *)
Definition kt_object_names (err callback : bool) (n : text) : text * text :=
  let c := kt_class_name err n in
  if callback then (c, c ++ t "Impl") else (c ++ t "Interface", c).

(** gen_kotlin/enum_.rs l.32-42 [default]: a variant as the default of an argument or field. *)
Definition kt_default_variant (err : bool) (ty v : text) : text * text :=
  (kt_class_name err ty, kt_enum_variant_name v).
(** templates/EnumTemplate.kt l.13-16 and l.27-30: an enum without data; l.68-78: an enum with data, where
    a variant is a class and [err_v] is whether a type of the name of the variant is used as an error. *)
Definition kt_declared_variant (data err err_v : bool) (ty v : text) : text * text :=
  (kt_class_name err ty, if data then kt_class_name err_v v else kt_enum_variant_name v).

(** * Kotlin over JNI: uniffi-bindgen-kotlin-jni/src/pipeline *)
(** names.rs l.11-19 [class_name_kt]. *)
Definition jni_class_name (err : bool) (n : text) : text :=
  let n := to_upper_camel_case n in quoted (if err then convert_error_suffix n else n).
(** callables.rs l.262-264 and l.419-425, records.rs l.71-77 [name_kt]. *)
Definition jni_fn_name (n : text) : text := quoted (to_lower_camel_case n).
Definition jni_var_name (n : text) : text := quoted (to_lower_camel_case n).
(** enums.rs l.158-167 [variant_name_kt], a variant of an enum without data. *)
Definition jni_enum_variant_name (n : text) : text := quoted (to_shouty_snake_case n).
(** callbacks.rs l.80-89 [interface_for_callback_interface] changes the name, and interfaces.rs l.62-66
    [name_kt] changes it again where the interface is declared. *)
Definition jni_callback_declared (n : text) : text :=
  quoted (to_upper_camel_case (to_upper_camel_case n)).
(** types.rs l.136-146 [type_kt]: the name where the type is used. *)
Definition jni_type_used (n : text) : text := jni_class_name false n.

(** * Swift: uniffi_bindgen/src/bindings/swift/gen_swift/mod.rs *)
(** l.66-133 [KEYWORDS]. *)
Definition swift_keywords : list text :=
  map t ["associatedtype"; "class"; "deinit"; "enum"; "extension"; "fileprivate"; "func"; "import";
    "init"; "inout"; "internal"; "let"; "open"; "operator"; "private"; "precedencegroup"; "protocol";
    "public"; "rethrows"; "static"; "struct"; "subscript"; "typealias"; "var";
    "break"; "case"; "catch"; "continue"; "default"; "defer"; "do"; "else"; "fallthrough"; "for";
    "guard"; "if"; "in"; "repeat"; "return"; "throw"; "switch"; "where"; "while";
    "Any"; "as"; "await"; "catch"; "false"; "is"; "nil"; "rethrows"; "self"; "Self"; "super"; "throw";
    "throws"; "true"; "try"].
(** l.135-142 [quote_general_keyword]. *)
Definition quote_general_keyword (n : text) : text :=
  if listed n swift_keywords then quoted n else n.
(** l.144-159 [ARG_KEYWORDS], [quote_arg_keyword]. *)
Definition quote_arg_keyword (n : text) : text :=
  if listed n (map t ["inout"; "var"; "let"]) then quoted n else n.
(** l.776-794 the names; l.1084-1092, l.1139-1165 the filters that quote them. *)
Definition swift_class_name (n : text) : text := to_upper_camel_case n.
Definition swift_fn_name (n : text) : text := quote_general_keyword (to_lower_camel_case n).
Definition swift_var_name (n : text) : text := quote_general_keyword (to_lower_camel_case n).
Definition swift_arg_label (n : text) : text := quote_arg_keyword (to_lower_camel_case n).
Definition swift_enum_variant_name (n : text) : text := quote_general_keyword (to_lower_camel_case n).
(** ErrorTemplate.swift l.12 and l.18: a variant of an error is declared with [class_name] ... *)
Definition swift_error_variant_declared (n : text) : text := swift_class_name n.
(** ... and l.63 and l.94: used with [error_variant_swift_quoted]. *)
Definition swift_error_variant_used (n : text) : text := quote_general_keyword (swift_class_name n).
(** l.873-881 [object_names]. *)
Definition swift_object_names (callback : bool) (n : text) : text * text :=
  let c := swift_class_name n in
  if callback then (c, c ++ t "Impl") else (c ++ t "Protocol", c).
(** templates/macros.swift l.21-27: the variable for a borrowed slice of bytes. *)
Definition swift_borrowed_name (n : text) : text := swift_var_name n ++ t "Fb".

(** * Python: uniffi_bindgen/src/bindings/python/pipeline/names.rs *)
(** l.12-52 [KEYWORDS]. *)
Definition python_keywords : list text :=
  map t ["False"; "None"; "True"; "__peg_parser__"; "and"; "as"; "assert"; "async"; "await"; "break";
    "class"; "continue"; "def"; "del"; "elif"; "else"; "except"; "finally"; "for"; "from"; "global";
    "if"; "import"; "in"; "is"; "lambda"; "nonlocal"; "not"; "or"; "pass"; "raise"; "return"; "try";
    "while"; "with"; "yield"].
(** l.54-61 [fixup_keyword]. *)
Definition fixup_keyword (n : text) : text := if listed n python_keywords then t "_" ++ n else n.
(** l.84-99. *)
Definition py_type_name (n : text) : text := fixup_keyword (to_upper_camel_case n).
Definition py_var_name (n : text) : text := fixup_keyword (to_snake_case n).
Definition py_function_name (n : text) : text := fixup_keyword (to_snake_case n).
Definition py_non_error_variant_name (n : text) : text := fixup_keyword (to_shouty_snake_case n).
(** l.76-82 [function_type_name], [struct_name]. *)
Definition py_struct_name (n : text) : text := t "_Uniffi" ++ to_upper_camel_case n.
Definition py_function_type_name (n : text) : text := t "_UNIFFI_" ++ to_shouty_snake_case n.
(** pipeline/interfaces.rs l.8-46 [protocol], [name]. *)
Definition py_object_names (callback : bool) (n : text) : text * text :=
  if callback then (py_type_name n, py_type_name (n ++ t "Impl"))
  else (py_type_name n ++ t "Protocol", py_type_name n).
(** pipeline/default.rs l.87-92: a variant as the default of an argument or field.  The type has the
    name it has in Rust. *)
Definition py_default_variant (ty v : text) : text * text := (ty, py_non_error_variant_name v).
(** templates/EnumTemplate.py l.9 and l.13-14: the class and its member. *)
Definition py_declared_variant (ty v : text) : text * text :=
  (py_type_name ty, py_non_error_variant_name v).
(** CallableArgs.py and RecordTemplate.py l.5-9: the parameters of a method, a primary constructor and
    the [__init__] of a record.  *)
Definition py_parameters (args : list text) : list text := t "self" :: map py_var_name args.
(** EnumTemplate.py l.44-53: the two methods asking for a variant. *)
Definition py_variant_checks (v : text) : list text :=
  let n := py_non_error_variant_name v in
  (t "is_" ++ n) ::
  (if text_eqb n (to_snake_case n) then [] else [t "is_" ++ to_snake_case n]).
(** EnumTemplate.py l.32-60: the methods of the class of an enum with data, in their order. *)
Definition py_enum_methods (variants methods : list text) : list text :=
  t "__init__" :: flat_map py_variant_checks variants ++ map py_function_name methods.
(** InterfaceTemplate.py l.10-50: what the class of an object contains besides its methods. *)
Definition py_object_own : list text :=
  map t ["_handle"; "__init__"; "__del__"; "_uniffi_clone_handle"; "_uniffi_make_instance"].
(** CallableBody.py l.11-60: what the body of a method or function uses that is not an argument
    (names of converters and of the other functions of the bindings start with [_Uniffi] and
    [_uniffi]). *)
Definition py_body_own : list text :=
  map t ["_DEFAULT"; "_uniffi_lowered_args"; "_uniffi_lift_return"; "_uniffi_error_converter";
    "_uniffi_ffi_result"; "_uniffi_rust_call_with_error"; "_uniffi_rust_call_async"; "_UniffiLib"].
(** Module.py l.18-34: the modules the bindings import. *)
Definition py_imports : list text :=
  map t ["os"; "sys"; "ctypes"; "dataclass"; "enum"; "struct"; "contextlib"; "datetime"; "threading";
    "itertools"; "traceback"; "typing"; "asyncio"; "platform"].

(** * Ruby: uniffi_bindgen/src/bindings/ruby/gen_ruby/mod.rs *)
(** l.15-20 [RESERVED_WORDS]. *)
Definition ruby_reserved : list text :=
  map t ["alias"; "and"; "BEGIN"; "begin"; "break"; "case"; "class"; "def"; "defined?"; "do"; "else";
    "elsif"; "END"; "end"; "ensure"; "false"; "for"; "if"; "module"; "next"; "nil"; "not"; "or";
    "redo"; "rescue"; "retry"; "return"; "self"; "super"; "then"; "true"; "undef"; "unless"; "until";
    "when"; "while"; "yield"; "__FILE__"; "__LINE__"].
(** l.162-164, l.361-387. *)
Definition rb_class_name (n : text) : text := to_upper_camel_case n.
Definition rb_fn_name (n : text) : text := to_snake_case n.
Definition rb_var_name (n : text) : text :=
  let snake := to_snake_case n in (if listed snake ruby_reserved then t "_" else []) ++ snake.
Definition rb_enum_name (n : text) : text := to_shouty_snake_case n.
(** templates/ObjectTemplate.rb l.87-151: the instance methods of a class, in their order. *)
Definition rb_object_methods (primary : bool) (methods : list text) : list text :=
  t "uniffi_clone_handle" :: (if primary then [t "initialize"] else []) ++ map rb_fn_name methods.

(** * The members of Kotlin classes *)
(** templates/ObjectTemplate.kt l.161, l.173 and l.217, then l.227-229: the functions of the class of an
    object, with the number of their parameters. *)
Definition kt_object_functions (methods : list (text * nat)) : list (text * nat) :=
  [(t "destroy", 0); (t "close", 0); (t "uniffiCloneHandle", 0)] ++
  map (fun m => (kt_fn_name (fst m), snd m)) methods.
(** templates/ErrorTemplate.kt l.31-40: the properties of a variant of an error with data. *)
Definition kt_error_properties (fields : list text) : list text :=
  map kt_var_name fields ++ [t "message"].

(** * All of them *)
Inductive lang := Kotlin | KotlinJni | Swift | Python | Ruby.
Inductive what := AFunction | AVariable | AType | AVariant | AnErrorVariant.
(** The text the generator writes for a name where the thing is declared.  A variable is an argument or
    a field.  Variants of enums are those of an enum without data; [err] is whether a type is used as
    an error. *)
Definition rendered (l : lang) (err : bool) (w : what) (n : text) : text :=
  match l, w with
  | Kotlin, AFunction => kt_fn_name n
  | Kotlin, AVariable => kt_var_name n
  | Kotlin, AType => kt_class_name err n
  | Kotlin, AVariant => kt_enum_variant_name n
  | Kotlin, AnErrorVariant => kt_error_variant_name n
  | KotlinJni, AFunction => jni_fn_name n
  | KotlinJni, AVariable => jni_var_name n
  | KotlinJni, AType => jni_class_name err n
  | KotlinJni, AVariant => jni_enum_variant_name n
  | KotlinJni, AnErrorVariant => jni_class_name true n
  | Swift, AFunction => swift_fn_name n
  | Swift, AVariable => swift_var_name n
  | Swift, AType => swift_class_name n
  | Swift, AVariant => swift_enum_variant_name n
  | Swift, AnErrorVariant => swift_error_variant_declared n
  | Python, AFunction => py_function_name n
  | Python, AVariable => py_var_name n
  | Python, AType => py_type_name n
  | Python, AVariant => py_non_error_variant_name n
  | Python, AnErrorVariant => py_type_name n
  | Ruby, AFunction => rb_fn_name n
  | Ruby, AVariable => rb_var_name n
  | Ruby, AType => rb_class_name n
  | Ruby, AVariant => rb_enum_name n
  | Ruby, AnErrorVariant => rb_class_name n
  end.
