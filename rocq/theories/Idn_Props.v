(** The names of things in the bindings (C66). *)
From Verif Require Import Idn_Model Idn_Spec Idn_Proofs Idn_Distinct Idn_Claims Idn_Examples.

(** A name in the bindings has the letters and digits of the name in Rust, in their order, whatever the name; only an
    error can have [exception] for [error] in Kotlin. *)
Theorem C66_recognisable : forall l err w n,
  letters (rendered l err w n) = letters n \/
  (in_kotlin l /\ exists s, letters n = s ++ t "error" /\
    letters (rendered l err w n) = s ++ t "exception").
Proof. exact letters_rendered. Qed.
Print Assumptions C66_recognisable.

(** So two names can meet only if they have the same letters and digits. *)
Theorem C66_collide : forall l w (err : text -> bool) n m,
  rendered l (err n) w n = rendered l (err m) w m ->
  letters n = letters m \/
  (in_kotlin l /\ exists s,
    (letters n = s ++ t "error" /\ letters m = s ++ t "exception") \/
    (letters m = s ++ t "error" /\ letters n = s ++ t "exception")).
Proof. exact collide. Qed.
Print Assumptions C66_collide.

(** A name that follows the conventions of Rust has the same words in the bindings, written as the language writes such
    names; reserved words are quoted or get an underscore, and errors become exceptions in Kotlin. *)
Theorem C66_spelled : forall l err w ws n, words_of w ws n ->
  exists y,
    (if an_exception l err w then as_exception (styled (style_of l w) ws) y
     else y = styled (style_of l w) ws) /\
    (meant (rendered l err w n) = y \/ (underscored l w y /\ rendered l err w n = t "_" ++ y)).
Proof. exact spelled. Qed.
Print Assumptions C66_spelled.

(** Types that follow the conventions have their name in every language. *)
Theorem C66_types_kept : forall l n, camel_case n ->
  meant (rendered l false AType n) = n \/ (l = Python /\ In n python_words).
Proof. exact kept_types. Qed.
Print Assumptions C66_types_kept.

(** Functions that follow the conventions have their name in Ruby and Python. *)
Theorem C66_functions_kept : forall n, snake_case n ->
  rb_fn_name n = n /\
  (py_function_name n = n \/ (py_function_name n = t "_" ++ n /\ In n python_words)).
Proof. exact kept_functions. Qed.
Print Assumptions C66_functions_kept.

(** Every name with a letter before its first digit becomes a name the language accepts, but for the awkward ones. *)
Theorem C66_accepted_partial : forall l err w n, letter_led n -> ~ awkward l w n ->
  accepted l w (rendered l err w n).
Proof. exact valid. Qed.
Print Assumptions C66_accepted_partial.

(** [_1] and [__] are names in Rust and become [1] and nothing. *)
Theorem C66_digits_refuted :
  rust_name (t "_1") /\ rust_name (t "__") /\
  rendered Swift false AVariable (t "_1") = t "1" /\ rendered Python false AVariable (t "_1") = t "1" /\
  rendered Ruby false AVariable (t "_1") = t "1" /\ ~ plain (t "1") /\
  (forall l, meant (rendered l false AVariable (t "__")) = []).
Proof. exact not_names. Qed.
Print Assumptions C66_digits_refuted.

(** An argument [in_] becomes the reserved word [in] of Ruby. *)
Theorem C66_ruby_in_refuted : letter_led (t "in_") /\
  ~ accepted Ruby AVariable (rendered Ruby false AVariable (t "in_")).
Proof. exact ruby_in. Qed.
Print Assumptions C66_ruby_in_refuted.

(** Variants [Begin] and [End] become reserved words of Ruby. *)
Theorem C66_ruby_begin_refuted : camel_case (t "Begin") /\ camel_case (t "End") /\
  ~ accepted Ruby AVariant (rendered Ruby false AVariant (t "Begin")) /\
  ~ accepted Ruby AVariant (rendered Ruby false AVariant (t "End")).
Proof. exact ruby_begin. Qed.
Print Assumptions C66_ruby_begin_refuted.

(** A type [Any] is a reserved word of Swift, and a variant [Any] of an error is declared as one. *)
Theorem C66_swift_any_refuted : camel_case (t "Any") /\
  ~ accepted Swift AType (rendered Swift false AType (t "Any")) /\
  swift_error_variant_declared (t "Any") = t "Any" /\ swift_error_variant_used (t "Any") = t "`Any`".
Proof. exact swift_any. Qed.
Print Assumptions C66_swift_any_refuted.

(** The variable for borrowed bytes in Swift is accepted when the argument is not quoted. *)
Theorem C66_borrowed : forall n, letter_led n -> (forall x, ~ in_quotes (swift_var_name n) x) ->
  accepted Swift AVariable (swift_borrowed_name n).
Proof. exact swift_borrowed. Qed.
Print Assumptions C66_borrowed.

(** It is not for an argument [default]. *)
Theorem C66_borrowed_refuted : plain_snake_case (t "default") /\
  swift_borrowed_name (t "default") = t "`default`Fb" /\
  ~ accepted Swift AVariable (swift_borrowed_name (t "default")).
Proof. exact swift_borrowed_default. Qed.
Print Assumptions C66_borrowed_refuted.

(** Two names of the same kind that follow the conventions are different in the bindings, but for an error and an
    exception in Kotlin. *)
Theorem C66_distinct_partial : forall l err err' w n m, idiomatic w n -> idiomatic w m ->
  rendered l err w n = rendered l err' w m ->
  n = m \/ (in_kotlin l /\ (w = AType \/ w = AnErrorVariant) /\ (meet n m \/ meet m n)).
Proof. exact distinct. Qed.
Print Assumptions C66_distinct_partial.

(** Names that do not follow the conventions may become the same. *)
Theorem C66_distinct_refuted :
  t "foo_bar" <> t "foo__bar" /\ t "HTTPServer" <> t "HttpServer" /\
  (forall l, rendered l false AFunction (t "foo_bar") = rendered l false AFunction (t "foo__bar")) /\
  (forall l, rendered l false AType (t "HTTPServer") = rendered l false AType (t "HttpServer")) /\
  (forall l, rendered l false AFunction (t "a_1") = rendered l false AFunction (t "a1") <->
     l <> Python /\ l <> Ruby).
Proof. exact same_everywhere. Qed.
Print Assumptions C66_distinct_refuted.

(** So may an error and an exception in Kotlin. *)
Theorem C66_errors_refuted : camel_case (t "NetworkError") /\ camel_case (t "NetworkException") /\
  (forall l, in_kotlin l ->
    rendered l true AType (t "NetworkError") = rendered l false AType (t "NetworkException")).
Proof. exact errors_meet. Qed.
Print Assumptions C66_errors_refuted.

(** A type and a function never have the same name. *)
Theorem C66_types_and_functions : forall l err n m, letter_led n -> letter_led m ->
  meant (rendered l err AType n) <> meant (rendered l err AFunction m).
Proof. exact apart. Qed.
Print Assumptions C66_types_and_functions.

(** In Python no name is one of those that the class of an object and the body of a function use themselves. *)
Theorem C66_python_own : forall err w n,
  ~ In (rendered Python err w n) (py_object_own ++ py_body_own).
Proof. exact python_own. Qed.
Print Assumptions C66_python_own.

(** Nor does one start like the bindings' own names. *)
Theorem C66_python_prefixes : forall err w n x,
  rendered Python err w n <> t "_uniffi" ++ x /\ rendered Python err w n <> t "_Uniffi" ++ x /\
  rendered Python err w n <> t "_UNIFFI" ++ x.
Proof. exact python_prefixes. Qed.
Print Assumptions C66_python_prefixes.

(** But a function can have the name of a module the bindings import and use. *)
Theorem C66_python_modules_refuted :
  plain_snake_case (t "datetime") /\ plain_snake_case (t "platform") /\ plain_snake_case (t "os") /\
  In (py_function_name (t "datetime")) py_imports /\ In (py_function_name (t "platform")) py_imports /\
  In (py_function_name (t "os")) py_imports.
Proof. exact python_modules. Qed.
Print Assumptions C66_python_modules_refuted.

(** The parameters of a method or of a record in Python are different, unless one is [self]. *)
Theorem C66_python_parameters_partial : forall args,
  Forall (idiomatic AVariable) args -> NoDup args -> ~ In (t "self") args ->
  NoDup (py_parameters args).
Proof. exact python_parameters. Qed.
Print Assumptions C66_python_parameters_partial.

(** An argument [self_] of a function, or a field [self] of a record in UDL, gives [self] twice. *)
Theorem C66_python_parameters_refuted :
  letter_led (t "self_") /\ py_parameters [t "self_"] = [t "self"; t "self"] /\
  plain_snake_case (t "self") /\ py_parameters [t "self"] = [t "self"; t "self"].
Proof. exact python_self. Qed.
Print Assumptions C66_python_parameters_refuted.

(** The methods of a Python enum are different, unless one of them starts with [is_]. *)
Theorem C66_python_enum_partial : forall variants methods,
  Forall camel_case variants -> NoDup variants ->
  Forall plain_snake_case methods -> NoDup methods ->
  (forall m r, In m methods -> m <> t "is_" ++ r) ->
  NoDup (py_enum_methods variants methods).
Proof. exact python_enum. Qed.
Print Assumptions C66_python_enum_partial.

(** A method [is_circle] replaces the one that asks for the variant [Circle]. *)
Theorem C66_python_enum_refuted : camel_case (t "Circle") /\ plain_snake_case (t "is_circle") /\
  ~ NoDup (py_enum_methods [t "Circle"] [t "is_circle"]).
Proof. exact python_is. Qed.
Print Assumptions C66_python_enum_refuted.

(** The functions of a Kotlin class are different, unless one without parameters is called like those every class has. *)
Theorem C66_kotlin_functions_partial : forall methods,
  Forall (fun m => idiomatic AFunction (fst m)) methods -> NoDup methods ->
  (forall n, In n [t "destroy"; t "close"; t "uniffi_clone_handle"] -> ~ In (n, 0) methods) ->
  NoDup (map (fun p => (meant (fst p), snd p)) (kt_object_functions methods)).
Proof. exact kotlin_functions. Qed.
Print Assumptions C66_kotlin_functions_partial.

(** The properties of a Kotlin exception are different, unless one is [message]. *)
Theorem C66_kotlin_error_fields_partial : forall fields,
  Forall (idiomatic AVariable) fields -> NoDup fields -> ~ In (t "message") fields ->
  NoDup (map meant (kt_error_properties fields)).
Proof. exact kotlin_error_properties. Qed.
Print Assumptions C66_kotlin_error_fields_partial.

(** Methods [close] and fields [message] are declared twice. *)
Theorem C66_kotlin_members_refuted :
  plain_snake_case (t "close") /\
  ~ NoDup (map (fun p => (meant (fst p), snd p)) (kt_object_functions [(t "close", 0)])) /\
  plain_snake_case (t "message") /\ ~ NoDup (map meant (kt_error_properties [t "message"])).
Proof. exact kotlin_close. Qed.
Print Assumptions C66_kotlin_members_refuted.

(** The methods of a Ruby class are different, unless one is called like those every class has. *)
Theorem C66_ruby_methods_partial : forall primary methods,
  Forall (idiomatic AFunction) methods -> NoDup methods ->
  ~ In (t "initialize") methods -> ~ In (t "uniffi_clone_handle") methods ->
  NoDup (rb_object_methods primary methods).
Proof. exact ruby_methods. Qed.
Print Assumptions C66_ruby_methods_partial.

(** A method [initialize] replaces the constructor. *)
Theorem C66_ruby_methods_refuted : plain_snake_case (t "initialize") /\
  ~ NoDup (rb_object_methods true [t "initialize"]).
Proof. exact ruby_initialize. Qed.
Print Assumptions C66_ruby_methods_refuted.

(** The classes and interfaces of objects are different, whatever the names, unless two have the same letters, or one has
    those of another with [Interface], [Protocol] or [Impl] behind. *)
Theorem C66_companions_partial : forall l types, l = Kotlin \/ l = Swift \/ l = Python ->
  NoDup (map (fun p : text * bool => letters (fst p)) types) ->
  (forall n b m b', In (n, b) types -> In (m, b') types ->
    letters m <> letters n ++ letters (companion l b)) ->
  NoDup (flat_map (fun p => object_names l (snd p) (fst p)) types).
Proof. exact companions. Qed.
Print Assumptions C66_companions_partial.

(** A type [FooInterface] meets the interface of [Foo]. *)
Theorem C66_companions_refuted :
  object_names Kotlin false (t "Foo") = [t "FooInterface"; t "Foo"] /\
  rendered Kotlin false AType (t "FooInterface") = t "FooInterface" /\
  object_names Swift false (t "Foo") = [t "FooProtocol"; t "Foo"] /\
  rendered Swift false AType (t "FooProtocol") = t "FooProtocol" /\
  object_names Python true (t "Foo") = [t "Foo"; t "FooImpl"] /\
  rendered Python false AType (t "FooImpl") = t "FooImpl".
Proof. exact companions_meet. Qed.
Print Assumptions C66_companions_refuted.

(** Callback interfaces are used with the name they are declared with, if it follows the conventions. *)
Theorem C66_jni_used_partial : forall n, camel_case n -> jni_callback_declared n = jni_type_used n.
Proof. exact jni_agree. Qed.
Print Assumptions C66_jni_used_partial.

(** So are variants as defaults in Python. *)
Theorem C66_python_default_partial : forall ty v, camel_case ty -> ~ In ty python_words ->
  py_default_variant ty v = py_declared_variant ty v.
Proof. exact default_agree. Qed.
Print Assumptions C66_python_default_partial.

(** Otherwise they are not, and in Kotlin a variant of an enum with data never is. *)
Theorem C66_used_refuted :
  jni_callback_declared (t "X_Y") = t "`Xy`" /\ jni_type_used (t "X_Y") = t "`XY`" /\
  fst (py_default_variant (t "HTTPMode") (t "On")) = t "HTTPMode" /\
  fst (py_declared_variant (t "HTTPMode") (t "On")) = t "HttpMode" /\
  camel_case (t "Shape") /\ camel_case (t "Empty") /\
  kt_default_variant false (t "Shape") (t "Empty") = (t "Shape", t "EMPTY") /\
  kt_declared_variant true false false (t "Shape") (t "Empty") = (t "Shape", t "Empty").
Proof. exact used_otherwise. Qed.
Print Assumptions C66_used_refuted.
