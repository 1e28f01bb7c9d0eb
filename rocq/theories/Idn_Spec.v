(** What names are in Rust and in the languages of the bindings. *)
From Verif Require Import Idn_Model.

(** * Rust *)
Definition letter (c : ascii) : Prop := is_lower c = true \/ is_upper c = true.
Definition digit (c : ascii) : Prop := is_digit c = true.
Definition small (c : ascii) : Prop := is_lower c = true \/ is_digit c = true.
(** A Rust name: letters, digits and underscores, not starting with a digit, not a lone underscore. *)
Definition rust_name (n : text) : Prop :=
  Forall (fun c => letter c \/ digit c \/ c = "_"%char) n /\ n <> [] /\ n <> t "_" /\
  (forall c r, n = c :: r -> ~ digit c).
(** The first character that is not an underscore is a letter. *)
Definition letter_led (n : text) : Prop :=
  exists us c r, n = us ++ c :: r /\ Forall (fun c => c = "_"%char) us /\ letter c.

(** The conventions of Rust.  [snake_case] is what the compiler asks of functions and variables: words
    of small letters and digits with single underscores between them; [plain_snake_case] is the same,
    every word starting with a letter. *)
Definition snake_of (ws : list text) (n : text) : Prop :=
  ws <> [] /\ Forall (fun w => w <> [] /\ Forall small w) ws /\ n = join (t "_") ws.
Definition snake_case (n : text) : Prop := exists ws, snake_of ws n.
Definition starts_with_letter (w : text) : Prop := exists c r, w = c :: r /\ letter c.
Definition plain_snake_case (n : text) : Prop :=
  exists ws, snake_of ws n /\ Forall starts_with_letter ws.
(** [UpperCamelCase] for types and variants: words of a capital and then small letters and digits, such
    that a capital without a small letter in its word is not followed by another word without a small
    letter in second place ([HttpServer], [XAxis], [Vec3F], but not [HTTPServer] and not [PointXY]). *)
Definition camel_word (w : text) : Prop :=
  exists c r, w = c :: r /\ is_upper c = true /\ Forall small r.
Definition has_lower (w : text) : Prop := exists c, In c w /\ is_lower c = true.
Definition second_lower (w : text) : Prop := exists a b r, w = a :: b :: r /\ is_lower b = true.
Fixpoint spaced (ws : list text) : Prop :=
  match ws with
  | v :: ((w :: _) as rest) => (has_lower v \/ second_lower w) /\ spaced rest
  | _ => True
  end.
Definition camel_of (ws : list text) (n : text) : Prop :=
  ws <> [] /\ Forall camel_word ws /\ spaced ws /\ n = concat ws.
Definition camel_case (n : text) : Prop := exists ws, camel_of ws n.
(** The convention for each kind of thing. *)
Definition idiomatic (w : what) (n : text) : Prop :=
  match w with
  | AFunction | AVariable => plain_snake_case n
  | AType | AVariant | AnErrorVariant => camel_case n
  end.

(** * The conventions of the other languages, for given words *)
Inductive style := Snake | Shouty | LowerCamel | UpperCamel.
Definition style_of (l : lang) (w : what) : style :=
  match w with
  | AType | AnErrorVariant => UpperCamel
  | AVariant => match l with Swift => LowerCamel | _ => Shouty end
  | AFunction | AVariable => match l with Python | Ruby => Snake | _ => LowerCamel end
  end.
Definition capital (w : text) : text :=
  match w with [] => [] | c :: r => to_upper c :: map to_lower r end.
Definition styled (s : style) (ws : list text) : text :=
  match s with
  | Snake => join (t "_") (map (map to_lower) ws)
  | Shouty => join (t "_") (map (map to_upper) ws)
  | UpperCamel => concat (map capital ws)
  | LowerCamel =>
      match ws with [] => [] | w :: ws => map to_lower w ++ concat (map capital ws) end
  end.
(** The words of an idiomatic name. *)
Definition words_of (w : what) (ws : list text) (n : text) : Prop :=
  match w with
  | AFunction | AVariable => snake_of ws n
  | AType | AVariant | AnErrorVariant => camel_of ws n
  end.

(** The letters and digits of a name, regardless of capitals. *)
Definition letters (n : text) : text := map to_lower (filter is_alnum n).

(** * Names in the other languages *)
Definition plain (n : text) : Prop :=
  Forall (fun c => letter c \/ digit c \/ c = "_"%char) n /\
  exists c r, n = c :: r /\ ~ digit c.
Definition in_quotes (n x : text) : Prop := n = t "`" ++ x ++ t "`".
(** The name a text means: quotes are not part of it. *)
Definition meant (s : text) : text := filter (fun c => negb (Ascii.eqb c "`")) s.
(** Kotlin programs have exceptions where Rust has errors. *)
Definition in_kotlin (l : lang) : Prop := l = Kotlin \/ l = KotlinJni.
Definition as_exception (x y : text) : Prop :=
  (exists s, x = s ++ t "Error" /\ y = s ++ t "Exception") \/
  ((forall s, x <> s ++ t "Error") /\ y = x).
(** Whether a thing is an exception in Kotlin. *)
Definition an_exception (l : lang) (err : bool) (w : what) : bool :=
  match l, w with
  | (Kotlin | KotlinJni), AType => err
  | (Kotlin | KotlinJni), AnErrorVariant => true
  | _, _ => false
  end.

(** The reserved words as the languages themselves define them.  Kotlin: "hard keywords" of the Kotlin
    reference. *)
Definition kotlin_words : list text :=
  map t ["as"; "break"; "class"; "continue"; "do"; "else"; "false"; "for"; "fun"; "if"; "in";
    "interface"; "is"; "null"; "object"; "package"; "return"; "super"; "this"; "throw"; "true"; "try";
    "typealias"; "typeof"; "val"; "var"; "when"; "while"].
(** Swift: the reserved words of "The Swift Programming Language" that the compiler refuses as names of
    declarations. *)
Definition swift_words : list text :=
  map t ["associatedtype"; "class"; "deinit"; "enum"; "extension"; "fileprivate"; "func"; "import";
    "init"; "inout"; "internal"; "let"; "operator"; "precedencegroup"; "private"; "protocol"; "public";
    "static"; "struct"; "subscript"; "typealias"; "var"; "break"; "case"; "catch"; "continue";
    "default"; "defer"; "do"; "else"; "fallthrough"; "for"; "guard"; "if"; "in"; "repeat"; "return";
    "switch"; "throw"; "where"; "while"; "Any"; "as"; "false"; "is"; "nil"; "rethrows"; "self";
    "Self"; "super"; "throws"; "true"; "try"].
(** Python: [keyword.kwlist] of Python 3.9 to 3.13. *)
Definition python_words : list text :=
  map t ["False"; "None"; "True"; "and"; "as"; "assert"; "async"; "await"; "break"; "class";
    "continue"; "def"; "del"; "elif"; "else"; "except"; "finally"; "for"; "from"; "global"; "if";
    "import"; "in"; "is"; "lambda"; "nonlocal"; "not"; "or"; "pass"; "raise"; "return"; "try";
    "while"; "with"; "yield"].
(** Ruby: the page "keywords" of its documentation. *)
Definition ruby_words : list text :=
  map t ["__ENCODING__"; "__LINE__"; "__FILE__"; "BEGIN"; "END"; "alias"; "and"; "begin"; "break";
    "case"; "class"; "def"; "defined?"; "do"; "else"; "elsif"; "end"; "ensure"; "false"; "for"; "if";
    "in"; "module"; "next"; "nil"; "not"; "or"; "redo"; "rescue"; "retry"; "return"; "self"; "super";
    "then"; "true"; "undef"; "unless"; "until"; "when"; "while"; "yield"].

(** What is accepted as the name of a thing.  In Ruby a method may have the name of a reserved word
    ([def self.class], [x.end]), a type and a variant are constants and start with a capital, and a
    variable does not. *)
Definition accepted (l : lang) (w : what) (n : text) : Prop :=
  match l, w with
  | (Kotlin | KotlinJni), _ =>
      (exists x, in_quotes n x /\ plain x) \/ (plain n /\ ~ In n kotlin_words)
  | Swift, _ => (exists x, in_quotes n x /\ plain x) \/ (plain n /\ ~ In n swift_words)
  | Python, _ => plain n /\ ~ In n python_words
  | Ruby, AFunction => plain n
  | Ruby, AVariable =>
      plain n /\ (exists c r, n = c :: r /\ is_upper c = false) /\ ~ In n ruby_words
  | Ruby, _ => plain n /\ (exists c r, n = c :: r /\ is_upper c = true) /\ ~ In n ruby_words
  end.

(** The names that are not accepted, see the theorems [_refuted]. *)
Definition awkward (l : lang) (w : what) (n : text) : Prop :=
  match l, w with
  | Swift, (AType | AnErrorVariant) => letters n = t "any" \/ letters n = t "self"
  | Ruby, AVariable => letters n = t "in"
  | Ruby, AVariant => letters n = t "begin" \/ letters n = t "end"
  | Ruby, (AType | AnErrorVariant) => (letters n = t "begin" \/ letters n = t "end") /\ ~ camel_case n
  | _, _ => False
  end.
(** The reserved words that get an underscore. *)
Definition underscored (l : lang) (w : what) (x : text) : Prop :=
  match l, w with
  | Python, _ => In x python_words
  | Ruby, AVariable => In x ruby_words /\ x <> t "in"
  | _, _ => False
  end.
(** The names of the class and the interface of an object. *)
Definition object_names (l : lang) (callback : bool) (n : text) : list text :=
  match l with
  | Kotlin => let (i, c) := kt_object_names false callback n in [i; c]
  | Swift => let (i, c) := swift_object_names callback n in [i; c]
  | Python => let (i, c) := py_object_names callback n in [i; c]
  | _ => []
  end.
Definition companion (l : lang) (callback : bool) : text :=
  if callback then t "Impl"
  else match l with Kotlin => t "Interface" | _ => t "Protocol" end.
(** The names of Kotlin errors that meet. *)
Definition meet (n m : text) : Prop := exists s, n = s ++ t "Error" /\ m = s ++ t "Exception".
