(** Comparing, hashing and printing values in the bindings, when Rust traits are exported. *)
From Coq Require Export String List Bool Arith ZArith Lia.
Export ListNotations.
Open Scope string_scope.
Open Scope list_scope.
Open Scope nat_scope.

(** * Types and their traits *)
(** What a value is made of: the number of its variant (0 if it has none), its fields, and for an object
    what Rust keeps behind the handle.  Fields are reduced to numbers: their own comparison is that of
    the language and not of interest here. *)
Record content := Content { variant : nat; fields : list Z; state : Z }.
(** The traits of a Rust type.  uniffi_macros/src/export/utrait.rs l.38-142: the functions exported for
    [Debug], [Display], [Hash] ([DefaultHasher::finish], 64 bits), [Eq] (two functions) and [Ord] (as
    [i8]). *)
Record rust := Rust {
  r_eq : content -> content -> bool; r_ne : content -> content -> bool;
  r_hash : content -> Z; r_cmp : content -> content -> comparison;
  r_display : content -> string; r_debug : content -> string }.
Definition as_i8 (c : comparison) : Z := match c with Lt => -1 | Eq => 0 | Gt => 1 end.
Definition hash_u64 (r : rust) (c : content) : Z := (r_hash r c mod 2 ^ 64)%Z.
Definition cmp_i8 (r : rust) (a b : content) : Z := as_i8 (r_cmp r a b).

(** uniffi_bindgen/src/interface/object.rs l.708-735 [UniffiTraitMethods]: which are exported. *)
Record exports := Exports { x_eq : bool; x_hash : bool; x_ord : bool; x_display : bool; x_debug : bool }.
(** The kinds of types: objects ([err]: used as errors), records with the names of their fields
    ([objects]: they contain objects), enums without data with their discriminants, and other enums with
    the names of their variants and their fields.  Flat errors are left out: they cannot be passed to
    Rust. *)
Inductive kind :=
  | Object (err : bool)
  | Struct (names : list string) (objects : bool)
  | Flat (discriminants : list Z)
  | Data (variants : list (string * list string)) (err objects : bool).
Record declaration := Declare { d_kind : kind; d_exports : exports; d_rust : rust }.
(** A value in the language: which object it is, its type, what it is made of, and for an exception where
    it was raised.  [Foreign]: any other value of the language. *)
Record inst := Inst { ident : nat; ty : nat; inside : content; trace : Z }.
Inductive value := Ours (i : inst) | Foreign (n : nat).

(** What an operation does: a result, an exception, or there is no such operation. *)
Inductive outcome (A : Type) := Gives (a : A) | Raises | Absent.
Arguments Gives {A}. Arguments Raises {A}. Arguments Absent {A}.
(** Hash codes, by what they are computed from. *)
Inductive code :=
  | OfNumber (n : Z) | OfIdentity (n : nat) | OfMember (t v : nat) | OfFields (fs : list Z) | OfType (t : nat).

Section Library.
Context (lib : nat -> declaration).
Definition kind_of (i : inst) : kind := d_kind (lib (ty i)).
Definition exp (i : inst) : exports := d_exports (lib (ty i)).
Definition tr (i : inst) : rust := d_rust (lib (ty i)).
Definition rust_eq (i j : inst) : bool := r_eq (tr i) (inside i) (inside j).
Definition rust_ne (i j : inst) : bool := r_ne (tr i) (inside i) (inside j).
Definition rust_hash (i : inst) : Z := hash_u64 (tr i) (inside i).
Definition rust_cmp (i j : inst) : Z := cmp_i8 (tr i) (inside i) (inside j).
Definition fields_eqb (a b : list Z) : bool := if list_eq_dec Z.eq_dec a b then true else false.
Definition same_type (i j : inst) : bool := ty i =? ty j.
Definition same_variant (i j : inst) : bool := variant (inside i) =? variant (inside j).
Definition same_fields (i j : inst) : bool := fields_eqb (fields (inside i)) (fields (inside j)).
Definition variant_of (i : inst) : string * list string :=
  match kind_of i with Data vs _ _ => nth (variant (inside i)) vs ("", []) | _ => ("", []) end.
(** An attribute of a value, by its name. *)
Fixpoint lookup (n : string) (l : list (string * Z)) : option Z :=
  match l with [] => None | (m, z) :: l => if String.eqb n m then Some z else lookup n l end.
Definition attribute (v : value) (n : string) : option Z :=
  match v with
  | Foreign _ => None
  | Ours i =>
      match kind_of i with
      | Struct names _ => lookup n (combine names (fields (inside i)))
      | Data _ _ _ => lookup n (combine (snd (variant_of i)) (fields (inside i)))
      | Object _ | Flat _ => None
      end
  end.
Definition attributes (i : inst) : list (string * Z) :=
  match kind_of i with
  | Struct names _ => combine names (fields (inside i))
  | Data _ _ _ => combine (snd (variant_of i)) (fields (inside i))
  | Object _ | Flat _ => []
  end.

(** * Python: uniffi_bindgen/src/bindings/python/templates *)
(** What [__eq__] and its like answer. *)
Inductive answer := Answer (b : bool) | NotImpl | Throws.
Definition invert (a : answer) : answer := match a with Answer b => Answer (negb b) | _ => a end.
(** Members of an [enum.Enum] exist once. *)
Definition py_identical (i j : inst) : bool :=
  match kind_of i with
  | Flat _ => same_type i j && same_variant i j
  | _ => (ident i =? ident j) && same_type i j
  end.
Definition py_is (i : inst) (v : value) : bool :=
  match v with Ours j => py_identical i j | Foreign _ => false end.
(** The [__eq__] of [object]. *)
Definition py_default_eq (i : inst) (v : value) : answer := if py_is i v then Answer true else NotImpl.
(** UniffiTraitImpls.py l.20-30 and l.31-40: [isinstance], then Rust. *)
Definition py_rust_eq (i : inst) (v : value) : answer :=
  match v with Ours j => if same_type i j then Answer (rust_eq i j) else NotImpl | Foreign _ => NotImpl end.
Definition py_rust_ne (i : inst) (v : value) : answer :=
  match v with Ours j => if same_type i j then Answer (rust_ne i j) else NotImpl | Foreign _ => NotImpl end.
(** RecordTemplate.py l.48-55: field by field. *)
Fixpoint py_fields (fs : list (string * Z)) (v : value) : answer :=
  match fs with
  | [] => Answer true
  | (n, z) :: fs =>
      match attribute v n with
      | None => Throws
      | Some y => if Z.eqb z y then py_fields fs v else Answer false
      end
  end.
(** EnumTemplate.py l.89-96 and l.131-141. *)
Definition py_enum_fields (i : inst) (v : value) : answer :=
  match v with
  | Ours j => if same_type i j then Answer (same_variant i j && same_fields i j) else NotImpl
  | Foreign _ => NotImpl
  end.
(** EnumTemplate.py l.12-29: an enum without data has none of the traits; ErrorTemplate.py: nor has an
    error.  (Variants are data classes, but [@dataclass] replaces no method the class has.) *)
Definition py_eq (i : inst) (v : value) : answer :=
  match kind_of i with
  | Object _ => if x_eq (exp i) then py_rust_eq i v else py_default_eq i v
  | Struct _ _ => if x_eq (exp i) then py_rust_eq i v else py_fields (attributes i) v
  | Flat _ => py_default_eq i v
  | Data _ false _ => if x_eq (exp i) then py_rust_eq i v else py_enum_fields i v
  | Data _ true _ => py_default_eq i v
  end.
Definition py_ne (i : inst) (v : value) : answer :=
  match kind_of i with
  | Object _ | Struct _ _ | Data _ false _ => if x_eq (exp i) then py_rust_ne i v else invert (py_eq i v)
  | Flat _ | Data _ true _ => invert (py_eq i v)
  end.
(** The operators: the method of the left value, then that of the right one, then identity. *)
Definition py_operator (method : inst -> value -> answer) (otherwise : bool -> bool) (a b : value) : outcome bool :=
  let identical := match a, b with
                   | Ours i, _ => py_is i b
                   | Foreign n, Foreign m => n =? m
                   | _, _ => false
                   end in
  let right := match b with
               | Ours j => match method j a with
                           | Answer r => Gives r | Throws => Raises | NotImpl => Gives (otherwise identical)
                           end
               | Foreign _ => Gives (otherwise identical)
               end in
  match a with
  | Ours i => match method i b with Answer r => Gives r | Throws => Raises | NotImpl => right end
  | Foreign _ => right
  end.
Definition py_equal : value -> value -> outcome bool := py_operator py_eq (fun x => x).
Definition py_differ : value -> value -> outcome bool := py_operator py_ne negb.
(** UniffiTraitImpls.py l.42-50.  [hash()] takes a number below 2^63 as it is and others modulo
    2^61-1.  A class with [__eq__] and without [__hash__] has none. *)
Definition py_number (n : Z) : code := OfNumber (if (n <? 2 ^ 63)%Z then n else (n mod (2 ^ 61 - 1))%Z).
Definition py_hash (i : inst) : outcome code :=
  match kind_of i with
  | Object _ =>
      if x_hash (exp i) then Gives (py_number (rust_hash i))
      else if x_eq (exp i) then Raises else Gives (OfIdentity (ident i))
  | Struct _ _ | Data _ false _ => if x_hash (exp i) then Gives (py_number (rust_hash i)) else Raises
  | Flat _ => Gives (OfMember (ty i) (variant (inside i)))
  | Data _ true _ => Gives (OfIdentity (ident i))
  end.
(** UniffiTraitImpls.py l.52-72: [__rust_cmp__] and the four operators, for two values of one type. *)
Definition py_rust_cmp (i j : inst) : outcome Z :=
  match kind_of i with
  | Object _ | Struct _ _ | Data _ false _ => if x_ord (exp i) then Gives (rust_cmp i j) else Raises
  | Flat _ | Data _ true _ => Raises
  end.
(** [str]: EnumTemplate.py l.84-88, l.127-130, RecordTemplate.py l.43-46; [None]: the text of the
    language. *)
Definition py_text (i : inst) : option string :=
  let display := r_display (tr i) (inside i) in
  let debug := r_debug (tr i) (inside i) in
  match kind_of i with
  | Object _ => if x_display (exp i) then Some display else if x_debug (exp i) then Some debug else None
  | Struct _ _ | Data _ false _ => if x_display (exp i) then Some display else None
  | Flat _ | Data _ true _ => None
  end.

(** * Kotlin: uniffi_bindgen/src/bindings/kotlin/templates; [jni]: uniffi-bindgen-kotlin-jni *)
(** Variants without fields, and members of an enum class, exist once. *)
Definition kt_once (i : inst) : bool :=
  match kind_of i with
  | Flat _ => true
  | Data _ false _ => match snd (variant_of i) with [] => true | _ => false end
  | _ => false
  end.
Definition kt_identical (i j : inst) : bool :=
  same_type i j && (if kt_once i then same_variant i j else ident i =? ident j).
(** macros.kt l.196-202: [if (other !is T) return false], then Rust. *)
Definition kt_rust_eq (i j : inst) : bool := same_type i j && rust_eq i j.
(** The [equals] Kotlin makes for a data class. *)
Definition kt_data_eq (i j : inst) : bool := same_type i j && same_variant i j && same_fields i j.
(** RecordTemplate.kt l.4-46; EnumTemplate.kt l.13-44 (enum classes), l.70-126 (sealed classes);
    ErrorTemplate.kt l.22-66; ObjectTemplate.kt l.108-121 and l.230.  In the JNI bindings (Enum.kt
    l.29-61) the methods are in the sealed class only, so that those of a data class replace them. *)
Definition kt_equals (jni : bool) (i j : inst) : bool :=
  match kind_of i with
  | Object _ => if x_eq (exp i) then kt_rust_eq i j else kt_identical i j
  | Struct [] _ => same_type i j
  | Struct _ _ => if x_eq (exp i) then kt_rust_eq i j else kt_data_eq i j
  | Flat _ => kt_identical i j
  | Data _ true _ => if x_eq (exp i) then kt_rust_eq i j else kt_identical i j
  | Data _ false _ =>
      match snd (variant_of i) with
      | [] => if x_eq (exp i) then kt_rust_eq i j else kt_identical i j
      | _ => if x_eq (exp i) && negb jni then kt_rust_eq i j else kt_data_eq i j
      end
  end.
Definition kt_equal (jni : bool) (a b : value) : outcome bool :=
  match a, b with
  | Ours i, Ours j => Gives (kt_equals jni i j)
  | Foreign n, Foreign m => Gives (n =? m)
  | _, _ => Gives false
  end.
(** macros.kt l.203-208: the lower 32 bits. *)
Definition kt_number (n : Z) : code := OfNumber (let low := (n mod 2 ^ 32)%Z in if (low <? 2 ^ 31)%Z then low else (low - 2 ^ 32)%Z).
Definition kt_identity (i : inst) : code :=
  if kt_once i then OfMember (ty i) (variant (inside i)) else OfIdentity (ident i).
Definition kt_hash (jni : bool) (i : inst) : code :=
  match kind_of i with
  | Object _ => if x_hash (exp i) then kt_number (rust_hash i) else kt_identity i
  | Struct [] _ => OfType (ty i)
  | Struct _ _ => if x_hash (exp i) then kt_number (rust_hash i) else OfFields (fields (inside i))
  | Flat _ => kt_identity i
  | Data _ true _ => if x_hash (exp i) then kt_number (rust_hash i) else kt_identity i
  | Data _ false _ =>
      match snd (variant_of i) with
      | [] => if x_hash (exp i) then kt_number (rust_hash i) else kt_identity i
      | _ => if x_hash (exp i) && negb jni then kt_number (rust_hash i) else OfFields (fields (inside i))
      end
  end.
(** macros.kt l.209-214: [compareTo]; an enum class compares the places of its members. *)
Definition kt_compare (i j : inst) : outcome Z :=
  match kind_of i with
  | Object _ | Data _ _ _ => if x_ord (exp i) then Gives (rust_cmp i j) else Absent
  | Struct [] _ => Absent
  | Struct _ _ => if x_ord (exp i) then Gives (rust_cmp i j) else Absent
  | Flat _ => Gives (Z.of_nat (variant (inside i)) - Z.of_nat (variant (inside j)))%Z
  end.
(** macros.kt l.189-195: [Display], otherwise [Debug]. *)
Definition kt_text (jni : bool) (i : inst) : option string :=
  let chosen := if x_display (exp i) then Some (r_display (tr i) (inside i))
                else if x_debug (exp i) then Some (r_debug (tr i) (inside i)) else None in
  match kind_of i with
  | Object _ | Data _ true _ => chosen
  | Struct [] _ => None
  | Struct _ _ => chosen
  | Flat _ => if jni then None else chosen
  | Data _ false _ => match snd (variant_of i) with [] => chosen | _ => if jni then None else chosen end
  end.

(** * Swift: uniffi_bindgen/src/bindings/swift *)
(** gen_swift/mod.rs l.320-327, l.364-371, l.420-427, l.465-471: whether Swift makes [==] and [hash] itself. *)
Definition sw_synthesized (k : kind) : bool :=
  match k with
  | Object _ => false
  | Struct _ objects | Data _ _ objects => negb objects
  | Flat _ => true
  end.
Definition sw_data_eq (i j : inst) : bool := same_variant i j && same_fields i j.
(** templates/macros.swift l.229-236. *)
Definition sw_equal (a b : value) : outcome bool :=
  match a, b with
  | Ours i, Ours j =>
      if same_type i j then
        if x_eq (exp i) then Gives (rust_eq i j)
        else if sw_synthesized (kind_of i) then Gives (sw_data_eq i j) else Absent
      else Absent
  | Foreign n, Foreign m => Gives (n =? m)
  | _, _ => Absent
  end.
(** l.237-245. *)
Definition sw_hash (i : inst) : outcome code :=
  if x_hash (exp i) then Gives (OfNumber (rust_hash i))
  else if sw_synthesized (kind_of i) then Gives (OfFields (Z.of_nat (variant (inside i)) :: fields (inside i)))
  else Absent.
(** l.246-253: only [<] is written, the others come from [Comparable]. *)
Definition sw_less (i j : inst) : outcome bool :=
  if x_ord (exp i) then Gives (rust_cmp i j <? 0)%Z else Absent.
(** l.211-228.  Errors have the property [description] without the protocol (gen_swift/mod.rs l.409-450),
    so that printing does not use it. *)
Definition sw_text (i : inst) : option string :=
  let display := r_display (tr i) (inside i) in
  let debug := r_debug (tr i) (inside i) in
  match kind_of i with
  | Data _ true _ => None
  | _ => if x_display (exp i) then Some display else if x_debug (exp i) then Some debug else None
  end.

(** * Ruby: uniffi_bindgen/src/bindings/ruby/templates *)
Definition rb_discriminant (i : inst) : option Z :=
  match kind_of i with Flat ds => Some (nth (variant (inside i)) ds 0%Z) | _ => None end.
(** UniffiTraitImpls.rb l.28-39: [other.is_a?(self.class)], then Rust; the class of an enum value is that
    of its variant. *)
Definition rb_rust_eq (i j : inst) : bool :=
  match kind_of i with
  | Data _ _ _ => same_type i j && same_variant i j && rust_eq i j
  | _ => same_type i j && rust_eq i j
  end.
(** RecordTemplate.rb l.20-30, as in Python. *)
Fixpoint rb_fields (fs : list (string * Z)) (v : value) : outcome bool :=
  match fs with
  | [] => Gives true
  | (n, z) :: fs =>
      match attribute v n with
      | None => Raises
      | Some y => if Z.eqb z y then rb_fields fs v else Gives false
      end
  end.
(** EnumTemplate.rb l.62-78: whether the other value answers [true] to the method named after the variant,
    then field by field.  (Fields without names are compared as one list.) *)
Definition rb_enum_fields (i : inst) (v : value) : outcome bool :=
  match v with
  | Ours j =>
      match kind_of j with
      | Data _ false _ =>
          if String.eqb (fst (variant_of i)) (fst (variant_of j)) then rb_fields (attributes i) v else Gives false
      | _ => Gives false
      end
  | Foreign _ => Gives false
  end.
(** [Comparable#==]: the same object, or [<=>] gives 0; [<=>] with a value of another type is [nil]. *)
Definition rb_comparable_eq (i j : inst) : bool :=
  (ident i =? ident j) && same_type i j || same_type i j && (rust_cmp i j =? 0)%Z.
(** [Exception#==]: the same object, or the same class, message and backtrace. *)
Definition rb_error_eq (i j : inst) : bool :=
  same_type i j && ((ident i =? ident j) || same_variant i j && same_fields i j && (trace i =? trace j)%Z).
Definition rb_eq (i : inst) (v : value) : outcome bool :=
  match kind_of i with
  | Object _ =>
      match v with
      | Ours j => Gives (if x_eq (exp i) then rb_rust_eq i j
                         else if x_ord (exp i) then rb_comparable_eq i j
                         else (ident i =? ident j) && same_type i j)
      | Foreign _ => Gives false
      end
  | Struct _ _ =>
      if x_eq (exp i) then match v with Ours j => Gives (rb_rust_eq i j) | Foreign _ => Gives false end
      else rb_fields (attributes i) v
  | Flat _ =>
      match v with
      | Ours j => match rb_discriminant i, rb_discriminant j with
                  | Some x, Some y => Gives (x =? y)%Z
                  | _, _ => Gives false
                  end
      | Foreign _ => Gives false
      end
  | Data _ false _ =>
      if x_eq (exp i) then match v with Ours j => Gives (rb_rust_eq i j) | Foreign _ => Gives false end
      else rb_enum_fields i v
  | Data _ true _ => match v with Ours j => Gives (rb_error_eq i j) | Foreign _ => Gives false end
  end.
Definition rb_equal (a b : value) : outcome bool :=
  match a with
  | Ours i => rb_eq i b
  | Foreign n => match b with Foreign m => Gives (n =? m) | Ours _ => Gives false end
  end.
(** l.41-54: [hash] and [eql?], which a hash table asks; without them, identity. *)
Definition rb_eql (i : inst) (v : value) : outcome bool :=
  match kind_of i with
  | Flat _ => rb_eq i v
  | Data _ true _ => Gives (match v with Ours j => (ident i =? ident j) && same_type i j | Foreign _ => false end)
  | _ =>
      if x_hash (exp i) then rb_eq i v
      else Gives (match v with Ours j => (ident i =? ident j) && same_type i j | Foreign _ => false end)
  end.
Definition rb_hash (i : inst) : code :=
  match kind_of i with
  | Flat ds => OfNumber (nth (variant (inside i)) ds 0%Z)
  | Data _ true _ => OfIdentity (ident i)
  | _ => if x_hash (exp i) then OfNumber (rust_hash i) else OfIdentity (ident i)
  end.
(** l.56-71: [<=>] for two values of one type; enums without data are numbers. *)
Definition rb_cmp (i j : inst) : outcome Z :=
  match kind_of i with
  | Object _ | Struct _ _ | Data _ false _ => if x_ord (exp i) then Gives (rust_cmp i j) else Raises
  | Flat ds => Gives (nth (variant (inside i)) ds 0 - nth (variant (inside j)) ds 0)%Z
  | Data _ true _ => Raises
  end.
(** [to_s]: l.6-15; EnumTemplate.rb l.55-59. *)
Definition rb_text (i : inst) : option string :=
  match kind_of i with
  | Object _ | Struct _ _ | Data _ false _ =>
      if x_display (exp i) then Some (r_display (tr i) (inside i)) else None
  | Flat _ | Data _ true _ => None
  end.

(** * All of them *)
Inductive lang := Python | Kotlin | KotlinJni | Swift | Ruby.
(** [a == b] and [a != b]. *)
Definition equal (l : lang) (a b : value) : outcome bool :=
  match l with
  | Python => py_equal a b
  | Kotlin => kt_equal false a b
  | KotlinJni => kt_equal true a b
  | Swift => sw_equal a b
  | Ruby => rb_equal a b
  end.
Definition flip (o : outcome bool) : outcome bool := match o with Gives b => Gives (negb b) | _ => o end.
Definition differ (l : lang) (a b : value) : outcome bool :=
  match l with Python => py_differ a b | _ => flip (equal l a b) end.
(** What a set or a dictionary asks: the hash code of a key and whether it equals another. *)
Definition key_hash (l : lang) (i : inst) : outcome code :=
  match l with
  | Python => py_hash i
  | Kotlin => Gives (kt_hash false i)
  | KotlinJni => Gives (kt_hash true i)
  | Swift => sw_hash i
  | Ruby => Gives (rb_hash i)
  end.
Definition key_equal (l : lang) (a b : inst) : outcome bool :=
  match l with Ruby => rb_eql a (Ours b) | _ => equal l (Ours a) (Ours b) end.
(** [a < b], [a <= b], [a > b], [a >= b] for values of one type. *)
Inductive order := Less | LessEqual | Greater | GreaterEqual.
Definition by_sign (o : order) (z : Z) : bool :=
  match o with
  | Less => (z <? 0)%Z | LessEqual => (z <=? 0)%Z | Greater => (0 <? z)%Z | GreaterEqual => (0 <=? z)%Z
  end.
Definition signed (o : order) (z : outcome Z) : outcome bool :=
  match z with Gives z => Gives (by_sign o z) | Raises => Raises | Absent => Absent end.
Definition ordered (l : lang) (o : order) (i j : inst) : outcome bool :=
  match l with
  | Python => signed o (py_rust_cmp i j)
  | Kotlin | KotlinJni => signed o (kt_compare i j)
  | Ruby => signed o (rb_cmp i j)
  | Swift =>
      match o with
      | Less => sw_less i j
      | LessEqual => flip (sw_less j i)
      | Greater => sw_less j i
      | GreaterEqual => flip (sw_less i j)
      end
  end.
(** [str], [toString], [String(describing:)], [to_s]. *)
Definition text_of (l : lang) (i : inst) : option string :=
  match l with
  | Python => py_text i
  | Kotlin => kt_text false i
  | KotlinJni => kt_text true i
  | Swift => sw_text i
  | Ruby => rb_text i
  end.
(** Whether the generator and the compiler accept a type.  Kotlin: gen_kotlin/mod.rs l.232-252 refuses enums
    without data; [compareTo] of an object that is an error overrides nothing, as only other objects are
    [Comparable] (ObjectTemplate.kt l.109-118).  Swift: [Hashable] and [Comparable] require [==]. *)
Definition compiles (l : lang) (d : declaration) : bool :=
  let x := d_exports d in
  match l with
  | Python | Ruby | KotlinJni => true
  | Kotlin =>
      match d_kind d with
      | Flat _ => negb (x_eq x || x_hash x || x_ord x)
      | Object true => negb (x_ord x)
      | _ => true
      end
  | Swift => x_eq x || sw_synthesized (d_kind d) || negb (x_hash x || x_ord x)
  end.
End Library.
