(** What a default value written in an interface means, and how Python, Kotlin, Swift and Ruby read
    the small expressions the generators write for it.  The readers follow the languages' lexical
    rules for literals; they do not come from /repo. *)
From Coq Require Import QArith.QArith_base QArith.Qreduction.
From Verif Require Import Base Meta_Types.
Local Open Scope Z_scope.

(** * Values *)

(** The values a default can have.  [VFloat] is the exact rational written; rounding to a binary
    float is not modelled.  [VNew c] is a new instance of class [c] made without arguments. *)
Inductive value :=
| VBool (b : bool) | VInt (z : Z) | VFloat (q : Q) | VStr (s : str) | VBytes (s : str)
| VNone | VList | VMap | VSet
| VEnum (class variant : str) | VNew (class : str).

(** * Text *)

Fixpoint strip (p s : bytes) : option bytes :=
  match p, s with
  | [], _ => Some s
  | a :: p', b :: s' => if byte_eqb a b then strip p' s' else None
  | _, [] => None
  end.
Definition strip_end (p s : bytes) : option bytes := option_map (@rev _) (strip (rev p) (rev s)).
Definition is_ (a b : bytes) : bool := bytes_eqb a b.

(** The value of a digit, up to hexadecimal, in either case. *)
Definition digit_of (c : byte) : option Z :=
  let n := Z.of_N (b2n c) in
  if (48 <=? n) && (n <=? 57) then Some (n - 48)
  else if (97 <=? n) && (n <=? 102) then Some (n - 87)
  else if (65 <=? n) && (n <=? 70) then Some (n - 55)
  else None.
Fixpoint number_ (b acc : Z) (s : bytes) : option Z :=
  match s with
  | [] => Some acc
  | c :: r =>
      match digit_of c with
      | Some d => if d <? b then number_ b (acc * b + d) r else None
      | None => None
      end
  end.
(** A non-empty run of digits in base [b]. *)
Definition number (b : Z) (s : bytes) : option Z :=
  match s with [] => None | _ => number_ b 0 s end.

(** A leading minus sign. *)
Definition signed (rd : bytes -> option Z) (s : bytes) : option Z :=
  match strip (S_ "-") s with
  | Some r => option_map Z.opp (rd r)
  | None => rd s
  end.

(** * Decimal fractions *)

Definition is_digit (c : byte) : bool :=
  let n := Z.of_N (b2n c) in (48 <=? n) && (n <=? 57).
Fixpoint span_digits (s : bytes) : bytes * bytes :=
  match s with
  | c :: r => if is_digit c then let (a, b) := span_digits r in (c :: a, b) else ([], s)
  | [] => ([], [])
  end.
(** [-]iii[.fff][e[+-]xxx] *)
Record dec := Dec { d_neg : bool; d_int : bytes; d_frac : option bytes; d_exp : option Z }.
Definition exponent (s : bytes) : option (option Z) :=
  match s with
  | [] => Some None
  | c :: r =>
      if byte_eqb c x65 || byte_eqb c x45 then
        match strip (S_ "+") r with
        | Some r' => option_map Some (number 10 r')
        | None => option_map Some (signed (number 10) r)
        end
      else None
  end.
Definition unsigned_decimal (neg : bool) (s : bytes) : option dec :=
  let (i, r) := span_digits s in
  match strip (S_ ".") r with
  | Some r' =>
      let (f, r'') := span_digits r' in
      match exponent r'' with Some e => Some (Dec neg i (Some f) e) | None => None end
  | None => match exponent r with Some e => Some (Dec neg i None e) | None => None end
  end.
Definition decimal (s : bytes) : option dec :=
  match strip (S_ "-") s with
  | Some r => unsigned_decimal true r
  | None => unsigned_decimal false s
  end.
Definition value_of_digits (s : bytes) : Z :=
  match number 10 s with Some z => z | None => 0 end.
Definition dec_value (d : dec) : Q :=
  let frac := match d_frac d with Some f => f | None => [] end in
  let m := value_of_digits (d_int d ++ frac) in
  let m := if d_neg d then - m else m in
  let e := match d_exp d with Some e => e | None => 0 end - Z.of_nat (length frac) in
  Qred (if 0 <=? e then inject_Z (m * 10 ^ e) else m # Z.to_pos (10 ^ (- e))).
Definition nonempty (s : bytes) : bool := match s with [] => false | _ => true end.
Definition some_digits (o : option bytes) : bool := match o with Some [] => false | _ => true end.
Definition is_some {A} (o : option A) : bool := match o with Some _ => true | None => false end.
(** A number with a fraction or an exponent, and at least one digit. *)
Definition fractional (d : dec) : bool :=
  (nonempty (d_int d) || match d_frac d with Some f => nonempty f | None => false end) &&
  (is_some (d_frac d) || is_some (d_exp d)).
(** [01] is not a decimal number in Kotlin or Ruby. *)
Definition no_leading_zero (s : bytes) : bool :=
  match strip (S_ "0") s with Some (_ :: _) => false | _ => true end.
Definition read_dec (ok : dec -> bool) (s : bytes) : option Q :=
  match decimal s with Some d => if ok d then Some (dec_value d) else None | None => None end.

(** * What is meant *)

(** The names the bindings give to the classes and enum variants of an interface. *)
Record names := Names { n_class : str -> str -> str; n_variant : str -> str }.

Definition range_of (t : ty) : option (Z * Z) :=
  match t with
  | TU8 => Some (0, 255) | TI8 => Some (-128, 127)
  | TU16 => Some (0, 65535) | TI16 => Some (-32768, 32767)
  | TU32 => Some (0, 2 ^ 32 - 1) | TI32 => Some (- 2 ^ 31, 2 ^ 31 - 1)
  | TU64 => Some (0, 2 ^ 64 - 1) | TI64 => Some (- 2 ^ 63, 2 ^ 63 - 1)
  | _ => None
  end.
Definition in_range (t : ty) (z : Z) : bool :=
  match range_of t with Some (lo, hi) => (lo <=? z) && (z <=? hi) | None => false end.

(** docs/manual/src/types/defaults.md: the value a default of type [t] stands for; [None] if it is
    not a default for that type.  A custom type takes the defaults of its bridge type. *)
Fixpoint meaning (N : names) (t : ty) (d : default) : option value :=
  match t with
  | TCustom _ _ b => meaning N b d
  | TOption u =>
      match d with
      | DDefault | DLit LNone => Some VNone
      | DLit (LSome d') => meaning N u d'
      | _ => None
      end
  | TU8 | TI8 | TU16 | TI16 | TU32 | TI32 | TU64 | TI64 =>
      match d with
      | DDefault => Some (VInt 0)
      | DLit (LUInt z _ t') | DLit (LInt z _ t') =>
          if ty_eqb t t' && in_range t z then Some (VInt z) else None
      | _ => None
      end
  | TF32 | TF64 =>
      match d with
      | DDefault => Some (VFloat 0%Q)
      | DLit (LFloat s t') =>
          if ty_eqb t t' then option_map VFloat (read_dec fractional s) else None
      | _ => None
      end
  | TBool =>
      match d with DDefault => Some (VBool false) | DLit (LBool b) => Some (VBool b) | _ => None end
  | TString =>
      match d with DDefault => Some (VStr []) | DLit (LString s) => Some (VStr s) | _ => None end
  | TBytes => match d with DDefault => Some (VBytes []) | _ => None end
  | TSeq _ => match d with DDefault | DLit LEmptySeq => Some VList | _ => None end
  | TMap _ _ => match d with DDefault | DLit LEmptyMap => Some VMap | _ => None end
  | TSet _ => match d with DDefault | DLit LEmptySeq | DLit LEmptySet => Some VSet | _ => None end
  | TRecord mp n | TObject mp n _ =>
      match d with DDefault => Some (VNew (n_class N mp n)) | _ => None end
  | TEnum mp n =>
      match d with
      | DLit (LEnum v t') =>
          if ty_eqb t t' then Some (VEnum (n_class N mp n) (n_variant N v)) else None
      | _ => None
      end
  | _ => None
  end.

(** The defaults a front end can produce: there is no way to write the empty set, nor the natural
    default inside [Some], in UDL or in the macros; a negative number is always in decimal. *)
Fixpoint written_lit (l : literal) : bool :=
  match l with
  | LEmptySet => false
  | LSome (DLit l') => written_lit l'
  | LSome DDefault => false
  | LInt z Octal_ _ | LInt z Hexadecimal_ _ | LUInt z _ _ => 0 <=? z
  | _ => true
  end.
Definition written (d : default) : bool :=
  match d with DDefault => true | DLit l => written_lit l end.

(** The documentation's table has a natural default for sets; the JNI generator has none. *)
Fixpoint bare_set (t : ty) : bool :=
  match t with TSet _ => true | TCustom _ _ b => bare_set b | _ => false end.

(** Every literal in [d] satisfies [P]. *)
Fixpoint all_lit (P : literal -> bool) (l : literal) : bool :=
  P l && match l with LSome (DLit l') => all_lit P l' | _ => true end.
Definition lits (P : literal -> bool) (d : default) : bool :=
  match d with DDefault => true | DLit l => all_lit P l end.

(** A text free of the bytes [bad]. *)
Definition free_of (bad : list byte) (s : bytes) : bool :=
  forallb (fun c => negb (existsb (byte_eqb c) bad)) s.

(** Characters of identifiers, with the dot of qualified names. *)
Definition ident_byte (c : byte) : bool :=
  let n := Z.of_N (b2n c) in
  ((48 <=? n) && (n <=? 57)) || ((97 <=? n) && (n <=? 122)) || ((65 <=? n) && (n <=? 90)) ||
  (n =? 95).
Definition ident (s : bytes) : bool :=
  match s with [] => false | c :: _ => forallb ident_byte s && negb (is_digit c) end.
(** A class name: identifiers joined by dots. *)
Definition path (s : bytes) : bool :=
  match s with
  | [] => false
  | c :: _ => forallb (fun c => ident_byte c || byte_eqb c x2e) s && negb (is_digit c) &&
              negb (byte_eqb c x2e)
  end.
(** Names that are names.  (The languages' keywords are another matter.) *)
Definition names_ok (N : names) : Prop :=
  (forall mp n, path (n_class N mp n) = true) /\ (forall v, ident (n_variant N v) = true).

(** In Ruby, [Set.new] is the empty set. *)
Definition rb_names (N : names) : Prop :=
  names_ok N /\ forall mp n, n_class N mp n <> S_ "Set".

(** * Python *)

(** https://docs.python.org/3/reference/lexical_analysis.html: string literals (here the text after
    the opening quote).  The escapes of code points by name or number give [None] here when they are
    ill-formed and are otherwise decoded only for [\x]. *)
Definition simple_escape (c : byte) : option byte :=
  if byte_eqb c x6e then Some x0a else if byte_eqb c x74 then Some x09
  else if byte_eqb c x72 then Some x0d else if byte_eqb c x62 then Some x08
  else if byte_eqb c x61 then Some x07 else if byte_eqb c x66 then Some x0c
  else if byte_eqb c x76 then Some x0b else None.
Definition hex2 (a b : byte) : option byte :=
  match digit_of a, digit_of b with
  | Some x, Some y => Some (n2b (Z.to_N (x * 16 + y)))
  | _, _ => None
  end.
Fixpoint py_str (s : bytes) : option bytes :=
  match s with
  | [] => None
  | c :: r =>
      if byte_eqb c x22 then match r with [] => Some [] | _ => None end
      else if existsb (byte_eqb c) [x0a; x0d; x00] then None
      else if byte_eqb c x5c then
        match r with
        | [] => None
        | e :: r1 =>
            if byte_eqb e x78 then
              match r1 with
              | a :: b :: r2 =>
                  match hex2 a b, py_str r2 with Some h, Some k => Some (h :: k) | _, _ => None end
              | _ => None
              end
            else if existsb (byte_eqb e) [x75; x55; x4e] then None
            else if byte_eqb e x0a then py_str r1
            else if existsb (byte_eqb e) [x5c; x27; x22] then option_map (cons e) (py_str r1)
            else match simple_escape e with
                 | Some k => option_map (cons k) (py_str r1)
                 | None => option_map (fun k => c :: e :: k) (py_str r1)
                 end
        end
      else option_map (cons c) (py_str r)
  end.
(** Integers: decimal, [0x…], [0o…]. *)
Definition py_uint (s : bytes) : option Z :=
  match strip (S_ "0x") s with
  | Some r => number 16 r
  | None =>
      match strip (S_ "0o") s with
      | Some r => number 8 r
      | None => if no_leading_zero s then number 10 s else None
      end
  end.
Definition py_int : bytes -> option Z := signed py_uint.
Definition py_float : bytes -> option Q := read_dec fractional.
Definition py_number (s : bytes) : option value :=
  match py_int s with
  | Some z => Some (VInt z)
  | None => option_map VFloat (py_float s)
  end.
(** The last dot of a qualified name. *)
Fixpoint split_last (s : bytes) : option (bytes * bytes) :=
  match s with
  | [] => None
  | c :: r =>
      match split_last r with
      | Some (a, b) => Some (c :: a, b)
      | None => if byte_eqb c x2e then Some ([], r) else None
      end
  end.
Definition py_words (s : bytes) : option value :=
  if is_ s (S_ "True") then Some (VBool true)
  else if is_ s (S_ "False") then Some (VBool false)
  else if is_ s (S_ "None") then Some VNone
  else if is_ s (S_ "[]") then Some VList
  else if is_ s (S_ "{}") then Some VMap
  else if is_ s (S_ "{*()}") then Some VSet
  else if is_ s (S_ "b""""") then Some (VBytes [])
  else
    match strip_end (S_ "()") s with
    | Some n => if path n then Some (VNew n) else None
    | None =>
        match strip (S_ "int(") s with
        | Some r => match strip_end (S_ ")") r with
                    | Some n => option_map VInt (py_int n)
                    | None => None
                    end
        | None =>
            match split_last s with
            | Some (a, b) => if path a && ident b then Some (VEnum a b) else None
            | None => None
            end
        end
    end.
Definition numeric_start (c : byte) : bool :=
  is_digit c || byte_eqb c x2d || byte_eqb c x2e.
(** The value of a Python expression. *)
Definition py_eval (s : bytes) : option value :=
  match strip [x22] s with
  | Some r => option_map VStr (py_str r)
  | None =>
      match s with
      | c :: _ => if numeric_start c then py_number s else py_words s
      | [] => None
      end
  end.

(** Objects that can be changed in place, and so must not be shared between calls. *)
Definition mutable (v : value) : bool :=
  match v with VList | VMap | VSet | VNew _ => true | _ => false end.

(** What a parameter holds at run time: an immutable value, an object with its identity, or the
    generated module's [_DEFAULT]. *)
Inductive pobj := Plain (v : value) | Object_ (id : Z) (v : value) | Sentinel.
Definition obj_value (o : pobj) : option value :=
  match o with Plain v | Object_ _ v => Some v | Sentinel => None end.
(** The objects received by the calls that leave the argument out, and their identities. *)
Fixpoint omitted (args : list (option pobj)) (got : list pobj) : list pobj :=
  match args, got with
  | None :: a, o :: r => o :: omitted a r
  | Some _ :: a, _ :: r => omitted a r
  | _, _ => []
  end.
Definition ids (l : list pobj) : list Z :=
  flat_map (fun o => match o with Object_ i _ => [i] | _ => [] end) l.

(** A call with the argument receives it; one without receives the default, as an object of its own
    if it can be changed. *)
Definition receives (v : value) (a : option pobj) (o : pobj) : Prop :=
  match a with
  | Some x => o = x
  | None => obj_value o = Some v /\ (mutable v = true -> exists i, o = Object_ i v)
  end.
(** The caller does not pass [_DEFAULT] itself. *)
Definition given_ok (args : list (option pobj)) : Prop := ~ In (Some Sentinel) args.

(** A Python parameter list: no parameter without default follows one with a default. *)
Fixpoint py_params_legal (has_default : list bool) : bool :=
  match has_default with
  | [] => true
  | true :: r => forallb (fun b => b) r
  | false :: r => py_params_legal r
  end.

(** * Kotlin *)

(** https://kotlinlang.org/spec/syntax-and-grammar.html: line strings.  A [$] before a name or a brace
    starts an expression to be interpolated: no constant. *)
Definition letter (c : byte) : bool := ident_byte c && negb (is_digit c).
Definition kt_escape (c : byte) : option byte :=
  if byte_eqb c x74 then Some x09 else if byte_eqb c x62 then Some x08
  else if byte_eqb c x6e then Some x0a else if byte_eqb c x72 then Some x0d
  else if existsb (byte_eqb c) [x27; x22; x5c; x24] then Some c else None.
Fixpoint kt_str (s : bytes) : option bytes :=
  match s with
  | [] => None
  | c :: r =>
      if byte_eqb c x22 then match r with [] => Some [] | _ => None end
      else if existsb (byte_eqb c) [x0a; x0d] then None
      else if byte_eqb c x24 then
        match r with
        | e :: _ => if letter e || byte_eqb e x7b || byte_eqb e x60 then None
                    else option_map (cons c) (kt_str r)
        | [] => None
        end
      else if byte_eqb c x5c then
        match r with
        | e :: r' => match kt_escape e with
                     | Some k => option_map (cons k) (kt_str r')
                     | None => None
                     end
        | [] => None
        end
      else option_map (cons c) (kt_str r)
  end.
(** Integer literals: decimal or [0x…]; there is no octal.  A literal, without its sign, is at most
    [Long.MAX_VALUE], or [ULong.MAX_VALUE] if unsigned. *)
Definition kt_uint (max : Z) (s : bytes) : option Z :=
  match
    match strip (S_ "0x") s with
    | Some r => number 16 r
    | None => if no_leading_zero s then number 10 s else None
    end
  with
  | Some z => if z <=? max then Some z else None
  | None => None
  end.
Definition fits (t : ty) (o : option Z) : option value :=
  match o with Some z => if in_range t z then Some (VInt z) else None | None => None end.
Definition kt_signed (s : bytes) : option Z := signed (kt_uint (2 ^ 63 - 1)) s.
(** [n.toByte()] and the like bind tighter than a minus sign, and [-] gives an [Int], which is not a
    [Byte]: only without sign. *)
Definition kt_small (t : ty) (conv s : bytes) : option value :=
  match strip_end conv s with
  | Some n => fits t (kt_uint (2 ^ 31 - 1) n)
  | None => None
  end.
Definition or_else {A} (a b : option A) : option A := match a with Some _ => a | None => b end.
Definition kt_suffixed (sfx : list bytes) (s : bytes) : option Z :=
  fold_right (fun x r =>
    match strip_end x s with Some n => kt_uint (2 ^ 64 - 1) n | None => r end) None sfx.
Definition kt_frac (d : dec) : bool := fractional d && some_digits (d_frac d).
(** A Kotlin expression where a value of type [t] is expected. *)
Fixpoint kt_read (t : ty) (s : bytes) : option value :=
  match t with
  | TCustom _ _ b => kt_read b s
  | TOption u => if is_ s (S_ "null") then Some VNone else kt_read u s
  | TBool => if is_ s (S_ "true") then Some (VBool true)
             else if is_ s (S_ "false") then Some (VBool false) else None
  | TString => match strip [x22] s with Some r => option_map VStr (kt_str r) | None => None end
  | TBytes => if is_ s (S_ "byteArrayOf()") then Some (VBytes []) else None
  | TI8 => or_else (kt_small t (S_ ".toByte()") s) (fits t (kt_signed s))
  | TI16 => or_else (kt_small t (S_ ".toShort()") s) (fits t (kt_signed s))
  | TI32 => fits t (kt_signed s)
  | TI64 => match strip_end (S_ "L") s with Some n => fits t (kt_signed n) | None => None end
  | TU8 => or_else (kt_small t (S_ ".toUByte()") s) (fits t (kt_suffixed [S_ "u"; S_ "U"] s))
  | TU16 => or_else (kt_small t (S_ ".toUShort()") s) (fits t (kt_suffixed [S_ "u"; S_ "U"] s))
  | TU32 => fits t (kt_suffixed [S_ "u"; S_ "U"] s)
  | TU64 => fits t (kt_suffixed [S_ "uL"; S_ "UL"] s)
  | TF32 => match strip_end (S_ "f") s with
            | Some n => option_map VFloat (read_dec kt_frac n)
            | None => None
            end
  | TF64 => option_map VFloat (read_dec kt_frac s)
  | TSeq _ => if is_ s (S_ "listOf()") || is_ s (S_ "emptyList()") then Some VList else None
  | TMap _ _ => if is_ s (S_ "mapOf()") || is_ s (S_ "emptyMap()") then Some VMap else None
  | TSet _ => if is_ s (S_ "setOf()") || is_ s (S_ "emptySet()") then Some VSet else None
  | TRecord _ _ | TObject _ _ _ =>
      match strip_end (S_ "()") s with
      | Some n => if path n then Some (VNew n) else None
      | None => None
      end
  | TEnum _ _ =>
      match split_last s with
      | Some (a, b) => if path a && ident b then Some (VEnum a b) else None
      | None => None
      end
  | _ => None
  end.

(** * Swift *)

(** https://docs.swift.org/swift-book: single-line strings.  [\(] starts an interpolated expression,
    [\u{…}] is left out ([None]). *)
Definition sw_escape (c : byte) : option byte :=
  if byte_eqb c x30 then Some x00 else if byte_eqb c x74 then Some x09
  else if byte_eqb c x6e then Some x0a else if byte_eqb c x72 then Some x0d
  else if existsb (byte_eqb c) [x27; x22; x5c] then Some c else None.
Fixpoint sw_str (s : bytes) : option bytes :=
  match s with
  | [] => None
  | c :: r =>
      if byte_eqb c x22 then match r with [] => Some [] | _ => None end
      else if existsb (byte_eqb c) [x0a; x0d] then None
      else if byte_eqb c x5c then
        match r with
        | e :: r' => match sw_escape e with
                     | Some k => option_map (cons k) (sw_str r')
                     | None => None
                     end
        | [] => None
        end
      else option_map (cons c) (sw_str r)
  end.
Definition sw_uint (s : bytes) : option Z :=
  match strip (S_ "0x") s with
  | Some r => number 16 r
  | None => match strip (S_ "0o") s with Some r => number 8 r | None => number 10 s end
  end.
Definition sw_int : bytes -> option Z := signed sw_uint.
Definition sw_frac (d : dec) : bool := nonempty (d_int d) && some_digits (d_frac d).
(** [Label(literal)]. *)
Definition made (label s : bytes) : option bytes :=
  match strip (label ++ S_ "(") s with Some r => strip_end (S_ ")") r | None => None end.
Definition sw_sized (t : ty) (label s : bytes) : option value :=
  match made label s with Some n => fits t (sw_int n) | None => fits t (sw_int s) end.
Definition sw_float (label s : bytes) : option value :=
  option_map VFloat
    (read_dec sw_frac (match made label s with Some n => n | None => s end)).
(** A Swift expression where a value of type [t] is expected; [E] gives the Swift name of an enum. *)
Fixpoint sw_read (E : str -> str -> str) (t : ty) (s : bytes) : option value :=
  match t with
  | TCustom _ _ b => sw_read E b s
  | TOption u => if is_ s (S_ "nil") then Some VNone else sw_read E u s
  | TBool => if is_ s (S_ "true") then Some (VBool true)
             else if is_ s (S_ "false") then Some (VBool false) else None
  | TString => match strip [x22] s with Some r => option_map VStr (sw_str r) | None => None end
  | TBytes => if is_ s (S_ "Data([])") then Some (VBytes []) else None
  | TI8 => sw_sized t (S_ "Int8") s | TU8 => sw_sized t (S_ "UInt8") s
  | TI16 => sw_sized t (S_ "Int16") s | TU16 => sw_sized t (S_ "UInt16") s
  | TI32 => sw_sized t (S_ "Int32") s | TU32 => sw_sized t (S_ "UInt32") s
  | TI64 => sw_sized t (S_ "Int64") s | TU64 => sw_sized t (S_ "UInt64") s
  | TF32 => sw_float (S_ "Float") s
  | TF64 => sw_float (S_ "Double") s
  | TSeq _ => if is_ s (S_ "[]") then Some VList else None
  | TMap _ _ => if is_ s (S_ "[:]") then Some VMap else None
  | TSet _ => if is_ s (S_ "Set()") then Some VSet else None
  | TRecord _ _ | TObject _ _ _ =>
      match strip_end (S_ "()") s with
      | Some n => if path n then Some (VNew n) else None
      | None => None
      end
  | TEnum mp n =>
      match strip (S_ ".") s with
      | Some v => if ident v then Some (VEnum (E mp n) v) else None
      | None => None
      end
  | _ => None
  end.

(** * Ruby *)

(** https://docs.ruby-lang.org/en/master/syntax/literals_rdoc.html: double-quoted strings.  [#] before
    a brace, [$] or [@] interpolates.  Escapes by code point, control and octal escapes are left
    out ([None]). *)
Fixpoint rb_str (s : bytes) : option bytes :=
  match s with
  | [] => None
  | c :: r =>
      if byte_eqb c x22 then match r with [] => Some [] | _ => None end
      else if byte_eqb c x23 then
        match r with
        | e :: _ => if existsb (byte_eqb e) [x7b; x24; x40] then None
                    else option_map (cons c) (rb_str r)
        | [] => None
        end
      else if byte_eqb c x5c then
        match r with
        | e :: r' =>
            if existsb (byte_eqb e) [x75; x78; x63; x43; x4d] || is_digit e then None
            else if byte_eqb e x0a then rb_str r'
            else option_map (cons (match simple_escape e with
                                   | Some k => k
                                   | None => if byte_eqb e x73 then x20
                                             else if byte_eqb e x65 then x1b else e
                                   end)) (rb_str r')
        | [] => None
        end
      else option_map (cons c) (rb_str r)
  end.
Definition rb_frac (d : dec) : bool :=
  fractional d && nonempty (d_int d) && some_digits (d_frac d) && no_leading_zero (d_int d).
Definition rb_number (s : bytes) : option value :=
  match py_int s with
  | Some z => Some (VInt z)
  | None => option_map VFloat (read_dec rb_frac s)
  end.
(** [A::B]. *)
Fixpoint split_colons (s : bytes) : option (bytes * bytes) :=
  match s with
  | c :: r =>
      match strip (S_ "::") s with
      | Some r' => Some ([], r')
      | None => match split_colons r with Some (a, b) => Some (c :: a, b) | None => None end
      end
  | [] => None
  end.
Definition rb_words (s : bytes) : option value :=
  if is_ s (S_ "true") then Some (VBool true)
  else if is_ s (S_ "false") then Some (VBool false)
  else if is_ s (S_ "nil") then Some VNone
  else if is_ s (S_ "[]") then Some VList
  else if is_ s (S_ "{}") then Some VMap
  else if is_ s (S_ "Set.new") then Some VSet
  else
    match split_colons s with
    | Some (a, b) => if path a && ident b then Some (VEnum a b) else None
    | None =>
        match strip_end (S_ ".new") s with
        | Some n => if path n then Some (VNew n) else None
        | None => None
        end
    end.
(** The value of a Ruby expression. *)
Definition rb_eval (s : bytes) : option value :=
  if is_ s (S_ """"".b") then Some (VBytes [])
  else
    match strip [x22] s with
    | Some r => option_map VStr (rb_str r)
    | None =>
        match s with
        | c :: _ => if numeric_start c then rb_number s else rb_words s
        | [] => None
        end
    end.

(** * Defaults without surprises in each language *)

(** [[]] as the default of a set. *)
Fixpoint set_as_list (t : ty) (d : default) : bool :=
  match t with
  | TOption u => match d with DLit (LSome d') => set_as_list u d' | _ => false end
  | TCustom _ _ b => set_as_list b d
  | TSet _ => match d with DLit LEmptySeq => true | _ => false end
  | _ => false
  end.
(** The written number has the form [ok]. *)
Definition number_ok (ok : dec -> bool) (s : bytes) : bool :=
  match decimal s with Some d => ok d | None => false end.
(** Python: no quote, backslash, line end or NUL in strings; enums whose class is called as they
    are. *)
Definition py_plain (N : names) (l : literal) : bool :=
  match l with
  | LString s => free_of [x22; x5c; x0a; x0d; x00] s
  | LEnum _ (TEnum mp n) => bytes_eqb (n_class N mp n) n
  | _ => true
  end.
(** Kotlin: no quote, backslash, line end or dollar in strings; a digit after the point; not
    [i64::MIN]. *)
Definition kt_plain (l : literal) : bool :=
  match l with
  | LString s => free_of [x22; x5c; x0a; x0d; x24] s
  | LFloat s _ => number_ok kt_frac s
  | LInt z _ _ => - 2 ^ 63 <? z
  | _ => true
  end.
(** Kotlin over JNI: quotes are fine; a point in every fraction; no negative [i8] or [i16]. *)
Definition jni_plain (l : literal) : bool :=
  match l with
  | LString s => free_of [x5c; x0a; x0d; x24] s
  | LFloat s _ => number_ok kt_frac s && existsb (byte_eqb x2e) s
  | LInt z _ (TI8 | TI16) => 0 <=? z
  | LInt z _ _ => - 2 ^ 63 <? z
  | _ => true
  end.
(** Swift: no quote, backslash or line end in strings; digits on both sides of the point. *)
Definition sw_plain (l : literal) : bool :=
  match l with
  | LString s => free_of [x22; x5c; x0a; x0d] s
  | LFloat s _ => number_ok sw_frac s
  | _ => true
  end.
(** Ruby: no quote, backslash or hash in strings; digits on both sides of the point. *)
Definition rb_plain (l : literal) : bool :=
  match l with
  | LString s => free_of [x22; x5c; x23] s
  | LFloat s _ => number_ok rb_frac s
  | _ => true
  end.

(** * UDL *)

(** WebIDL's tokens for integers: decimal [-?[1-9][0-9]*], hexadecimal [-?0[xX][0-9A-Fa-f]+], octal
    [-?0[0-7]*].  Their value. *)
Inductive int_token := TokDec (s : str) | TokHex (s : str) | TokOct (s : str).
Definition hex_prefix (s : bytes) : option bytes :=
  or_else (strip (S_ "0x") s) (strip (S_ "0X") s).
Definition token_value (k : int_token) : option Z :=
  match k with
  | TokDec s => signed (fun r => if no_leading_zero r then number 10 r else None) s
  | TokHex s => signed (fun r => match hex_prefix r with Some h => number 16 h | None => None end) s
  | TokOct s => signed (fun r => match strip (S_ "0") r with
                                 | Some _ => number 8 r
                                 | None => None
                                 end) s
  end.
(** A default value as written in UDL. *)
Inductive udl :=
| UBool (b : bool) | UEmptyArray | UEmptyDictionary | UFloat (s : str) | UNotFinite
| UInteger (k : int_token) | UNull | UString (s : str).
(** The value it has for a type. *)
Fixpoint udl_meaning (N : names) (t : ty) (u : udl) : option value :=
  match t, u with
  | TOption _, UNull => Some VNone
  | TOption t', _ => udl_meaning N t' u
  | TBool, UBool b => Some (VBool b)
  | TString, UString s => Some (VStr s)
  | TEnum mp n, UString s => Some (VEnum (n_class N mp n) (n_variant N s))
  | TSeq _, UEmptyArray => Some VList
  | TMap _ _, UEmptyDictionary => Some VMap
  | (TF32 | TF64), UFloat s => option_map VFloat (read_dec fractional s)
  | (TU8 | TI8 | TU16 | TI16 | TU32 | TI32 | TU64 | TI64), UInteger k => fits t (token_value k)
  | _, _ => None
  end.
(** The usual form: a small [x] in the prefix, and no sign on zero. *)
Definition usual (u : udl) : bool :=
  match u with
  | UInteger (TokDec s as k) | UInteger (TokHex s as k) | UInteger (TokOct s as k) =>
      match strip (S_ "-") s with
      | Some r => negb (is_some (strip (S_ "0X") r)) &&
                  match token_value k with Some z => negb (z =? 0) | None => false end
      | None => negb (is_some (strip (S_ "0X") s))
      end
  | _ => true
  end.
