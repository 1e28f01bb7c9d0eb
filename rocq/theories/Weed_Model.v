(** Model of how the text of a UDL file is read: weedle2/src (a parser made of nom combinators) and the
    call in uniffi_udl/src/collectors.rs:29-42.
    A text is the list of its bytes (UTF-8). nom's [Failure] and [Incomplete] do not occur in this code.
    The depth of the parser is bounded by the length of the text; running out of stack is not modelled. *)
From Coq Require Export List Ascii String Bool Arith NArith Lia.
Export ListNotations.
Open Scope string_scope.
Open Scope list_scope.

Definition text := list ascii.
Definition tx (s : string) : text := list_ascii_of_string s.

(** ** Characters *)
Definition is_char (c : string) (x : ascii) : bool := match c with String a _ => Ascii.eqb a x | EmptyString => false end.
Definition between (a b : ascii) (x : ascii) : bool := andb (N_of_ascii a <=? N_of_ascii x)%N (N_of_ascii x <=? N_of_ascii b)%N.
Definition is_digit : ascii -> bool := between "0"%char "9"%char.
Definition is_alpha (x : ascii) : bool := orb (between "a"%char "z"%char x) (between "A"%char "Z"%char x).
Definition is_alphanum (x : ascii) : bool := orb (is_alpha x) (is_digit x).
Definition is_hex (x : ascii) : bool := orb (is_digit x) (orb (between "a"%char "f"%char x) (between "A"%char "F"%char x)).
Definition is_oct : ascii -> bool := between "0"%char "7"%char.
(** common.rs:4-6 is_alphanum_underscore_dash *)
Definition is_word (x : ascii) : bool := orb (is_alphanum x) (orb (is_char "_" x) (is_char "-" x)).
Definition newline : ascii := ascii_of_nat 10.
(** nom multispace: blank, tab, carriage return, newline. *)
Definition is_white (x : ascii) : bool :=
  orb (is_char " " x) (orb (Ascii.eqb x (ascii_of_nat 9)) (orb (Ascii.eqb x (ascii_of_nat 13)) (Ascii.eqb x newline))).

(** ** Combinators on texts: what is left after a match *)
Definition rest := option text.
Definition ch (p : ascii -> bool) (s : text) : rest := match s with x :: s' => if p x then Some s' else None | [] => None end.
Fixpoint skip (p : ascii -> bool) (s : text) : text := match s with x :: s' => if p x then skip p s' else s | [] => [] end.
Definition while0 p (s : text) : rest := Some (skip p s).
Definition while1 p (s : text) : rest := match ch p s with Some s' => Some (skip p s') | None => None end.
Definition then_ (f g : text -> rest) (s : text) : rest := match f s with Some s' => g s' | None => None end.
Definition or_ (f g : text -> rest) (s : text) : rest := match f s with Some s' => Some s' | None => g s end.
Definition maybe (f : text -> rest) (s : text) : rest := match f s with Some s' => Some s' | None => Some s end.
Fixpoint tag (k s : text) : rest :=
  match k, s with
  | [], _ => Some s
  | a :: k', x :: s' => if Ascii.eqb a x then tag k' s' else None
  | _ :: _, [] => None
  end.
(** nom recognize: the part that was matched. *)
Definition matched (s s' : text) : text := firstn (List.length s - List.length s') s.

(** ** Blanks: whitespace.rs:3-28 *)
(** take_until("\n") and tag("\n") *)
Fixpoint after_newline (s : text) : rest := match s with x :: s' => if Ascii.eqb x newline then Some s' else after_newline s' | [] => None end.
(** take_until("*/") and tag("*/") *)
Fixpoint after_close (s : text) : rest :=
  match s with
  | [] => None
  | x :: s' => match tag (tx "*/") s with Some r => Some r | None => after_close s' end
  end.
Definition line_comment (s : text) : rest :=
  match tag (tx "//") s with
  | Some s' => match tag (tx "/") s' with Some _ => None | None => after_newline s' end
  | None => None
  end.
Definition block_comment (s : text) : rest := match tag (tx "/*") s with Some s' => after_close s' | None => None end.
Definition sp1 : text -> rest := or_ line_comment (or_ (while1 is_white) block_comment).
Fixpoint sp_loop (fuel : nat) (s : text) : text :=
  match fuel with
  | O => s
  | S f => match sp1 s with Some s' => sp_loop f s' | None => s end
  end.
Definition sp (s : text) : text := sp_loop (List.length s) s.

(** ** Terminals *)
Inductive lexer :=
| LKw (k : string)    (* term.rs:28-38 ident_tag *)
| LPunct (c : ascii)  (* term.rs:1-18 *)
| LIdent | LDec | LHex | LOct | LFloat | LStr.

(** term.rs:28-38: no character of an identifier follows. *)
Definition kw (k : text) (s : text) : rest :=
  match tag k s with
  | Some s' => match ch is_word s' with Some _ => None | None => Some s' end
  | None => None
  end.
(** common.rs:107-115: the underscore is not part of the name. *)
Definition ident_start : text -> rest := maybe (ch (is_char "_")).
Definition ident_body : text -> rest := then_ (while1 is_alphanum) (while0 is_word).
(** literal.rs:7-13, 17-24, 28-34 *)
Definition minus : text -> rest := maybe (ch (is_char "-")).
Definition dec : text -> rest := then_ minus (then_ (ch (between "1"%char "9"%char)) (while0 is_digit)).
Definition hex : text -> rest := then_ minus (then_ (ch (is_char "0")) (then_ (ch (fun x => orb (is_char "x" x) (is_char "X" x))) (while0 is_hex))).
Definition oct : text -> rest := then_ minus (then_ (ch (is_char "0")) (while0 is_oct)).
(** literal.rs:91-124 *)
Definition exponent : text -> rest :=
  then_ (ch (fun x => orb (is_char "e" x) (is_char "E" x))) (then_ (maybe (ch (fun x => orb (is_char "+" x) (is_char "-" x)))) (while1 is_digit)).
Definition float : text -> rest :=
  then_ minus
    (or_ (then_ (or_ (then_ (while1 is_digit) (then_ (ch (is_char ".")) (while0 is_digit)))
                     (then_ (while0 is_digit) (then_ (ch (is_char ".")) (while1 is_digit))))
                (maybe exponent))
         (then_ (while1 is_digit) exponent)).
(** literal.rs:40-46: the text between the quotes. *)
Fixpoint until_quote (s : text) : option (text * text) :=
  match s with
  | [] => None
  | x :: s' => if is_char """" x then Some ([], s') else match until_quote s' with Some (v, r) => Some (x :: v, r) | None => None end
  end.
Definition value (f : text -> rest) (s : text) : option (text * text) :=
  match f s with Some s' => Some (matched s s', s') | None => None end.
Definition lex (l : lexer) (s : text) : option (text * text) :=
  match l with
  | LKw k => value (kw (tx k)) s
  | LPunct c => value (tag [c]) s
  | LIdent => match ident_start s with Some s' => value ident_body s' | None => None end
  | LDec => value dec s
  | LHex => value hex s
  | LOct => value oct s
  | LFloat => value float s
  | LStr => match s with x :: s' => if is_char """" x then until_quote s' else None | [] => None end
  end.
(** whitespace.rs:31-36 ws *)
Definition ws (l : lexer) (s : text) : option (text * text) :=
  match lex l (sp s) with Some (v, r) => Some (v, sp r) | None => None end.

(** common.rs:35-45 docstring *)
Fixpoint until_newline (s : text) : option (text * text) :=
  match s with
  | [] => None
  | x :: s' => if Ascii.eqb x newline then Some ([], s') else match until_newline s' with Some (v, r) => Some (x :: v, r) | None => None end
  end.
Definition doc_line (s : text) : option (text * text) :=
  match tag (tx "///") (skip is_white s) with Some s' => until_newline s' | None => None end.
Fixpoint doc_loop (fuel : nat) (s : text) : list text * text :=
  match fuel with
  | O => ([], s)
  | S f => match doc_line s with Some (v, r) => let '(l, r') := doc_loop f r in (v :: l, r') | None => ([], s) end
  end.
Fixpoint join (l : list text) : text := match l with [] => [] | [x] => x | x :: l' => x ++ newline :: join l' end.
Definition docstring (s : text) : option (text * text) :=
  match doc_loop (List.length s) s with ([], _) => None | (l, r) => Some (join l, r) end.

(** ** Grammars: macros.rs and the combinators of nom that it uses *)
Inductive G : Type -> Type :=
| Lex (l : lexer) : G text
| Doc : G text
| Ret {A} (a : A) : G A
| Bind {A B} (g : G A) (f : A -> G B) : G B      (* the fields of a struct *)
| Never {A} : G A
| Alt {A} (g h : G A) : G A                      (* the variants of an enum *)
| Opt {A} (g : G A) : G (option A)               (* common.rs:15-17 *)
| Many {A} (g : G A) : G (list A)                (* common.rs:24-26 *)
| Sep {A} (one : bool) (sep : lexer) (g : G A) : G (list A).  (* separated_list0 and separated_list1 *)

(** nom many0: an item that takes nothing is an error. *)
Fixpoint many_loop {A} (p : text -> option (A * text)) (fuel : nat) (s : text) : option (list A * text) :=
  match p s with
  | None => Some ([], s)
  | Some (a, s') =>
      if (List.length s' =? List.length s)%nat then None
      else match fuel with
           | O => None
           | S f => match many_loop p f s' with Some (l, r) => Some (a :: l, r) | None => None end
           end
  end.
(** nom separated_list0 and 1, after the first item: if no item follows the separator, it is not taken. *)
Fixpoint sep_loop {A} (sep : text -> option (text * text)) (p : text -> option (A * text)) (fuel : nat) (s : text) : option (list A * text) :=
  match sep s with
  | None => Some ([], s)
  | Some (_, s1) =>
      if (List.length s1 =? List.length s)%nat then None
      else match p s1 with
           | None => Some ([], s)
           | Some (a, s2) =>
               match fuel with
               | O => None
               | S f => match sep_loop sep p f s2 with Some (l, r) => Some (a :: l, r) | None => None end
               end
           end
  end.
Fixpoint run {A} (g : G A) : text -> option (A * text) :=
  match g in G A return text -> option (A * text) with
  | Lex l => ws l
  | Doc => docstring
  | Ret a => fun s => Some (a, s)
  | Bind g f => fun s => match run g s with Some (a, s') => run (f a) s' | None => None end
  | Never => fun _ => None
  | Alt g h => fun s => match run g s with Some r => Some r | None => run h s end
  | Opt g => fun s => match run g s with Some (a, s') => Some (Some a, s') | None => Some (None, s) end
  | Many g => fun s => many_loop (run g) (List.length s) s
  | Sep one sep g => fun s =>
      match run g s with
      | Some (a, s') => match sep_loop (ws sep) (run g) (List.length s') s' with Some (l, r) => Some (a :: l, r) | None => None end
      | None => if one then None else Some ([], s)
      end
  end.

Declare Scope grammar_scope.
Notation "x <- g ;; h" := (Bind g (fun x => h)) (at level 61, g at next level, right associativity) : grammar_scope.
Notation "g ;;; h" := (Bind g (fun _ => h)) (at level 61, right associativity) : grammar_scope.
Open Scope grammar_scope.
Definition k (s : string) : G text := Lex (LKw s).
Definition p (s : string) : G text := Lex (LPunct (match s with String c _ => c | EmptyString => zero end)).
Definition alts {A} (l : list (G A)) : G A := fold_right Alt Never l.
Definition given {A} (g : G A) : G bool := x <- Opt g ;; Ret (match x with Some _ => true | None => false end).
Definition ident : G text := Lex LIdent.

(** ** Types: types.rs *)
Inductive int_kind := LongLong | Long | Short.
Inductive float_kind := Float32 | Float64.
Inductive ty :=
| TAny
| TPromise (result : option ty)
| TInt (unsigned : bool) (i : int_kind) (null : bool)
| TFloat (unrestricted : bool) (f : float_kind) (null : bool)
| TNamed (name : string) (null : bool)
| TSequence (t : ty) (null : bool)
| TFrozen (t : ty) (null : bool)
| TRecord (key : string) (t : ty) (null : bool)
| TRecordOf (key t : ty) (null : bool)
| TIdent (name : text) (null : bool).

(** l.66-73 MayBeNull *)
Definition null : G bool := given (p "?").
(** l.84-102 *)
Definition integer : G ty := alts [
  (u <- given (k "unsigned") ;; k "long" ;;; k "long" ;;; n <- null ;; Ret (TInt u LongLong n));
  (u <- given (k "unsigned") ;; k "long" ;;; n <- null ;; Ret (TInt u Long n));
  (u <- given (k "unsigned") ;; k "short" ;;; n <- null ;; Ret (TInt u Short n))].
(** l.105-121 *)
Definition floating : G ty := alts [
  (u <- given (k "unrestricted") ;; k "float" ;;; n <- null ;; Ret (TFloat u Float32 n));
  (u <- given (k "unrestricted") ;; k "double" ;;; n <- null ;; Ret (TFloat u Float64 n))].
Definition named (s : string) : G ty := k s ;;; n <- null ;; Ret (TNamed s n).
(** l.26-31, l.33-48: the types without parts, before and after the sequences. *)
Definition names1 : list string := ["boolean"; "byte"; "octet"; "ByteString"; "DOMString"; "USVString"].
Definition names2 : list string := ["object"; "symbol"; "Error"; "ArrayBuffer"; "DataView"; "Int8Array"; "Int16Array"; "Int32Array";
  "Uint8Array"; "Uint16Array"; "Uint32Array"; "Uint8ClampedArray"; "Float32Array"; "Float64Array"; "ArrayBufferView"; "BufferSource"].
(** l.10-52. Unions (l.17) are left out: UniFFI refuses them. *)
Fixpoint nonany_g (depth : nat) : G ty :=
  match depth with
  | O => Never
  | S d =>
      let type := Alt (k "any" ;;; Ret TAny) (nonany_g d) in
      alts ([(k "Promise" ;;; p "<" ;;; r <- Alt (k "undefined" ;;; Ret None) (t <- type ;; Ret (Some t)) ;; p ">" ;;; Ret (TPromise r));
             integer; floating] ++ map named names1 ++
            [(k "sequence" ;;; p "<" ;;; t <- type ;; p ">" ;;; n <- null ;; Ret (TSequence t n))] ++ map named names2 ++
            [(k "FrozenArray" ;;; p "<" ;;; t <- type ;; p ">" ;;; n <- null ;; Ret (TFrozen t n));
             (k "record" ;;; p "<" ;;;
              f <- Alt (alts (map (fun s => k s ;;; Ret (TRecord s)) ["ByteString"; "DOMString"; "USVString"]))
                       (key <- nonany_g d ;; Ret (TRecordOf key)) ;;
              p "," ;;; t <- type ;; p ">" ;;; n <- null ;; Ret (f t n));
             (w <- ident ;; n <- null ;; Ret (TIdent w n))])
  end.
Definition type_g (d : nat) : G ty := Alt (k "any" ;;; Ret TAny) (nonany_g d).
(** l.145-149 ReturnType: nothing for [undefined]. *)
Definition return_g (d : nat) : G (option ty) := Alt (k "undefined" ;;; Ret None) (t <- type_g d ;; Ret (Some t)).

(** ** Attributes: attribute.rs. The two forms with lists of arguments (l.15-31) are left out. *)
Inductive attr := APlain (w : text) | AIs (w v : text) | AString (w s : text) | AList (w : text) (l : list text).
Definition attr_g : G attr := alts [
  (w <- ident ;; p "=" ;;; p "(" ;;; l <- Sep false (LPunct ","%char) ident ;; p ")" ;;; Ret (AList w l));
  (w <- ident ;; p "=" ;;; Alt (v <- ident ;; Ret (AIs w v)) (s <- Lex LStr ;; Ret (AString w s)));
  (w <- ident ;; Ret (APlain w))].
Definition attrs_g : G (option (list attr)) := Opt (p "[" ;;; l <- Sep false (LPunct ","%char) attr_g ;; p "]" ;;; Ret l).

(** ** Values: literal.rs:50-68 *)
Inductive lit :=
| VBool (b : bool) | VArray | VDict | VFloat (s : text) | VNegInf | VInf | VNaN | VDec (s : text) | VHex (s : text) | VOct (s : text)
| VNull | VString (s : text).
Definition lit_g : G lit := alts [
  (k "true" ;;; Ret (VBool true)); (k "false" ;;; Ret (VBool false));
  (p "[" ;;; p "]" ;;; Ret VArray); (p "{" ;;; p "}" ;;; Ret VDict);
  (s <- Lex LFloat ;; Ret (VFloat s)); (k "-Infinity" ;;; Ret VNegInf); (k "Infinity" ;;; Ret VInf); (k "NaN" ;;; Ret VNaN);
  (s <- Lex LDec ;; Ret (VDec s)); (s <- Lex LHex ;; Ret (VHex s)); (s <- Lex LOct ;; Ret (VOct s));
  (k "null" ;;; Ret VNull); (s <- Lex LStr ;; Ret (VString s))].
(** common.rs:118-122 *)
Definition default_g : G lit := p "=" ;;; lit_g.

(** ** Members *)
(** argument.rs:11-24. Variadic arguments are left out. *)
Record arg := Arg { g_attrs : option (list attr); g_optional : bool; g_tattrs : option (list attr); g_type : ty; g_name : text; g_default : option lit }.
Definition arg_g (d : nat) : G arg :=
  a <- attrs_g ;; o <- given (k "optional") ;; b <- attrs_g ;; t <- type_g d ;; w <- ident ;;
  v <- (if o then Opt default_g else Ret None) ;; Ret (Arg a o b t w v).
Definition args_g (d : nat) : G (list arg) := p "(" ;;; l <- Sep false (LPunct ","%char) (arg_g d) ;; p ")" ;;; Ret l.
(** dictionary.rs:10-18 *)
Record field := Field { f_doc : option text; f_attrs : option (list attr); f_required : bool; f_type : ty; f_name : text; f_default : option lit }.
Definition field_g (d : nat) : G field :=
  c <- Opt Doc ;; a <- attrs_g ;; r <- given (k "required") ;; t <- type_g d ;; w <- ident ;; v <- Opt default_g ;; p ";" ;;;
  Ret (Field c a r t w v).
(** interface.rs:43-64, namespace.rs:14-21: constructors and operations. The others are left out: UniFFI refuses
    them. [stringifier], [static], [getter] and so on (l.58-59) are kept as a list of words. *)
Inductive member :=
| Constructor (doc : option text) (attrs : option (list attr)) (args : list arg)
| Operation (doc : option text) (attrs : option (list attr)) (special : list string) (result : option ty) (name : option text) (args : list arg).
Definition one_of (l : list string) : G (list string) :=
  x <- Opt (alts (map (fun s => k s ;;; Ret s) l)) ;; Ret (match x with Some s => [s] | None => [] end).
Definition constructor_g (d : nat) : G member :=
  c <- Opt Doc ;; a <- attrs_g ;; k "constructor" ;;; l <- args_g d ;; p ";" ;;; Ret (Constructor c a l).
Definition operation_g (specials : bool) (d : nat) : G member :=
  c <- Opt Doc ;; a <- attrs_g ;;
  x <- (if specials then y <- one_of ["stringifier"; "static"] ;; z <- one_of ["getter"; "setter"; "deleter"; "legacycaller"] ;; Ret (y ++ z) else Ret []) ;;
  r <- return_g d ;; w <- Opt ident ;; l <- args_g d ;; p ";" ;;; Ret (Operation c a x r w l).
(** lib.rs:233-240, common.rs:87-93: a comma may follow the last one. *)
Definition variants_g : G (list (option text * text)) :=
  l <- Sep true (LPunct ","%char) (c <- Opt Doc ;; s <- Lex LStr ;; Ret (c, s)) ;; Opt (p ",") ;;; Ret l.

(** ** Definitions: lib.rs:100-229. Mixins, partial definitions, [includes] and [implements] are left out:
    UniFFI refuses them. *)
Inductive def :=
| DCallback (attrs : option (list attr)) (name : text) (result : option ty) (args : list arg)
| DCallbackInterface (doc : option text) (attrs : option (list attr)) (name : text) (parent : option text) (l : list member)
| DInterface (doc : option text) (attrs : option (list attr)) (name : text) (parent : option text) (l : list member)
| DNamespace (doc : option text) (attrs : option (list attr)) (name : text) (l : list member)
| DDictionary (doc : option text) (attrs : option (list attr)) (name : text) (parent : option text) (l : list field)
| DEnum (doc : option text) (attrs : option (list attr)) (name : text) (l : list (option text * text))
| DTypedef (attrs : option (list attr)) (tattrs : option (list attr)) (t : ty) (name : text).
Definition parent_g : G (option text) := Opt (p ":" ;;; ident).
Definition braced {A} (g : G A) : G A := p "{" ;;; x <- g ;; p "}" ;;; p ";" ;;; Ret x.
Definition members_g (d : nat) : G (list member) := Many (Alt (constructor_g d) (operation_g true d)).
Definition def_g (d : nat) : G def := alts [
  (a <- attrs_g ;; k "callback" ;;; w <- ident ;; p "=" ;;; r <- return_g d ;; l <- args_g d ;; p ";" ;;; Ret (DCallback a w r l));
  (c <- Opt Doc ;; a <- attrs_g ;; k "callback" ;;; k "interface" ;;; w <- ident ;; i <- parent_g ;; l <- braced (members_g d) ;; Ret (DCallbackInterface c a w i l));
  (c <- Opt Doc ;; a <- attrs_g ;; k "interface" ;;; w <- ident ;; i <- parent_g ;; l <- braced (members_g d) ;; Ret (DInterface c a w i l));
  (c <- Opt Doc ;; a <- attrs_g ;; k "namespace" ;;; w <- ident ;; l <- braced (Many (operation_g false d)) ;; Ret (DNamespace c a w l));
  (c <- Opt Doc ;; a <- attrs_g ;; k "dictionary" ;;; w <- ident ;; i <- parent_g ;; l <- braced (Many (field_g d)) ;; Ret (DDictionary c a w i l));
  (c <- Opt Doc ;; a <- attrs_g ;; k "enum" ;;; w <- ident ;; l <- braced variants_g ;; Ret (DEnum c a w l));
  (a <- attrs_g ;; k "typedef" ;;; b <- attrs_g ;; t <- type_g d ;; w <- ident ;; p ";" ;;; Ret (DTypedef a b t w))].

(** lib.rs:94 Definitions::parse *)
Definition definitions (s : text) : option (list def * text) := run (Many (def_g (List.length s))) s.

(** collectors.rs:29-42: [trim] (of ASCII white space), [unwrap], and [bail!] if something is left. *)
Definition trimmed (x : ascii) : bool := orb (is_white x) (orb (Ascii.eqb x (ascii_of_nat 11)) (Ascii.eqb x (ascii_of_nat 12))).
Definition trim (s : text) : text := rev (skip trimmed (rev (skip trimmed s))).
Inductive outcome := Parsed (l : list def) | ParseError | Panic.
Definition read_udl (s : text) : outcome :=
  match definitions (trim s) with
  | Some (l, []) => Parsed l
  | Some (_, _ :: _) => ParseError
  | None => Panic
  end.
