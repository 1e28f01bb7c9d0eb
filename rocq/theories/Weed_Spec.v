(** How the definitions of a UDL file are written: tokens, and what may stand between them. *)
From Verif Require Import Weed_Model.

(** ** Characters *)
Definition digit (x : ascii) : Prop := In x (tx "0123456789").
Definition letter (x : ascii) : Prop := In x (tx "abcdefghijklmnopqrstuvwxyzABCDEFGHIJKLMNOPQRSTUVWXYZ").
Definition word_char (x : ascii) : Prop := letter x \/ digit x \/ In x (tx "_-").
(** What could be taken for a part of a word or number. *)
Definition solid (x : ascii) : Prop := word_char x \/ In x (tx ".+").
Definition white (x : ascii) : Prop := In x (map ascii_of_nat [32; 9; 13; 10]).
Definition occurs (a s : text) : Prop := exists x y, s = x ++ a ++ y.

(** ** Blanks: white space, comments to the end of the line, comments in the form of C. *)
Inductive blank : text -> Prop :=
| blank_none : blank []
| blank_white : forall x b, white x -> blank b -> blank (x :: b)
| blank_line : forall t b, ~ In newline t -> (forall t', t <> "/"%char :: t') -> blank b -> blank (tx "//" ++ t ++ newline :: b)
| blank_block : forall t b, ~ occurs (tx "*/") (t ++ tx "*") -> blank b -> blank (tx "/*" ++ t ++ tx "*/" ++ b).

(** ** Tokens: words and numbers, punctuation, strings, lines of documentation. *)
Inductive token := Chunk (s : text) | Punct (c : ascii) | Str (s : text) | DocLine (s : text).
Definition quote : ascii := """"%char.
Definition spelling (t : token) : text :=
  match t with Chunk s => s | Punct c => [c] | Str s => quote :: s ++ [quote] | DocLine s => tx "///" ++ s ++ [newline] end.
Definition token_ok (t : token) : Prop :=
  match t with
  | Chunk s => s <> [] /\ Forall solid s
  | Punct c => In c (tx "()[]{},:;<=>?")
  | Str s => ~ In quote s
  | DocLine s => False
  end.
(** A word or number ends where it ends. *)
Definition apart (t : token) (s : text) : Prop :=
  match t, s with Chunk _, x :: _ => ~ solid x | _, _ => True end.

(** [spells ts s]: [s] is the text of the tokens, with any blanks between them. Only white space stands before a
    line of documentation that comes first or after another one. *)
Inductive spells : list token -> text -> Prop :=
| spells_end : forall b, blank b -> spells [] b
| spells_doc : forall d ts w s, Forall white w -> ~ In newline d -> spells ts s -> spells (DocLine d :: ts) (w ++ tx "///" ++ d ++ newline :: s)
| spells_token : forall t ts b b' s, token_ok t -> blank b -> blank b' -> apart t (b' ++ s) -> spells ts s ->
    spells (t :: ts) (b ++ spelling t ++ b' ++ s).

(** ** The tokens of definitions *)
Definition keywords : list string :=
  ["any"; "Promise"; "undefined"; "unsigned"; "long"; "short"; "unrestricted"; "float"; "double"; "boolean"; "byte"; "octet"; "ByteString";
   "DOMString"; "USVString"; "sequence"; "object"; "symbol"; "Error"; "ArrayBuffer"; "DataView"; "Int8Array"; "Int16Array"; "Int32Array";
   "Uint8Array"; "Uint16Array"; "Uint32Array"; "Uint8ClampedArray"; "Float32Array"; "Float64Array"; "ArrayBufferView"; "BufferSource";
   "FrozenArray"; "record"; "optional"; "required"; "constructor"; "stringifier"; "static"; "getter"; "setter"; "deleter"; "legacycaller";
   "callback"; "interface"; "namespace"; "dictionary"; "enum"; "typedef"; "true"; "false"; "null"; "Infinity"; "NaN"].
Definition is_keyword (w : text) : bool := existsb (fun s => if list_eq_dec ascii_dec (tx s) w then true else false) keywords.
(** A name that is a keyword is written with an underscore. *)
Definition W (s : string) : token := Chunk (tx s).
Definition P (s : string) : token := Punct (match s with String c _ => c | EmptyString => zero end).
Definition name (w : text) : token := Chunk (if is_keyword w then "_"%char :: w else w).
Definition name_ok (w : text) : Prop := exists x w', w = x :: w' /\ letter x /\ Forall word_char w'.

Definition opt {A} (f : A -> list token) (o : option A) : list token := match o with Some a => f a | None => [] end.
Definition flag (b : bool) (t : token) : list token := if b then [t] else [].
Fixpoint commas {A} (f : A -> list token) (l : list A) : list token :=
  match l with [] => [] | [a] => f a | a :: l' => f a ++ P "," :: commas f l' end.

Fixpoint type_tokens (t : ty) : list token :=
  match t with
  | TAny => [W "any"]
  | TPromise None => [W "Promise"; P "<"; W "undefined"; P ">"]
  | TPromise (Some r) => W "Promise" :: P "<" :: type_tokens r ++ [P ">"]
  | TInt u i n => flag u (W "unsigned") ++ match i with LongLong => [W "long"; W "long"] | Long => [W "long"] | Short => [W "short"] end ++ flag n (P "?")
  | TFloat u f n => flag u (W "unrestricted") ++ match f with Float32 => [W "float"] | Float64 => [W "double"] end ++ flag n (P "?")
  | TNamed s n => W s :: flag n (P "?")
  | TSequence t n => W "sequence" :: P "<" :: type_tokens t ++ P ">" :: flag n (P "?")
  | TFrozen t n => W "FrozenArray" :: P "<" :: type_tokens t ++ P ">" :: flag n (P "?")
  | TRecord s t n => W "record" :: P "<" :: W s :: P "," :: type_tokens t ++ P ">" :: flag n (P "?")
  | TRecordOf key t n => W "record" :: P "<" :: type_tokens key ++ P "," :: type_tokens t ++ P ">" :: flag n (P "?")
  | TIdent w n => name w :: flag n (P "?")
  end.
(** The strings of records are [TRecord], and their keys are not [any]. *)
Definition key_ok (t : ty) : Prop :=
  match t with TAny => False | TNamed s _ => ~ In s ["ByteString"; "DOMString"; "USVString"] | _ => True end.
Fixpoint type_ok (t : ty) : Prop :=
  match t with
  | TAny | TInt _ _ _ | TFloat _ _ _ | TPromise None => True
  | TPromise (Some r) => type_ok r
  | TNamed s _ => In s ["boolean"; "byte"; "octet"; "ByteString"; "DOMString"; "USVString"; "object"; "symbol"; "Error"; "ArrayBuffer";
      "DataView"; "Int8Array"; "Int16Array"; "Int32Array"; "Uint8Array"; "Uint16Array"; "Uint32Array"; "Uint8ClampedArray";
      "Float32Array"; "Float64Array"; "ArrayBufferView"; "BufferSource"]
  | TSequence t _ | TFrozen t _ => type_ok t
  | TRecord s t _ => In s ["ByteString"; "DOMString"; "USVString"] /\ type_ok t
  | TRecordOf key t _ => key_ok key /\ type_ok key /\ type_ok t
  | TIdent w _ => name_ok w
  end.

(** Keywords are not read in attributes: [[Error]] is written like that. *)
Definition attr_tokens (a : attr) : list token :=
  match a with
  | APlain w => [Chunk w]
  | AIs w v => [Chunk w; P "="; Chunk v]
  | AString w s => [Chunk w; P "="; Str s]
  | AList w l => Chunk w :: P "=" :: P "(" :: commas (fun v => [Chunk v]) l ++ [P ")"]
  end.
Definition attr_ok (a : attr) : Prop :=
  match a with
  | APlain w => name_ok w
  | AIs w v => name_ok w /\ name_ok v
  | AString w s => name_ok w /\ ~ In quote s
  | AList w l => name_ok w /\ Forall name_ok l
  end.
Definition attrs_tokens (o : option (list attr)) : list token := opt (fun l => P "[" :: commas attr_tokens l ++ [P "]"]) o.
Definition attrs_ok (o : option (list attr)) : Prop := forall l, o = Some l -> Forall attr_ok l.

(** Numbers. *)
Definition signed (s t : text) : Prop := s = t \/ s = "-"%char :: t.
Definition dec_text (s : text) : Prop := exists t x d, signed s t /\ t = x :: d /\ In x (tx "123456789") /\ Forall digit d.
Definition hex_text (s : text) : Prop := exists t x d, signed s t /\ t = "0"%char :: x :: d /\ In x (tx "xX") /\ Forall (fun c => In c (tx "0123456789abcdefABCDEF")) d.
Definition oct_text (s : text) : Prop := exists t d, signed s t /\ t = "0"%char :: d /\ Forall (fun c => In c (tx "01234567")) d.
Definition exp_text (s : text) : Prop :=
  exists e sg d, s = e :: sg ++ d /\ In e (tx "eE") /\ (sg = [] \/ sg = tx "+" \/ sg = tx "-") /\ d <> [] /\ Forall digit d.
Definition float_text (s : text) : Prop :=
  exists t a b x, signed s t /\ Forall digit a /\ Forall digit b /\
    (t = a ++ "."%char :: b ++ x /\ (a <> [] \/ b <> []) /\ (x = [] \/ exp_text x) \/ t = a ++ x /\ a <> [] /\ exp_text x).
Definition lit_tokens (v : lit) : list token :=
  match v with
  | VBool b => [W (if b then "true" else "false")]
  | VArray => [P "["; P "]"]
  | VDict => [P "{"; P "}"]
  | VFloat s | VDec s | VHex s | VOct s => [Chunk s]
  | VNegInf => [W "-Infinity"]
  | VInf => [W "Infinity"]
  | VNaN => [W "NaN"]
  | VNull => [W "null"]
  | VString s => [Str s]
  end.
Definition lit_ok (v : lit) : Prop :=
  match v with
  | VFloat s => float_text s | VDec s => dec_text s | VHex s => hex_text s | VOct s => oct_text s
  | VString s => ~ In quote s
  | _ => True
  end.
Definition default_tokens (o : option lit) : list token := opt (fun v => P "=" :: lit_tokens v) o.
Definition default_ok (o : option lit) : Prop := forall v, o = Some v -> lit_ok v.

Fixpoint lines (s : text) : list text :=
  match s with
  | [] => [[]]
  | x :: s' => if ascii_dec x newline then [] :: lines s' else match lines s' with l :: ls => (x :: l) :: ls | [] => [[x]] end
  end.
Definition doc_tokens (o : option text) : list token := opt (fun d => map DocLine (lines d)) o.

Definition arg_tokens (a : arg) : list token :=
  attrs_tokens (g_attrs a) ++ flag (g_optional a) (W "optional") ++ attrs_tokens (g_tattrs a) ++ type_tokens (g_type a) ++ name (g_name a)
  :: default_tokens (g_default a).
(** Attributes before the type are those of the argument; a value only follows [optional]. *)
Definition arg_ok (a : arg) : Prop :=
  attrs_ok (g_attrs a) /\ attrs_ok (g_tattrs a) /\ type_ok (g_type a) /\ name_ok (g_name a) /\ default_ok (g_default a)
  /\ (g_optional a = true \/ g_default a = None /\ (g_attrs a = None -> g_tattrs a = None)).
Definition args_tokens (l : list arg) : list token := P "(" :: commas arg_tokens l ++ [P ")"].
Definition field_tokens (f : field) : list token :=
  doc_tokens (f_doc f) ++ attrs_tokens (f_attrs f) ++ flag (f_required f) (W "required") ++ type_tokens (f_type f) ++ name (f_name f)
  :: default_tokens (f_default f) ++ [P ";"].
Definition field_ok (f : field) : Prop :=
  attrs_ok (f_attrs f) /\ type_ok (f_type f) /\ name_ok (f_name f) /\ default_ok (f_default f).
Definition return_tokens (o : option ty) : list token := match o with Some t => type_tokens t | None => [W "undefined"] end.
Definition return_ok (o : option ty) : Prop := forall t, o = Some t -> type_ok t.
Definition op_name_ok (o : option text) : Prop := forall w, o = Some w -> name_ok w.
Definition member_tokens (m : member) : list token :=
  match m with
  | Constructor c a l => doc_tokens c ++ attrs_tokens a ++ W "constructor" :: args_tokens l ++ [P ";"]
  | Operation c a _ r w l => doc_tokens c ++ attrs_tokens a ++ return_tokens r ++ opt (fun w => [name w]) w ++ args_tokens l ++ [P ";"]
  end.
Definition member_ok (m : member) : Prop :=
  match m with
  | Constructor _ a l => attrs_ok a /\ Forall arg_ok l
  | Operation _ a x r w l => attrs_ok a /\ x = [] /\ return_ok r /\ op_name_ok w /\ Forall arg_ok l
  end.
Definition is_operation (m : member) : Prop := match m with Operation _ _ _ _ _ _ => True | Constructor _ _ _ => False end.
Definition variant_tokens (v : option text * text) : list token := doc_tokens (fst v) ++ [Str (snd v)].
Definition parent_tokens (o : option text) : list token := opt (fun w => [P ":"; name w]) o.
Definition braces (l : list token) : list token := P "{" :: l ++ [P "}"; P ";"].
Definition def_tokens (d : def) : list token :=
  match d with
  | DCallback a w r l => attrs_tokens a ++ W "callback" :: name w :: P "=" :: return_tokens r ++ args_tokens l ++ [P ";"]
  | DCallbackInterface c a w i l =>
      doc_tokens c ++ attrs_tokens a ++ W "callback" :: W "interface" :: name w :: parent_tokens i ++ braces (flat_map member_tokens l)
  | DInterface c a w i l => doc_tokens c ++ attrs_tokens a ++ W "interface" :: name w :: parent_tokens i ++ braces (flat_map member_tokens l)
  | DNamespace c a w l => doc_tokens c ++ attrs_tokens a ++ W "namespace" :: name w :: braces (flat_map member_tokens l)
  | DDictionary c a w i l => doc_tokens c ++ attrs_tokens a ++ W "dictionary" :: name w :: parent_tokens i ++ braces (flat_map field_tokens l)
  | DEnum c a w l => doc_tokens c ++ attrs_tokens a ++ W "enum" :: name w :: braces (commas variant_tokens l)
  | DTypedef a b t w => attrs_tokens a ++ W "typedef" :: attrs_tokens b ++ type_tokens t ++ [name w; P ";"]
  end.
Definition def_ok (d : def) : Prop :=
  match d with
  | DCallback a w r l => attrs_ok a /\ name_ok w /\ return_ok r /\ Forall arg_ok l
  | DCallbackInterface _ a w i l | DInterface _ a w i l => attrs_ok a /\ name_ok w /\ op_name_ok i /\ Forall member_ok l
  | DNamespace _ a w l => attrs_ok a /\ name_ok w /\ Forall (fun m => member_ok m /\ is_operation m) l
  | DDictionary _ a w i l => attrs_ok a /\ name_ok w /\ op_name_ok i /\ Forall field_ok l
  | DEnum _ a w l => attrs_ok a /\ name_ok w /\ l <> [] /\ Forall (fun v => ~ In quote (snd v)) l
  | DTypedef a b t w => attrs_ok a /\ attrs_ok b /\ type_ok t /\ name_ok w
  end.
Definition udl_tokens (l : list def) : list token := flat_map def_tokens l.

(** Files start and end with a character that is not a space. *)
Definition edge (x : ascii) : Prop := ~ In x (map ascii_of_nat [32; 9; 10; 11; 12; 13]).
Definition edges (s : text) : Prop := exists x u, s = x :: u /\ edge x /\ (u = [] \/ exists u' y, u = u' ++ [y] /\ edge y).

(** ** What can come out of any text *)
Definition name_read (w : text) : Prop := exists x w', w = x :: w' /\ (letter x \/ digit x) /\ Forall word_char w'.
Definition plain_types : list string := ["boolean"; "byte"; "octet"; "ByteString"; "DOMString"; "USVString"; "object"; "symbol"; "Error"; "ArrayBuffer";
  "DataView"; "Int8Array"; "Int16Array"; "Int32Array"; "Uint8Array"; "Uint16Array"; "Uint32Array"; "Uint8ClampedArray";
  "Float32Array"; "Float64Array"; "ArrayBufferView"; "BufferSource"].
Fixpoint type_read (t : ty) : Prop :=
  match t with
  | TAny | TInt _ _ _ | TFloat _ _ _ | TPromise None => True
  | TPromise (Some r) => type_read r
  | TNamed s _ => In s plain_types
  | TSequence t _ | TFrozen t _ => type_read t
  | TRecord s t _ => In s ["ByteString"; "DOMString"; "USVString"] /\ type_read t
  | TRecordOf key t _ => key <> TAny /\ type_read key /\ type_read t
  | TIdent w _ => name_read w
  end.
Definition attr_read (a : attr) : Prop :=
  match a with
  | APlain w => name_read w
  | AIs w v => name_read w /\ name_read v
  | AString w s => name_read w /\ ~ In quote s
  | AList w l => name_read w /\ Forall name_read l
  end.
Definition attrs_read (o : option (list attr)) : Prop := forall l, o = Some l -> Forall attr_read l.
Definition lit_read (v : lit) : Prop := match v with VString s => ~ In quote s | _ => True end.
Definition default_read (o : option lit) : Prop := forall v, o = Some v -> lit_read v.
(** Only optional arguments have values. *)
Definition arg_read (a : arg) : Prop :=
  attrs_read (g_attrs a) /\ attrs_read (g_tattrs a) /\ type_read (g_type a) /\ name_read (g_name a) /\ default_read (g_default a)
  /\ (g_optional a = false -> g_default a = None).
Definition field_read (f : field) : Prop := attrs_read (f_attrs f) /\ type_read (f_type f) /\ name_read (f_name f) /\ default_read (f_default f).
Definition return_read (o : option ty) : Prop := forall t, o = Some t -> type_read t.
Definition maybe_name (o : option text) : Prop := forall w, o = Some w -> name_read w.
Definition special_words : list string := ["stringifier"; "static"; "getter"; "setter"; "deleter"; "legacycaller"].
Definition member_read (m : member) : Prop :=
  match m with
  | Constructor _ a l => attrs_read a /\ Forall arg_read l
  | Operation _ a x r w l => attrs_read a /\ Forall (fun s => In s special_words) x /\ return_read r /\ maybe_name w /\ Forall arg_read l
  end.
(** Namespaces have functions without special words, and enums have variants. *)
Definition function_read (m : member) : Prop := match m with Operation _ _ x _ _ _ => x = [] | Constructor _ _ _ => False end.
Definition def_read (d : def) : Prop :=
  match d with
  | DCallback a w r l => attrs_read a /\ name_read w /\ return_read r /\ Forall arg_read l
  | DCallbackInterface _ a w i l | DInterface _ a w i l => attrs_read a /\ name_read w /\ maybe_name i /\ Forall member_read l
  | DNamespace _ a w l => attrs_read a /\ name_read w /\ Forall (fun m => member_read m /\ function_read m) l
  | DDictionary _ a w i l => attrs_read a /\ name_read w /\ maybe_name i /\ Forall field_read l
  | DEnum _ a w l => attrs_read a /\ name_read w /\ l <> [] /\ Forall (fun v => ~ In quote (snd v)) l
  | DTypedef a b t w => attrs_read a /\ attrs_read b /\ type_read t /\ name_read w
  end.

(** ** A comma may follow the last variant of an enum *)
Inductive written : def -> list token -> Prop :=
| written_def d : written d (def_tokens d)
| written_comma c a w l : written (DEnum c a w l) (doc_tokens c ++ attrs_tokens a ++ W "enum" :: name w :: braces (commas variant_tokens l ++ [P ","])).
