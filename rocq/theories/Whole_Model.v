(** From the text of a UDL file to its metadata: the reader of Weed_Model.v, then the collector of Udl_Model.v. *)
From Verif Require Import Base Meta_Types Lit_Spec Udl_Types Udl_Model.
From Verif Require Weed_Model.
From Coq Require Import Ascii.

(** Texts are lists of characters there, lists of bytes here. *)
Definition bytes_of (w : Weed_Model.text) : str := map byte_of_ascii w.
(** weedle2/src/attribute.rs l.33-58. *)
Definition attr_of (a : Weed_Model.attr) : wattr :=
  match a with
  | Weed_Model.APlain w => ANoArgs (bytes_of w)
  | Weed_Model.AIs w v => AIs (bytes_of w) (bytes_of v) false
  | Weed_Model.AString w s => AIs (bytes_of w) (bytes_of s) true
  | Weed_Model.AList w l => AList (bytes_of w) (map bytes_of l)
  end.
Definition attrs_in (o : option (list Weed_Model.attr)) : wattrs := option_map (map attr_of) o.
(** weedle2/src/types.rs l.66-73 [MayBeNull]. *)
Definition nullable (n : bool) (t : wty) : wty := if n then WNull t else t.
(** uniffi_udl/src/resolver.rs l.44-65, l.129-143: the types that UniFFI looks into. *)
Definition named_of (s : string) : wty :=
  if String.eqb s "boolean" then WBool else if String.eqb s "DOMString" then WDom else if String.eqb s "Error" then WError else WBad.
Fixpoint type_of (t : Weed_Model.ty) : wty :=
  match t with
  | Weed_Model.TAny | Weed_Model.TPromise _ => WBad
  | Weed_Model.TInt _ _ n => nullable n WBad
  | Weed_Model.TFloat u Weed_Model.Float32 n => nullable n (WFloat u)
  | Weed_Model.TFloat u Weed_Model.Float64 n => nullable n (WDouble u)
  | Weed_Model.TNamed s n => nullable n (named_of s)
  | Weed_Model.TSequence t n => nullable n (WSeq (type_of t))
  | Weed_Model.TFrozen _ n => nullable n WBad
  | Weed_Model.TRecord s t n => nullable n (WMap (if String.eqb s "DOMString" then WDom else WBad) (type_of t))
  | Weed_Model.TRecordOf k t n => nullable n (WMap (type_of k) (type_of t))
  | Weed_Model.TIdent w n => nullable n (WId (bytes_of w))
  end.
(** resolver.rs l.69-85: types with attributes are refused. *)
Definition attributed (b : option (list Weed_Model.attr)) (t : wty) : wty := match b with Some _ => WBad | None => t end.
(** weedle2/src/literal.rs l.50-68. *)
Definition value_of_lit (v : Weed_Model.lit) : udl :=
  match v with
  | Weed_Model.VBool b => UBool b
  | Weed_Model.VArray => UEmptyArray
  | Weed_Model.VDict => UEmptyDictionary
  | Weed_Model.VFloat s => UFloat (bytes_of s)
  | Weed_Model.VNegInf | Weed_Model.VInf | Weed_Model.VNaN => UNotFinite
  | Weed_Model.VDec s => UInteger (TokDec (bytes_of s))
  | Weed_Model.VHex s => UInteger (TokHex (bytes_of s))
  | Weed_Model.VOct s => UInteger (TokOct (bytes_of s))
  | Weed_Model.VNull => UNull
  | Weed_Model.VString s => UString (bytes_of s)
  end.
Definition doc_in (o : option Weed_Model.text) : option str := option_map bytes_of o.
(** weedle2/src/argument.rs l.11-24. *)
Definition arg_of (a : Weed_Model.arg) : warg :=
  WArg (attrs_in (Weed_Model.g_attrs a)) (Weed_Model.g_optional a) (attributed (Weed_Model.g_tattrs a) (type_of (Weed_Model.g_type a))) (bytes_of (Weed_Model.g_name a))
    (option_map value_of_lit (Weed_Model.g_default a)).
(** weedle2/src/dictionary.rs l.10-18: [required] is not looked at. *)
Definition field_of (f : Weed_Model.field) : wfield :=
  WField (attrs_in (Weed_Model.f_attrs f)) (type_of (Weed_Model.f_type f)) (bytes_of (Weed_Model.f_name f)) (option_map value_of_lit (Weed_Model.f_default f)) (doc_in (Weed_Model.f_doc f)).
(** weedle2/src/interface.rs l.43-64, namespace.rs l.14-21. *)
Definition has (s : string) (l : list string) : bool := existsb (String.eqb s) l.
Definition member_of (m : Weed_Model.member) : member :=
  match m with
  | Weed_Model.Constructor c a l => MemCons (attrs_in a) (map arg_of l) (doc_in c)
  | Weed_Model.Operation c a x r w l =>
      MemOp (WOp (attrs_in a)
        (if has "stringifier" x then Some Stringifier else if has "static" x then Some Static else None)
        (existsb (fun s => has s x) ["getter"; "setter"; "deleter"; "legacycaller"]%string)
        (match r with Some t => RType (type_of t) | None => RUndefined end) (option_map bytes_of w) (map arg_of l) (doc_in c))
  end.
Definition inherits {A} (o : option A) : bool := match o with Some _ => true | None => false end.
(** uniffi_udl/src/finder.rs l.136-156: the attributes of a typedef's type are looked at for custom types only. *)
Definition custom_word (a : Weed_Model.attr) : bool :=
  match a with Weed_Model.APlain w | Weed_Model.AIs w _ | Weed_Model.AString w _ | Weed_Model.AList w _ => bytes_eqb (bytes_of w) (S_ "Custom") end.
Definition def_of (d : Weed_Model.def) : def :=
  match d with
  | Weed_Model.DCallback _ _ _ _ => DOther
  | Weed_Model.DCallbackInterface c a w i l => DCallback (attrs_in a) (bytes_of w) (inherits i) (doc_in c) (map member_of l)
  | Weed_Model.DInterface c a w i l => DIface (attrs_in a) (bytes_of w) (inherits i) (doc_in c) (map member_of l)
  | Weed_Model.DNamespace c a w l => DNamespace (attrs_in a) (bytes_of w) (doc_in c) (map member_of l)
  | Weed_Model.DDictionary c a w i l => DDict (attrs_in a) (bytes_of w) (inherits i) (doc_in c) (map field_of l)
  | Weed_Model.DEnum c a w l => DEnum (attrs_in a) (bytes_of w) (doc_in c) (map (fun v => (bytes_of (snd v), doc_in (fst v))) l)
  | Weed_Model.DTypedef a b t w =>
      DTypedef (attrs_in a)
        (if match a with Some l => existsb custom_word l | None => false end then attributed b (type_of t) else type_of t) (bytes_of w)
  end.
Definition document (l : list Weed_Model.def) : list def := map def_of l.

(** uniffi_udl/src/collectors.rs l.29-74 [InterfaceCollector::from_webidl]. *)
Definition metadata_of_text (c : str) (value_of : udl -> ty -> option literal) (doc_of : str -> str) (s : Weed_Model.text) : ures group :=
  match Weed_Model.read_udl s with
  | Weed_Model.Parsed l => read_udl c value_of doc_of (document l)
  | Weed_Model.ParseError => UErr
  | Weed_Model.Panic => UPanic
  end.
