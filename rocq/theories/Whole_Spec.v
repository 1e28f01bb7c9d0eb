(** How a UDL file of Udl_Types.v is written down: the document whose tokens (Weed_Spec.v) are its text. *)
From Verif Require Import Base Meta_Types Lit_Spec Udl_Types.
From Verif Require Weed_Model Weed_Spec.
From Coq Require Import Ascii.

Definition chars (x : str) : Weed_Model.text := map ascii_of_byte x.
Definition write_attr (a : wattr) : Weed_Model.attr :=
  match a with
  | ANoArgs x => Weed_Model.APlain (chars x)
  | AIs x y false => Weed_Model.AIs (chars x) (chars y)
  | AIs x y true => Weed_Model.AString (chars x) (chars y)
  | AList x l => Weed_Model.AList (chars x) (map chars l)
  | AOther => Weed_Model.APlain []
  end.
Definition write_attrs (a : wattrs) : option (list Weed_Model.attr) := option_map (map write_attr) a.
(** [null]: whether a question mark follows. *)
Fixpoint write_type (null : bool) (t : wty) : Weed_Model.ty :=
  match t with
  | WId x => Weed_Model.TIdent (chars x) null
  | WBool => Weed_Model.TNamed "boolean" null
  | WFloat u => Weed_Model.TFloat u Weed_Model.Float32 null
  | WDouble u => Weed_Model.TFloat u Weed_Model.Float64 null
  | WDom => Weed_Model.TNamed "DOMString" null
  | WError => Weed_Model.TNamed "Error" null
  | WSeq t => Weed_Model.TSequence (write_type false t) null
  | WMap WDom v => Weed_Model.TRecord "DOMString" (write_type false v) null
  | WMap k v => Weed_Model.TRecordOf (write_type false k) (write_type false v) null
  | WNull t => write_type true t
  | WBad => Weed_Model.TAny
  end.
Definition write_value (u : udl) : Weed_Model.lit :=
  match u with
  | UBool b => Weed_Model.VBool b
  | UEmptyArray => Weed_Model.VArray
  | UEmptyDictionary => Weed_Model.VDict
  | UFloat s => Weed_Model.VFloat (chars s)
  | UNotFinite => Weed_Model.VNaN
  | UInteger (TokDec s) => Weed_Model.VDec (chars s)
  | UInteger (TokHex s) => Weed_Model.VHex (chars s)
  | UInteger (TokOct s) => Weed_Model.VOct (chars s)
  | UNull => Weed_Model.VNull
  | UString s => Weed_Model.VString (chars s)
  end.
Definition write_arg (a : warg) : Weed_Model.arg :=
  match a with
  | WArg a o t x d => Weed_Model.Arg (write_attrs a) o None (write_type false t) (chars x) (option_map write_value d)
  | WVariadic => Weed_Model.Arg None false None Weed_Model.TAny [] None
  end.
Definition write_field (f : wfield) : Weed_Model.field :=
  Weed_Model.Field (option_map chars (wf_doc f)) (write_attrs (wf_attrs f)) false (write_type false (wf_ty f)) (chars (wf_name f)) (option_map write_value (wf_default f)).
Definition write_member (m : member) : Weed_Model.member :=
  match m with
  | MemCons a l c => Weed_Model.Constructor (option_map chars c) (write_attrs a) (map write_arg l)
  | MemOp o => Weed_Model.Operation (option_map chars (op_doc o)) (write_attrs (op_attrs o)) []
      (match op_ret o with RType t => Some (write_type false t) | RUndefined => None end) (option_map chars (op_name o)) (map write_arg (op_args o))
  | MemOther => Weed_Model.Constructor None None []
  end.
Definition write_def (d : def) : Weed_Model.def :=
  match d with
  | DNamespace a x c ms => Weed_Model.DNamespace (option_map chars c) (write_attrs a) (chars x) (map write_member ms)
  | DEnum a x c vs => Weed_Model.DEnum (option_map chars c) (write_attrs a) (chars x) (map (fun v => (option_map chars (snd v), chars (fst v))) vs)
  | DDict a x _ c fs => Weed_Model.DDictionary (option_map chars c) (write_attrs a) (chars x) None (map write_field fs)
  | DIface a x _ c ms => Weed_Model.DInterface (option_map chars c) (write_attrs a) (chars x) None (map write_member ms)
  | DCallback a x _ c ms => Weed_Model.DCallbackInterface (option_map chars c) (write_attrs a) (chars x) None (map write_member ms)
  | DTypedef a t x => Weed_Model.DTypedef (write_attrs a) None (write_type false t) (chars x)
  | DOther => Weed_Model.DCallback None [] None []
  end.
Definition write (file : list def) : list Weed_Model.def := map write_def file.

(** What is left out: parents, [static] and such, variadic arguments, two question marks, and the forms that
    Udl_Types.v has one constructor for. *)
Definition attr_plain (a : wattr) : Prop := a <> AOther.
Definition attrs_plain (a : wattrs) : Prop := forall l, a = Some l -> Forall attr_plain l.
Fixpoint type_plain (t : wty) : Prop :=
  match t with
  | WBad => False
  | WNull (WNull _) => False
  | WNull t | WSeq t => type_plain t
  | WMap k v => type_plain k /\ type_plain v
  | _ => True
  end.
Definition arg_plain (a : warg) : Prop := match a with WArg a _ t _ _ => attrs_plain a /\ type_plain t | WVariadic => False end.
Definition field_plain (f : wfield) : Prop := attrs_plain (wf_attrs f) /\ type_plain (wf_ty f).
Definition member_plain (m : member) : Prop :=
  match m with
  | MemCons a l _ => attrs_plain a /\ Forall arg_plain l
  | MemOp o => attrs_plain (op_attrs o) /\ op_modifier o = None /\ op_special o = false /\ (forall t, op_ret o = RType t -> type_plain t) /\ Forall arg_plain (op_args o)
  | MemOther => False
  end.
Definition def_plain (d : def) : Prop :=
  match d with
  | DNamespace a _ _ ms => attrs_plain a /\ Forall member_plain ms
  | DEnum a _ _ _ => attrs_plain a
  | DDict a _ i _ fs => attrs_plain a /\ i = false /\ Forall field_plain fs
  | DIface a _ i _ ms | DCallback a _ i _ ms => attrs_plain a /\ i = false /\ Forall member_plain ms
  | DTypedef a t _ => attrs_plain a /\ type_plain t
  | DOther => False
  end.

(** [s] is a text of the file: its tokens (a comma may follow the last variant of an enum), with white space around them. *)
Definition text_of (file : list def) (s : Weed_Model.text) : Prop :=
  Forall def_plain file /\ Forall Weed_Spec.def_ok (write file) /\ file <> [] /\ exists w u w', s = (w ++ u ++ w')%list
    /\ Forall Weed_Spec.white w /\ Forall Weed_Spec.white w' /\ Weed_Spec.edges u
    /\ exists tss, Forall2 Weed_Spec.written (write file) tss /\ Weed_Spec.spells (List.concat tss) u.
