(** Concrete defaults for C53. *)
From Coq Require Import QArith.QArith_base QArith.Qreduction.
From Verif Require Import Base Meta_Types Meta_Model Lit_Spec Lit_Model.
Local Open Scope string_scope.
Local Open Scope list_scope.
Local Open Scope Z_scope.

(** Names as they are, if they are names. *)
Definition plain_names : names :=
  Names (fun _ n => if path n && negb (bytes_eqb n (S_ "Set")) then n else S_ "X")
        (fun v => if ident v then v else S_ "Y").
Example plain_names_ok : rb_names plain_names.
Proof.
  split; [split|].
  - intros mp n. cbn [plain_names n_class]. destruct (path n) eqn:E; [|reflexivity].
    destruct (bytes_eqb n (S_ "Set")); [reflexivity|exact E].
  - intros v. cbn [plain_names n_variant]. destruct (ident v) eqn:E; [exact E|reflexivity].
  - intros mp n. cbn [plain_names n_class]. destruct (path n); [|discriminate].
    destruct (bytes_eqb n (S_ "Set")) eqn:E; [discriminate|]. cbn [andb negb]. intros ->. discriminate.
Qed.
Definition opt (l : literal) : default := DLit (LSome (DLit l)).
Definition color : ty := TEnum (S_ "m") (S_ "Color").
Definition url : ty := TCustom (S_ "m") (S_ "Url") TString.
(** Every kind of default: an optional string, numbers in three bases, a fraction, an enum, natural
    defaults of a record, a set and a custom type. *)
Definition samples : list (ty * default * value) :=
  [ (TOption TString, opt (LString (S_ "hello, 'world'")), VStr (S_ "hello, 'world'"));
    (TI64, DLit (LInt (-5) Decimal_ TI64), VInt (-5));
    (TU16, DLit (LUInt 65535 Hexadecimal_ TU16), VInt 65535);
    (TU8, DLit (LUInt 255 Octal_ TU8), VInt 255);
    (TF64, DLit (LFloat (S_ "-1.25e2") TF64), VFloat (inject_Z (-125)));
    (TF32, DLit (LFloat (S_ "0.1") TF32), VFloat (1 # 10));
    (color, DLit (LEnum (S_ "Red") color), VEnum (S_ "Color") (S_ "Red"));
    (TSeq TU8, DLit LEmptySeq, VList);
    (TMap TString TU8, DLit LEmptyMap, VMap);
    (TRecord (S_ "m") (S_ "Options"), DDefault, VNew (S_ "Options"));
    (url, DDefault, VStr []); (TOption color, DDefault, VNone); (TBytes, DDefault, VBytes []) ].
Definition value_eqb (a b : value) : bool :=
  match a, b with
  | VBool x, VBool y => Bool.eqb x y
  | VInt x, VInt y => x =? y
  | VFloat x, VFloat y => (Qnum x =? Qnum y) && (Zpos (Qden x) =? Zpos (Qden y))
  | VStr x, VStr y | VBytes x, VBytes y | VNew x, VNew y => bytes_eqb x y
  | VNone, VNone | VList, VList | VMap, VMap | VSet, VSet => true
  | VEnum x y, VEnum x' y' => bytes_eqb x x' && bytes_eqb y y'
  | _, _ => false
  end.
Definition gives (o : option value) (v : value) : bool :=
  match o with Some x => value_eqb x v | None => false end.
(** They meet the hypotheses of all the theorems. *)
Example samples_ok :
  forallb (fun x => match x with (t, d, v) =>
    written d && negb (set_as_list t d) && lits (py_plain plain_names) d && lits kt_plain d &&
    lits jni_plain d && lits sw_plain d && lits rb_plain d && negb (bare_set t) &&
    gives (meaning plain_names t d) v end) samples = true.
Proof. vm_compute. reflexivity. Qed.
(** What is written for them. *)
Definition texts (f : ty -> default -> option bytes) : list (option bytes) :=
  map (fun x => match x with (t, d, _) => f t d end) samples.
Definition T (l : list string) : list (option bytes) := map (fun s => Some (S_ s)) l.
Example python_texts : texts (py_default plain_names) =
  T ["""hello, 'world'"""; "-5"; "0xffff"; "0o377"; "-1.25e2"; "0.1"; "Color.Red"; "[]"; "{}";
     "Options()"; """"""; "None"; "b"""""].
Proof. vm_compute. reflexivity. Qed.
Example kotlin_texts : texts (kt_default plain_names) =
  T ["""hello, 'world'"""; "-5L"; "0xffffu"; "0xffu"; "-1.25e2"; "0.1f"; "Color.Red"; "listOf()";
     "mapOf()"; "Options()"; """"""; "null"; "byteArrayOf()"].
Proof. vm_compute. reflexivity. Qed.
Example swift_texts : texts (sw_default plain_names) =
  T ["""hello, 'world'"""; "Int64(-5)"; "UInt16(0xffff)"; "UInt8(0o377)"; "Double(-1.25e2)";
     "Float(0.1)"; ".Red"; "[]"; "[:]"; "Options()"; """"""; "nil"; "Data([])"].
Proof. vm_compute. reflexivity. Qed.
Example ruby_texts : texts (rb_default plain_names) =
  T ["""hello, 'world'"""; "-5"; "0xffff"; "0o377"; "-1.25e2"; "0.1"; "Color::Red"; "[]"; "{}";
     "Options.new"; """"""; "nil"; """"".b"].
Proof. vm_compute. reflexivity. Qed.

(** UDL: [-0x1F] for [i8], [017] for [u16], [null]. *)
Example udl_samples :
  udl_meaning plain_names TI8 (UInteger (TokHex (S_ "-0x1F"))) = Some (VInt (-31)) /\
  usual (UInteger (TokHex (S_ "-0x1F"))) = true /\
  convert_default (UInteger (TokHex (S_ "-0x1F"))) TI8 = Some (LInt (-31) Decimal_ TI8) /\
  convert_default (UInteger (TokOct (S_ "017"))) (TOption TU16) =
    Some (LSome (DLit (LUInt 15 Octal_ TU16))) /\
  convert_default UNull (TOption TU16) = Some LNone.
Proof. vm_compute. repeat split; reflexivity. Qed.

(** Two calls without the list, one with. *)
Example call_samples :
  match py_define plain_names (TSeq TU8) (DLit LEmptySeq) 7 with
  | Some (f, n) => py_calls f [None; Some (Object_ 3 VList); None] n
  | None => None
  end = Some [Object_ 7 VList; Object_ 3 VList; Object_ 8 VList].
Proof. vm_compute. reflexivity. Qed.
