(** C53: default values mean the same in every language. *)
From Coq Require Import QArith.QArith_base.
From Verif Require Import Base Meta_Types Meta_Model Lit_Spec Lit_Model Lit_Proofs Lit_Kotlin_Proofs
  Lit_Front_Proofs Lit_Refute Lit_Examples.
Local Open Scope list_scope.
Local Open Scope Z_scope.

(** ** What the bindings write *)

(** The Python expression written for a default has the value the default stands for. *)
Theorem C53_python_partial N t d v :
  names_ok N -> written d = true -> lits (py_plain N) d = true -> set_as_list t d = false ->
  meaning N t d = Some v -> exists s, py_default N t d = Some s /\ py_eval s = Some v.
Proof. exact (python_reads N t d v). Qed.
Print Assumptions C53_python_partial.

(** So has the Kotlin expression, where a value of the type is expected. *)
Theorem C53_kotlin_partial N t d v :
  names_ok N -> written d = true -> lits kt_plain d = true ->
  meaning N t d = Some v -> exists s, kt_default N t d = Some s /\ kt_read t s = Some v.
Proof. exact (kotlin_reads N t d v). Qed.
Print Assumptions C53_kotlin_partial.

(** So has the one of the other Kotlin generator. *)
Theorem C53_kotlin_jni_partial N t d v :
  names_ok N -> written d = true -> lits jni_plain d = true -> set_as_list t d = false ->
  (d = DDefault -> bare_set t = false) ->
  meaning N t d = Some v -> exists s, jni_default N t d = Some s /\ kt_read t s = Some v.
Proof. exact (jni_reads N t d v). Qed.
Print Assumptions C53_kotlin_jni_partial.

(** So has the Swift expression. *)
Theorem C53_swift_partial N t d v :
  names_ok N -> written d = true -> lits sw_plain d = true ->
  meaning N t d = Some v -> exists s, sw_default N t d = Some s /\ sw_read (n_class N) t s = Some v.
Proof. exact (swift_reads N t d v). Qed.
Print Assumptions C53_swift_partial.

(** So has the Ruby expression. *)
Theorem C53_ruby_partial N t d v :
  rb_names N -> written d = true -> lits rb_plain d = true -> set_as_list t d = false ->
  meaning N t d = Some v -> exists s, rb_default N t d = Some s /\ rb_eval s = Some v.
Proof. exact (ruby_reads N t d v). Qed.
Print Assumptions C53_ruby_partial.

(** ** Calls in Python *)

(** Every call that leaves the argument out receives the default; if it can be changed in place, an
    object no other call and nothing before has.  An argument given is received as it is. *)
Theorem C53_python_calls_partial N t d v n :
  names_ok N -> written d = true -> lits (py_plain N) d = true -> set_as_list t d = false ->
  meaning N t d = Some v ->
  exists f n', py_define N t d n = Some (f, n') /\
  forall args, given_ok args ->
  exists got, py_calls f args n' = Some got /\ Forall2 (receives v) args got /\
    NoDup (ids (omitted args got)) /\ Forall (fun i => n' <= i) (ids (omitted args got)).
Proof. exact (python_calls N t d v n). Qed.
Print Assumptions C53_python_calls_partial.

(** A Python function can be defined exactly if no argument without default follows one with. *)
Theorem C53_python_order args :
  py_params_legal (py_params args) = true <->
  forall l a r b, args = l ++ a :: r -> In b r -> p_default a <> None -> p_default b <> None.
Proof. exact (order_legal_iff args). Qed.
Print Assumptions C53_python_order.
Theorem C53_python_order_refuted a b :
  p_default a <> None -> p_default b = None -> py_params_legal (py_params [a; b]) = false.
Proof. exact (order_illegal a b). Qed.
Print Assumptions C53_python_order_refuted.

(** ** What the interface says *)

(** A default accepted in UDL means what was written, ... *)
Theorem C53_udl N t u l v :
  convert_default u t = Some l -> udl_meaning N t u = Some v ->
  meaning N t (DLit l) = Some v /\ written (DLit l) = true.
Proof. exact (udl_sound N t u l v). Qed.
Print Assumptions C53_udl.

(** ... and one of the usual form is accepted. *)
Theorem C53_udl_accepts N t u v :
  udl_meaning N t u = Some v -> usual u = true -> exists l, convert_default u t = Some l.
Proof. exact (udl_complete N t u v). Qed.
Print Assumptions C53_udl_accepts.

(** An integer written in a macro is accepted exactly if the type has it. *)
Theorem C53_macro_integers N t z :
  is_some (range_of t) = true -> (t = TU64 -> 0 <= z) ->
  match int_lit t (digits z) with
  | Some l => in_range t z = true /\ meaning N t (DLit l) = Some (VInt z) /\ written (DLit l) = true
  | None => in_range t z = false
  end.
Proof. exact (macro_integers N t z). Qed.
Print Assumptions C53_macro_integers.

(** ** What goes wrong *)

(** [C:\new] is another string in Python. *)
Theorem C53_backslash_refuted N :
  meaning N TString (lstr new_dir) = Some (VStr new_dir) /\
  exists s v, py_default N TString (lstr new_dir) = Some s /\ py_eval s = Some v /\ v <> VStr new_dir.
Proof. exact (backslash_changes N). Qed.
Print Assumptions C53_backslash_refuted.

(** A quote in a string ends it. *)
Theorem C53_quote_refuted N :
  meaning N TString (lstr a_quote) = Some (VStr a_quote) /\
  (forall s, py_default N TString (lstr a_quote) = Some s -> py_eval s = None) /\
  (forall s, kt_default N TString (lstr a_quote) = Some s -> kt_read TString s = None) /\
  (forall s, sw_default N TString (lstr a_quote) = Some s -> sw_read (n_class N) TString s = None) /\
  (forall s, rb_default N TString (lstr a_quote) = Some s -> rb_eval s = None).
Proof. exact (quote_breaks N). Qed.
Print Assumptions C53_quote_refuted.

(** [$price] is a variable in Kotlin, [#{x}] an expression in Ruby. *)
Theorem C53_dollar_refuted N :
  meaning N TString (lstr price) = Some (VStr price) /\
  (forall s, kt_default N TString (lstr price) = Some s -> kt_read TString s = None) /\
  (forall s, jni_default N TString (lstr price) = Some s -> kt_read TString s = None).
Proof. exact (dollar_breaks N). Qed.
Print Assumptions C53_dollar_refuted.
Theorem C53_hash_refuted N :
  meaning N TString (lstr hash) = Some (VStr hash) /\
  (forall s, rb_default N TString (lstr hash) = Some s -> rb_eval s = None).
Proof. exact (hash_breaks N). Qed.
Print Assumptions C53_hash_refuted.

(** The least [i64] is no Kotlin literal. *)
Theorem C53_kotlin_min_refuted N :
  meaning N TI64 (int_default TI64 (- 2 ^ 63)) = Some (VInt (- 2 ^ 63)) /\
  (forall s, kt_default N TI64 (int_default TI64 (- 2 ^ 63)) = Some s -> kt_read TI64 s = None) /\
  (forall s, jni_default N TI64 (int_default TI64 (- 2 ^ 63)) = Some s -> kt_read TI64 s = None).
Proof. exact (kotlin_min N). Qed.
Print Assumptions C53_kotlin_min_refuted.

(** Nor is any negative [i8] or [i16] for the other generator, nor [1e5]; and it has no empty set. *)
Theorem C53_jni_small_refuted N t z :
  t = TI8 \/ t = TI16 -> in_range t z = true -> z < 0 ->
  meaning N t (int_default t z) = Some (VInt z) /\
  forall s, jni_default N t (int_default t z) = Some s -> kt_read t s = None.
Proof. exact (jni_small_negative N t z). Qed.
Print Assumptions C53_jni_small_refuted.
Theorem C53_jni_exponent_refuted N :
  meaning N TF64 (frac (S_ "1e5")) = Some (VFloat (inject_Z 100000)) /\
  forall s, jni_default N TF64 (frac (S_ "1e5")) = Some s -> kt_read TF64 s = None.
Proof. exact (jni_exponent N). Qed.
Print Assumptions C53_jni_exponent_refuted.
Theorem C53_jni_set_refuted N u :
  meaning N (TSet u) DDefault = Some VSet /\ jni_default N (TSet u) DDefault = None.
Proof. exact (jni_sets N u). Qed.
Print Assumptions C53_jni_set_refuted.

(** [1.] and [.5] are fractions in Rust, but not everywhere. *)
Theorem C53_float_form_refuted N :
  meaning N TF64 (frac (S_ "1.")) = Some (VFloat (inject_Z 1)) /\
  (forall s, kt_default N TF64 (frac (S_ "1.")) = Some s -> kt_read TF64 s = None) /\
  (forall s, sw_default N TF64 (frac (S_ "1.")) = Some s -> sw_read (n_class N) TF64 s = None) /\
  (forall s, rb_default N TF64 (frac (S_ "1.")) = Some s -> rb_eval s = None) /\
  meaning N TF64 (frac (S_ ".5")) = Some (VFloat (1 # 2)) /\
  (forall s, sw_default N TF64 (frac (S_ ".5")) = Some s -> sw_read (n_class N) TF64 s = None) /\
  (forall s, rb_default N TF64 (frac (S_ ".5")) = Some s -> rb_eval s = None).
Proof. exact (float_forms N). Qed.
Print Assumptions C53_float_form_refuted.

(** A set with the default [[]] is a list in Python and Ruby, and an error in Kotlin over JNI. *)
Theorem C53_set_refuted N u :
  meaning N (TSet u) (DLit LEmptySeq) = Some VSet /\
  (exists s, py_default N (TSet u) (DLit LEmptySeq) = Some s /\ py_eval s = Some VList) /\
  (exists s, rb_default N (TSet u) (DLit LEmptySeq) = Some s /\ rb_eval s = Some VList) /\
  (forall s, jni_default N (TSet u) (DLit LEmptySeq) = Some s -> kt_read (TSet u) s = None).
Proof. exact (sets_as_lists N u). Qed.
Print Assumptions C53_set_refuted.

(** In Python an enum is called by its Rust name, whatever its class is called. *)
Theorem C53_python_enum_refuted :
  names_ok cased /\
  meaning cased (TEnum (S_ "m") (S_ "my_enum")) enum_default = Some (VEnum (S_ "MyEnum") (S_ "A")) /\
  exists s, py_default cased (TEnum (S_ "m") (S_ "my_enum")) enum_default = Some s /\
    py_eval s = Some (VEnum (S_ "my_enum") (S_ "A")).
Proof. exact enum_raw. Qed.
Print Assumptions C53_python_enum_refuted.

(** UDL accepts 300 for a [u8], and not [0X1F]; nor the bridge type's defaults for a custom type, nor
    [0] for a fraction. *)
Theorem C53_udl_range_refuted N :
  udl_meaning N TU8 (UInteger (TokDec (S_ "300"))) = None /\
  exists l, convert_default (UInteger (TokDec (S_ "300"))) TU8 = Some l /\
    forall s, py_default N TU8 (DLit l) = Some s -> py_eval s = Some (VInt 300).
Proof. exact (udl_out_of_range N). Qed.
Print Assumptions C53_udl_range_refuted.
Theorem C53_udl_prefix_refuted N :
  udl_meaning N TU8 (UInteger (TokHex (S_ "0X1F"))) = Some (VInt 31) /\
  convert_default (UInteger (TokHex (S_ "0X1F"))) TU8 = None.
Proof. exact (udl_capital_prefix N). Qed.
Print Assumptions C53_udl_prefix_refuted.
Theorem C53_udl_custom_refuted mp n :
  convert_default (UInteger (TokDec (S_ "1"))) (TCustom mp n TU32) = None /\
  convert_default (UInteger (TokDec (S_ "1"))) TU32 <> None /\
  convert_default (UInteger (TokOct (S_ "0"))) TF64 = None.
Proof. exact (udl_refused mp n). Qed.
Print Assumptions C53_udl_custom_refuted.

(** A negative default of a [u64] is accepted from a macro, and written. *)
Theorem C53_u64_refuted N z :
  - 2 ^ 63 <= z < 0 ->
  exists l, int_lit TU64 (digits z) = Some l /\ meaning N TU64 (DLit l) = None /\
    py_default N TU64 (DLit l) = Some (show_dec z).
Proof. exact (u64_negative N z). Qed.
Print Assumptions C53_u64_refuted.
