(** Defaults that do not arrive. *)
From Coq Require Import QArith.QArith_base QArith.Qreduction.
From Verif Require Import Base Meta_Types Meta_Model Meta_Proofs Sort_Model Lit_Spec Lit_Model
  Lit_Text_Proofs Lit_Front_Proofs.
Local Open Scope list_scope.
Local Open Scope Z_scope.

Definition lstr (s : bytes) : default := DLit (LString s).
(** [C:\new] *)
Definition new_dir : bytes := S_ "C:\new".
Lemma backslash_changes N :
  meaning N TString (lstr new_dir) = Some (VStr new_dir) /\
  exists s v, py_default N TString (lstr new_dir) = Some s /\ py_eval s = Some v /\ v <> VStr new_dir.
Proof.
  split; [reflexivity|].
  exists (quoted new_dir), (VStr [x43; x3a; x0a; x65; x77]). split; [reflexivity|].
  split; [reflexivity|discriminate].
Qed.
Definition a_quote : bytes := [x61; x22; x62].
Lemma quote_breaks N :
  meaning N TString (lstr a_quote) = Some (VStr a_quote) /\
  (forall s, py_default N TString (lstr a_quote) = Some s -> py_eval s = None) /\
  (forall s, kt_default N TString (lstr a_quote) = Some s -> kt_read TString s = None) /\
  (forall s, sw_default N TString (lstr a_quote) = Some s -> sw_read (n_class N) TString s = None) /\
  (forall s, rb_default N TString (lstr a_quote) = Some s -> rb_eval s = None).
Proof.
  split; [reflexivity|]. split; [|split; [|split]]; intros s [= <-]; reflexivity.
Qed.
Definition price : bytes := S_ "$price".
Lemma dollar_breaks N :
  meaning N TString (lstr price) = Some (VStr price) /\
  (forall s, kt_default N TString (lstr price) = Some s -> kt_read TString s = None) /\
  (forall s, jni_default N TString (lstr price) = Some s -> kt_read TString s = None).
Proof. split; [reflexivity|]. split; intros s [= <-]; reflexivity. Qed.
Definition hash : bytes := S_ "#{x}".
Lemma hash_breaks N :
  meaning N TString (lstr hash) = Some (VStr hash) /\
  (forall s, rb_default N TString (lstr hash) = Some s -> rb_eval s = None).
Proof. split; [reflexivity|]. intros s [= <-]; reflexivity. Qed.

Definition int_default (t : ty) (z : Z) : default := DLit (LInt z Decimal_ t).
Lemma kotlin_min N :
  meaning N TI64 (int_default TI64 (- 2 ^ 63)) = Some (VInt (- 2 ^ 63)) /\
  (forall s, kt_default N TI64 (int_default TI64 (- 2 ^ 63)) = Some s -> kt_read TI64 s = None) /\
  (forall s, jni_default N TI64 (int_default TI64 (- 2 ^ 63)) = Some s -> kt_read TI64 s = None).
Proof. split; [reflexivity|]. split; intros s [= <-]; reflexivity. Qed.
Lemma number_paren b s : In x29 s -> number b s = None.
Proof.
  intros I. destruct (number b s) as [n|] eqn:E; [|reflexivity].
  exfalso. exact (number_not_in _ _ _ x29 E eq_refl I).
Qed.
Lemma kt_uint_paren m s : In x29 s -> kt_uint m s = None.
Proof.
  intros I. unfold kt_uint. destruct (strip (S_ "0x") s) as [r|] eqn:E.
  - apply strip_some in E. subst. rewrite number_paren; [reflexivity|].
    apply in_app_or in I. destruct I as [I|I]; [|exact I]. vm_compute in I. intuition discriminate.
  - rewrite number_paren by exact I. destruct (no_leading_zero s); reflexivity.
Qed.
Lemma jni_small_negative N t z : t = TI8 \/ t = TI16 -> in_range t z = true -> z < 0 ->
  meaning N t (int_default t z) = Some (VInt z) /\
  forall s, jni_default N t (int_default t z) = Some s -> kt_read t s = None.
Proof.
  intros T R L. split.
  { destruct T as [-> | ->]; unfold int_default; cbn [meaning]; cbn [ty_eqb andb]; rewrite R; reflexivity. }
  assert (show_dec z = x2d :: fmt 10 (- z)) as D
    by (unfold show_dec; now rewrite (proj2 (Z.ltb_lt _ _) L)).
  assert (forall c, In x29 c -> or_else (kt_small t c (show_dec z ++ c))
            (fits t (kt_signed (show_dec z ++ c))) = None) as A.
  { intros c I. unfold kt_small. rewrite strip_end_app.
    assert (kt_uint (2 ^ 31 - 1) (show_dec z) = None) as ->.
    { rewrite D. unfold kt_uint. change (strip (S_ "0x") (x2d :: fmt 10 (- z))) with (@None bytes).
      cbn iota. change (no_leading_zero (x2d :: fmt 10 (- z))) with true. cbn iota.
      unfold number. cbn [number_]. change (digit_of x2d) with (@None Z). reflexivity. }
    cbn [fits or_else]. unfold kt_signed. rewrite D. cbn [app]. rewrite signed_minus.
    rewrite kt_uint_paren; [reflexivity|]. apply in_or_app. now right. }
  intros s H. destruct T as [-> | ->]; injection H as <-; cbn [kt_read]; apply A; vm_compute; tauto.
Qed.
Definition frac (s : bytes) : default := DLit (LFloat s TF64).
Lemma jni_exponent N :
  meaning N TF64 (frac (S_ "1e5")) = Some (VFloat (inject_Z 100000)) /\
  forall s, jni_default N TF64 (frac (S_ "1e5")) = Some s -> kt_read TF64 s = None.
Proof. split; [reflexivity|]. intros s [= <-]; reflexivity. Qed.
Lemma jni_sets N u : meaning N (TSet u) DDefault = Some VSet /\ jni_default N (TSet u) DDefault = None.
Proof. split; reflexivity. Qed.
Lemma float_forms N :
  meaning N TF64 (frac (S_ "1.")) = Some (VFloat (inject_Z 1)) /\
  (forall s, kt_default N TF64 (frac (S_ "1.")) = Some s -> kt_read TF64 s = None) /\
  (forall s, sw_default N TF64 (frac (S_ "1.")) = Some s -> sw_read (n_class N) TF64 s = None) /\
  (forall s, rb_default N TF64 (frac (S_ "1.")) = Some s -> rb_eval s = None) /\
  meaning N TF64 (frac (S_ ".5")) = Some (VFloat (1 # 2)) /\
  (forall s, sw_default N TF64 (frac (S_ ".5")) = Some s -> sw_read (n_class N) TF64 s = None) /\
  (forall s, rb_default N TF64 (frac (S_ ".5")) = Some s -> rb_eval s = None).
Proof.
  split; [reflexivity|]. split; [|split; [|split; [|split; [reflexivity|split]]]];
    intros s [= <-]; reflexivity.
Qed.
Lemma sets_as_lists N u :
  meaning N (TSet u) (DLit LEmptySeq) = Some VSet /\
  (exists s, py_default N (TSet u) (DLit LEmptySeq) = Some s /\ py_eval s = Some VList) /\
  (exists s, rb_default N (TSet u) (DLit LEmptySeq) = Some s /\ rb_eval s = Some VList) /\
  (forall s, jni_default N (TSet u) (DLit LEmptySeq) = Some s -> kt_read (TSet u) s = None).
Proof.
  split; [reflexivity|]. split; [|split].
  - exists (S_ "[]"). split; reflexivity.
  - exists (S_ "[]"). split; reflexivity.
  - intros s [= <-]. reflexivity.
Qed.
(** [my_enum] has the Python class [MyEnum]. *)
Definition cased : names :=
  Names (fun _ n => if bytes_eqb n (S_ "my_enum") then S_ "MyEnum" else S_ "Other") (fun _ => S_ "A").
Definition enum_default : default := DLit (LEnum (S_ "A") (TEnum (S_ "m") (S_ "my_enum"))).
Lemma enum_raw :
  names_ok cased /\
  meaning cased (TEnum (S_ "m") (S_ "my_enum")) enum_default =
    Some (VEnum (S_ "MyEnum") (S_ "A")) /\
  exists s, py_default cased (TEnum (S_ "m") (S_ "my_enum")) enum_default = Some s /\
    py_eval s = Some (VEnum (S_ "my_enum") (S_ "A")).
Proof.
  split; [|split; [reflexivity|]].
  - split; [|reflexivity]. intros mp n. cbn [cased n_class].
    destruct (bytes_eqb n (S_ "my_enum")); reflexivity.
  - exists (S_ "my_enum.A"). split; reflexivity.
Qed.
Lemma udl_out_of_range N :
  udl_meaning N TU8 (UInteger (TokDec (S_ "300"))) = None /\
  exists l, convert_default (UInteger (TokDec (S_ "300"))) TU8 = Some l /\
    forall s, py_default N TU8 (DLit l) = Some s -> py_eval s = Some (VInt 300).
Proof.
  split; [reflexivity|]. exists (LUInt 300 Decimal_ TU8). split; [reflexivity|].
  intros s [= <-]. reflexivity.
Qed.
Lemma udl_capital_prefix N :
  udl_meaning N TU8 (UInteger (TokHex (S_ "0X1F"))) = Some (VInt 31) /\
  convert_default (UInteger (TokHex (S_ "0X1F"))) TU8 = None.
Proof. split; reflexivity. Qed.
(** A value of the bridge type for a custom type, and [0] for a float (WebIDL's octal token). *)
Lemma udl_refused mp n :
  convert_default (UInteger (TokDec (S_ "1"))) (TCustom mp n TU32) = None /\
  convert_default (UInteger (TokDec (S_ "1"))) TU32 <> None /\
  convert_default (UInteger (TokOct (S_ "0"))) TF64 = None.
Proof. split; [reflexivity|]. split; [vm_compute; discriminate|reflexivity]. Qed.
Lemma u64_negative N z : - 2 ^ 63 <= z < 0 ->
  exists l, int_lit TU64 (digits z) = Some l /\ meaning N TU64 (DLit l) = None /\
    py_default N TU64 (DLit l) = Some (show_dec z).
Proof.
  intros H. exists (LInt z Decimal_ TI64). split; [now apply int_lit_neg|]. split; reflexivity.
Qed.
Lemma order_illegal a b :
  p_default a <> None -> p_default b = None -> py_params_legal (py_params [a; b]) = false.
Proof.
  intros A B. unfold py_params. cbn [map]. rewrite B. destruct (p_default a); [reflexivity|congruence].
Qed.
Lemma order_legal_iff args : py_params_legal (py_params args) = true <->
  forall l a r b, args = l ++ a :: r -> In b r -> p_default a <> None -> p_default b <> None.
Proof.
  induction args as [|x args IH].
  - split; [|reflexivity]. intros _ l a r b E. now destruct l.
  - unfold py_params. cbn [map]. fold (py_params args). destruct (p_default x) as [d|] eqn:D; cbn [py_params_legal].
    + rewrite forallb_forall. split.
      * intros H l a r b E I _.
        assert (In b args) as J.
        { destruct l as [|y l]; cbn [app] in E; injection E as <- E; subst; [exact I|].
          apply in_or_app. right. now right. }
        intros B. assert (In false (py_params args)) as F.
        { unfold py_params. apply in_map_iff. exists b. rewrite B. auto. }
        apply H in F.
        discriminate.
      * intros H y I. unfold py_params in I. apply in_map_iff in I. destruct I as (b & <- & I).
        specialize (H [] x args b eq_refl I). rewrite D in H.
        destruct (p_default b); [reflexivity|]. exfalso. apply H; [discriminate|reflexivity].
    + rewrite IH. split.
      * intros H l a r b E I A. destruct l as [|y l]; cbn [app] in E; injection E as <- E.
        { congruence. }
        eapply H; eauto.
      * intros H l a r b E I A. eapply (H (x :: l)); eauto. cbn [app]. congruence.
Qed.
