(** Concrete files. *)
From Verif Require Import Weed_Model Weed_Spec Weed_Tokens Weed_Refine Weed_Words Weed_Round Weed_Defs Weed_Main Weed_Refute.

Definition nl : string := String newline EmptyString.
Definition sample : list def :=
  [DNamespace (Some (tx " Sums" ++ newline :: tx " and more")) None (tx "demo")
     [Operation None (Some [AIs (tx "Throws") (tx "Error")]) [] (Some (TInt true LongLong false)) (Some (tx "add"))
        [Arg (Some [APlain (tx "ByRef")]) false None (TSequence (TIdent (tx "u8") false) false) (tx "a") None;
         Arg None true None (TNamed "DOMString" true) (tx "long") (Some VNull)]];
   DDictionary None None (tx "Point") None
     [Field None None false (TFloat false Float64 false) (tx "x") (Some (VFloat (tx "-1.5e3")));
      Field (Some (tx " how many")) None true (TRecordOf (TInt false Short false) (TIdent (tx "Any") true) false) (tx "n") (Some (VHex (tx "0xFF")))];
   DEnum None (Some [APlain (tx "Error")]) (tx "E") [(None, tx "A b"); (Some (tx " second"), tx "C")]].
Definition sample_text : text :=
  tx ("/// Sums" ++ nl ++ "  /// and more" ++ nl ++ "namespace demo { [Throws = Error ]unsigned long long /* the sum */ add ([ByRef ]sequence <u8 >a // first" ++ nl
    ++ ",optional DOMString ?_long =null ); };dictionary Point { double x =-1.5e3 ;/// how many" ++ nl ++ "required record <short ,Any ?>n =0xFF ;};"
    ++ "[Error ]enum E {""A b"",/// second" ++ nl ++ """C""};")%string.

Ltac solids := apply Forall_forall; let x := fresh in let I := fresh in intros x I; apply solid_is; revert x I; apply Forall_forall; repeat constructor.
Ltac blanks := repeat first [apply blank_none | apply blank_white; [cbn; tauto |]].
Ltac token_okay := cbn [token_ok W P name is_keyword]; first [split; [discriminate | solids] | (cbn; tauto) | (cbn; intuition discriminate)].
Ltac tok w := eapply (spells_token _ _ [] w); [token_okay | apply blank_none | blanks | first [exact I | (cbn; apply solid_not; reflexivity)] |].
Ltac line w := eapply (spells_doc _ _ w); [repeat (constructor; [cbn; tauto |]); constructor | cbn; intuition discriminate |].
Lemma sample_spelt : spells (udl_tokens sample) sample_text.
Proof.
  assert (H : exists s, spells (udl_tokens sample) s /\ s = sample_text); [| destruct H as (s & H & <-); exact H].
  eexists. split.
  - let x := eval vm_compute in (udl_tokens sample) in change (udl_tokens sample) with x.
    line (@nil ascii). line (tx "  "). tok (tx " "). tok (tx " "). tok (tx " ").
    tok (@nil ascii). tok (tx " "). tok (tx " "). tok (tx " "). tok (@nil ascii).
    tok (tx " "). tok (tx " ").
    eapply (spells_token _ _ [] (tx " /* the sum */ ")); [token_okay | apply blank_none | | cbn; apply solid_not; reflexivity |].
    { apply blank_white; [cbn; tauto |]. apply (blank_block (tx " the sum ") (tx " ")); [| blanks].
      intros (a & c & E). assert (L : List.length a <= 8) by (apply (f_equal (@List.length _)) in E; rewrite !app_length in E; cbn in E; lia).
      do 9 (destruct a as [| ? a]; [discriminate E | injection E as _ E]). cbn in L. lia. }
    tok (tx " "). tok (@nil ascii). tok (@nil ascii). tok (tx " "). tok (@nil ascii). tok (tx " "). tok (@nil ascii). tok (tx " "). tok (@nil ascii).
    eapply (spells_token _ _ [] (tx (" // first" ++ nl))); [token_okay | apply blank_none | | cbn; apply solid_not; reflexivity |].
    { apply blank_white; [cbn; tauto |]. apply (blank_line (tx " first") []); [cbn; intuition discriminate | discriminate | apply blank_none]. }
    tok (@nil ascii). tok (tx " "). tok (tx " "). tok (@nil ascii). tok (tx " "). tok (@nil ascii). tok (tx " "). tok (@nil ascii). tok (tx " "). tok (@nil ascii). tok (@nil ascii).
    tok (tx " "). tok (tx " "). tok (tx " "). tok (tx " "). tok (tx " "). tok (@nil ascii). tok (tx " "). tok (@nil ascii). line (@nil ascii).
    tok (tx " "). tok (tx " "). tok (@nil ascii). tok (tx " "). tok (@nil ascii). tok (tx " "). tok (@nil ascii). tok (@nil ascii). tok (tx " "). tok (@nil ascii). tok (tx " "). tok (@nil ascii). tok (@nil ascii). tok (@nil ascii).
    tok (@nil ascii). tok (tx " "). tok (@nil ascii). tok (tx " "). tok (tx " "). tok (@nil ascii). tok (@nil ascii). tok (@nil ascii). line (@nil ascii). tok (@nil ascii). tok (@nil ascii). tok (@nil ascii).
    apply spells_end, blank_none.
  - vm_compute. reflexivity.
Qed.
Ltac nameok := eexists; eexists; split; [reflexivity |]; split; [cbn; tauto |]; repeat (constructor; [unfold word_char, letter, digit; cbn; tauto |]); constructor.
Lemma sample_ok : Forall def_ok sample.
Proof.
  assert (NO : forall w, match w with x :: w' => andb (is_alpha x) (forallb is_word w') | [] => false end = true -> name_ok w).
  { intros [| x w] H; [discriminate H |]. apply andb_true_iff in H. destruct H as [H1 H2]. exists x, w. split; [reflexivity |]. split; [apply letter_is, H1 |].
    apply Forall_forall. intros y I. apply word_is. rewrite forallb_forall in H2. apply H2, I. }
  assert (NA : attrs_ok None) by (intros l E; discriminate E).
  apply Forall_cons; [| apply Forall_cons; [| apply Forall_cons; [| apply Forall_nil]]].
  - split; [exact NA |]. split; [apply NO; reflexivity |]. apply Forall_cons; [| apply Forall_nil]. split; [| exact I].
    split; [intros l E; injection E as <-; repeat constructor; apply NO; reflexivity |]. split; [reflexivity |]. split; [intros t E; injection E as <-; exact I |].
    split; [intros w E; injection E as <-; apply NO; reflexivity |]. apply Forall_cons; [| apply Forall_cons; [| apply Forall_nil]].
    + split; [intros l E; injection E as <-; repeat constructor; apply NO; reflexivity |]. split; [exact NA |]. split; [apply NO; reflexivity |].
      split; [apply NO; reflexivity |]. split; [intros v E; discriminate E |]. right. split; [reflexivity | discriminate].
    + split; [exact NA |]. split; [exact NA |]. split; [cbn; tauto |]. split; [apply NO; reflexivity |]. split; [intros v E; injection E as <-; exact I | now left].
  - split; [exact NA |]. split; [apply NO; reflexivity |]. split; [intros w E; discriminate E |]. apply Forall_cons; [| apply Forall_cons; [| apply Forall_nil]].
    + split; [exact NA |]. split; [exact I |]. split; [apply NO; reflexivity |]. intros v E. injection E as <-.
      exists (tx "1.5e3"), (tx "1"), (tx "5"), (tx "e3"). split; [now right |]. split; [repeat constructor; cbn; tauto |]. split; [repeat constructor; cbn; tauto |]. left.
      split; [reflexivity |]. split; [left; discriminate |]. right. exists "e"%char, [], (tx "3"). split; [reflexivity |]. split; [cbn; tauto |]. split; [now left |].
      split; [discriminate | repeat constructor; cbn; tauto].
    + split; [exact NA |]. split; [repeat split; apply NO; reflexivity |]. split; [apply NO; reflexivity |]. intros v E. injection E as <-.
      exists (tx "0xFF"), "x"%char, (tx "FF"). split; [now left |]. split; [reflexivity |]. split; [cbn; tauto | repeat constructor; cbn; tauto].
  - split; [intros l E; injection E as <-; repeat constructor; apply NO; reflexivity |]. split; [apply NO; reflexivity |]. split; [discriminate |].
    repeat constructor; cbn; intuition discriminate.
Qed.
Lemma sample_edges : edges sample_text.
Proof.
  exists "/"%char, (tl sample_text). split; [vm_compute; reflexivity |]. split; [apply edge_is; reflexivity |]. right.
  exists (removelast (tl sample_text)), ";"%char. split; [vm_compute; reflexivity | apply edge_is; reflexivity].
Qed.
Example sample_read : sample <> [] /\ Forall def_ok sample /\ spells (udl_tokens sample) sample_text /\ edges sample_text
  /\ read_udl (tx " " ++ sample_text ++ tx nl) = Parsed sample.
Proof.
  split; [discriminate |]. split; [exact sample_ok |]. split; [exact sample_spelt |]. split; [exact sample_edges |].
  apply read_file; [exact sample_ok | discriminate | exact sample_spelt | exact sample_edges | |]; repeat constructor; cbn; tauto.
Qed.
Example sample_comment : read_udl (sample_text ++ tx "// end" ++ [newline]) = ParseError /\ read_udl (sample_text ++ tx "/* end */") = Parsed sample.
Proof.
  split.
  - apply (last_comment sample sample_text (tx " end")); [exact sample_ok | exact sample_spelt | | cbn; intuition discriminate | discriminate].
    destruct sample_edges as (x & u & E & X & _). exists x, u. auto.
  - vm_compute. reflexivity.
Qed.
Example sample_first : blank (tx ("// License" ++ nl)) /\ read_udl (tx ("// License" ++ nl) ++ sample_text) = ParseError /\ read_udl (tx ("// License" ++ nl ++ "namespace a {};")) = Parsed [DNamespace None None (tx "a") []].
Proof.
  split; [apply (blank_line (tx " License") []); [cbn; intuition discriminate | discriminate | apply blank_none] |]. split; vm_compute; reflexivity.
Qed.

(** ** A comma after the last variant *)
Definition pair_enum : def := DEnum None None (tx "E") [(None, tx "A"); (None, tx "B")].
Definition comma_text : text := tx "enum E {""A"",""B"",};"%string.
Lemma comma_case : Forall def_ok [pair_enum] /\ (exists tss, Forall2 written [pair_enum] tss /\ spells (List.concat tss) comma_text) /\ edges comma_text /\ read_udl comma_text = Parsed [pair_enum].
Proof.
  split; [| split; [| split; [| vm_compute; reflexivity]]].
  - apply Forall_cons; [| apply Forall_nil]. split; [intros l E; discriminate E |]. split; [| split; [discriminate | repeat constructor; cbn; intuition discriminate]].
    exists "E"%char, []. split; [reflexivity |]. split; [apply letter_is; reflexivity | constructor].
  - eexists. split; [apply Forall2_cons; [apply written_comma | apply Forall2_nil] |].
    match goal with |- spells ?x _ => let y := eval vm_compute in x in change x with y end.
    assert (H : exists s, spells (List.concat [[W "enum"; W "E"; P "{"; Str (tx "A"); P ","; Str (tx "B"); P ","; P "}"; P ";"]]) s /\ s = comma_text).
    + eexists. split.
      * match goal with |- spells ?x _ => let y := eval vm_compute in x in change x with y end.
        tok (tx " "). tok (tx " "). tok (@nil ascii). tok (@nil ascii). tok (@nil ascii). tok (@nil ascii). tok (@nil ascii). tok (@nil ascii). tok (@nil ascii). apply spells_end, blank_none.
      * vm_compute. reflexivity.
    + destruct H as (s & H & <-). exact H.
  - exists "e"%char, (tl comma_text). split; [vm_compute; reflexivity |]. split; [apply edge_is; reflexivity |]. right.
    exists (removelast (tl comma_text)), ";"%char. split; [vm_compute; reflexivity | apply edge_is; reflexivity].
Qed.

(** ** Other texts *)
Definition ns (s : string) : text := tx ("namespace a {" ++ s ++ "};").
Lemma comment_between_docs : read_udl (tx ("/// one" ++ nl ++ "/// two" ++ nl ++ "namespace a {};")) = Parsed [DNamespace (Some (tx " one" ++ newline :: tx " two")) None (tx "a") []]
  /\ read_udl (tx ("/// one" ++ nl ++ "// note" ++ nl ++ "/// two" ++ nl ++ "namespace a {};")) = ParseError
  /\ read_udl (tx ("/// one" ++ nl ++ "// note" ++ nl ++ "namespace a {};")) = Parsed [DNamespace (Some (tx " one")) None (tx "a") []].
Proof. split; [| split]; vm_compute; reflexivity. Qed.
Lemma docs_elsewhere : read_udl (ns ("undefined f(/* x */ u8 a);")) = Parsed [DNamespace None None (tx "a") [Operation None None [] None (Some (tx "f")) [Arg None false None (TIdent (tx "u8") false) (tx "a") None]]]
  /\ read_udl (ns ("undefined f(/// x" ++ nl ++ "u8 a);")) = ParseError
  /\ read_udl (ns ("[A]/// x" ++ nl ++ "undefined f();")) = ParseError
  /\ read_udl (ns ("undefined f();/// x" ++ nl)) = ParseError
  /\ read_udl (ns ("//// ----" ++ nl ++ "undefined f();")) = Parsed [DNamespace None None (tx "a") [Operation (Some (tx "/ ----")) None [] None (Some (tx "f")) []]].
Proof. repeat split; vm_compute; reflexivity. Qed.
Definition op (w : string) : outcome := Parsed [DNamespace None None (tx "a") [Operation None None [] None (Some (tx w)) []]].
Lemma names_read : read_udl (ns "undefined _f();") = op "f" /\ read_udl (ns "undefined f();") = op "f" /\ read_udl (ns "undefined __f();") = ParseError
  /\ read_udl (ns "undefined 2f();") = op "2f" /\ read_udl (ns "undefined f-g();") = op "f-g".
Proof. repeat split; vm_compute; reflexivity. Qed.
Definition dict (s : string) : text := tx ("dictionary D { T x = " ++ s ++ "; };").
Definition with_default (v : lit) : outcome := Parsed [DDictionary None None (tx "D") None [Field None None false (TIdent (tx "T") false) (tx "x") (Some v)]].
Lemma numbers_read : read_udl (dict "0x") = with_default (VHex (tx "0x")) /\ read_udl (dict "09") = ParseError /\ read_udl (dict "+1") = ParseError
  /\ read_udl (dict "017") = with_default (VOct (tx "017")).
Proof. repeat split; vm_compute; reflexivity. Qed.
Lemma strings_read : read_udl (tx ("dictionary D { T x = ""a" ++ String (ascii_of_nat 92) """b""; };")) = ParseError
  /\ read_udl (tx ("dictionary D { T x = ""a" ++ nl ++ "b""; };")) = with_default (VString (tx ("a" ++ nl ++ "b"))).
Proof. split; vm_compute; reflexivity. Qed.
Definition cr : ascii := ascii_of_nat 13.
Lemma returns_kept : read_udl (tx "/// one" ++ [cr; newline] ++ tx "namespace a {};") = Parsed [DNamespace (Some (tx " one" ++ [cr])) None (tx "a") []].
Proof. vm_compute. reflexivity. Qed.
