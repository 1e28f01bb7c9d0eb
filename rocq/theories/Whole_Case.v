(** The text of the file of Udl_Examples.v. *)
From Verif Require Import Weed_Model Weed_Spec Weed_Tokens Weed_Refine Weed_Words Weed_Round Weed_Defs Weed_Main Weed_Refute Weed_Examples.
Definition plain_arg (a : option (list attr)) (t x : string) : arg := Arg a false None (TIdent (tx t) false) (tx x) None.
Definition a_doc : list def :=
  [DNamespace (Some (tx "All.")) None (tx "ns")
     [Operation (Some (tx " Adds.")) (Some [AIs (tx "Throws") (tx "E")]) [] (Some (TIdent (tx "u32") false)) (Some (tx "add"))
        [plain_arg (Some [APlain (tx "ByRef")]) "Rec" "r"; Arg None true None (TSequence (TIdent (tx "Url") false) true) (tx "u") (Some VNull)]];
   DEnum None (Some [APlain (tx "Error")]) (tx "E") [(None, tx "A"); (Some (tx "Bad."), tx "B")];
   DTypedef (Some [APlain (tx "Custom")]) None (TIdent (tx "string") false) (tx "Url");
   DDictionary None (Some [AList (tx "Traits") [tx "Eq"; tx "Hash"]]) (tx "Rec") None
     [Field None None false (TIdent (tx "Url") false) (tx "u") None; Field None None false (TNamed "boolean" false) (tx "b") (Some (VBool true))];
   DInterface None (Some [APlain (tx "Enum")]) (tx "V") None
     [Operation None None [] (Some (TIdent (tx "P") false)) None []; Operation None None [] (Some (TIdent (tx "Q") false)) None [plain_arg None "u32" "n"; plain_arg None "Rec" "r"]];
   DInterface None None (tx "Obj") None
     [Constructor None None []; Operation None (Some [APlain (tx "Async"); AIs (tx "Self") (tx "ByArc")]) [] (Some (TIdent (tx "void") false)) (Some (tx "go"))
        [plain_arg (Some [APlain (tx "ByRef")]) "Rec" "r"]];
   DCallbackInterface None None (tx "Cb") None
     [Operation None None [] (Some (TIdent (tx "V") false)) (Some (tx "ask")) [Arg None false None (TRecord "DOMString" (TIdent (tx "i8") false) false) (tx "m") None]];
   DTypedef (Some [AString (tx "External") (tx "other")]) None (TIdent (tx "trait") false) (tx "T")].
(** One blank after each token, one line for each token, and a text with blanks only where they are needed. *)
Definition spaced (b : string) : text :=
  removelast (List.concat (map (fun t => match t with DocLine _ => spelling t | _ => spelling t ++ tx b end) (udl_tokens a_doc))).
Definition wide_text : text := Eval vm_compute in spaced " ".
Definition long_text : text := Eval vm_compute in spaced nl.
(** The definitions from the last to the first. *)
Definition back_text : text := Eval vm_compute in
  removelast (List.concat (map (fun t => match t with DocLine _ => spelling t | _ => spelling t ++ tx " " end) (udl_tokens (rev a_doc)))).
Definition tight_text : text := tx (
  "///All." ++ nl ++ "namespace ns{" ++ nl ++ "  /// Adds." ++ nl ++ "  [Throws=E]u32 add([ByRef]Rec r,optional sequence<Url>?u=null);" ++ nl ++ "};" ++ nl ++
  "[Error]enum E{""A"",///Bad." ++ nl ++ """B""};" ++ nl ++
  "[Custom]typedef string Url;" ++ nl ++
  "[Traits=(Eq,Hash)]dictionary Rec{Url u;boolean b=true;};" ++ nl ++
  "[Enum]interface V{P();Q(u32 n,Rec r);};" ++ nl ++
  "interface Obj{constructor();[Async,Self=ByArc]void go([ByRef]Rec r);};" ++ nl ++
  "callback interface Cb{V ask(record<DOMString,i8>m);};" ++ nl ++
  "[External=""other""]typedef trait T;").
Example tight_reads : read_udl tight_text = Parsed a_doc.
Proof. vm_compute. reflexivity. Qed.

Lemma wide_spelt : spells (udl_tokens a_doc) wide_text.
Proof.
  assert (H : exists s, spells (udl_tokens a_doc) s /\ s = wide_text); [| destruct H as (s & H & <-); exact H].
  eexists. split.
  - let x := eval vm_compute in (udl_tokens a_doc) in change (udl_tokens a_doc) with x.
    repeat match goal with
      | |- spells (DocLine _ :: _) _ => line (@nil ascii)
      | |- spells [_] _ => tok (@nil ascii)
      | |- spells (_ :: _) _ => tok (tx " ")
      end.
    apply spells_end, blank_none.
  - vm_compute. reflexivity.
Qed.
Lemma wide_edges : edges wide_text.
Proof.
  exists "/"%char, (tl wide_text). split; [vm_compute; reflexivity |]. split; [apply edge_is; reflexivity |]. right.
  exists (removelast (tl wide_text)), ";"%char. split; [vm_compute; reflexivity | apply edge_is; reflexivity].
Qed.
Lemma long_spelt : spells (udl_tokens a_doc) long_text.
Proof.
  assert (H : exists s, spells (udl_tokens a_doc) s /\ s = long_text); [| destruct H as (s & H & <-); exact H].
  eexists. split.
  - let x := eval vm_compute in (udl_tokens a_doc) in change (udl_tokens a_doc) with x.
    repeat match goal with
      | |- spells (DocLine _ :: _) _ => line (@nil ascii)
      | |- spells [_] _ => tok (@nil ascii)
      | |- spells (_ :: _) _ => tok (tx nl)
      end.
    apply spells_end, blank_none.
  - vm_compute. reflexivity.
Qed.
Lemma long_edges : edges long_text.
Proof.
  exists "/"%char, (tl long_text). split; [vm_compute; reflexivity |]. split; [apply edge_is; reflexivity |]. right.
  exists (removelast (tl long_text)), ";"%char. split; [vm_compute; reflexivity | apply edge_is; reflexivity].
Qed.
Lemma back_spelt : spells (udl_tokens (rev a_doc)) back_text.
Proof.
  assert (H : exists s, spells (udl_tokens (rev a_doc)) s /\ s = back_text); [| destruct H as (s & H & <-); exact H].
  eexists. split.
  - let x := eval vm_compute in (udl_tokens (rev a_doc)) in change (udl_tokens (rev a_doc)) with x.
    repeat match goal with
      | |- spells (DocLine _ :: _) _ => line (@nil ascii)
      | |- spells [_] _ => tok (@nil ascii)
      | |- spells (_ :: _) _ => tok (tx " ")
      end.
    apply spells_end, blank_none.
  - vm_compute. reflexivity.
Qed.
Lemma back_edges : edges back_text.
Proof.
  exists "["%char, (tl back_text). split; [vm_compute; reflexivity |]. split; [apply edge_is; reflexivity |]. right.
  exists (removelast (tl back_text)), ";"%char. split; [vm_compute; reflexivity | apply edge_is; reflexivity].
Qed.
Lemma a_doc_ok : Forall def_ok a_doc.
Proof.
  assert (NO : forall w, match w with x :: w' => andb (is_alpha x) (forallb is_word w') | [] => false end = true -> name_ok w).
  { intros [| x w] H; [discriminate H |]. apply andb_true_iff in H. destruct H as [H1 H2]. exists x, w. split; [reflexivity |]. split; [apply letter_is, H1 |].
    apply Forall_forall. intros y I. apply word_is. rewrite forallb_forall in H2. apply H2, I. }
  assert (NA : attrs_ok None) by (intros l E; discriminate E).
  assert (SA : forall l, Forall attr_ok l -> attrs_ok (Some l)) by (intros l K l' E; injection E as <-; exact K).
  assert (ND : default_ok None) by (intros l E; discriminate E).
  assert (SD : forall v, lit_ok v -> default_ok (Some v)) by (intros l K l' E; injection E as <-; exact K).
  assert (SR : forall t, type_ok t -> return_ok (Some t)) by (intros l K l' E; injection E as <-; exact K).
  assert (NN : op_name_ok None) by (intros l E; discriminate E).
  assert (SN : forall w, name_ok w -> op_name_ok (Some w)) by (intros l K l' E; injection E as <-; exact K).
  assert (AO : forall a t x, attrs_ok a -> name_ok (tx t) -> name_ok (tx x) -> arg_ok (plain_arg a t x)).
  { intros a t x A B C. repeat split; try assumption. right. split; reflexivity. }
  assert (EQ : forall x, attr_ok x <-> match x with APlain w => name_ok w | AIs w v => name_ok w /\ name_ok v | AString w s => name_ok w /\ ~ In quote s | AList w l => name_ok w /\ Forall name_ok l end).
  { intros []; reflexivity. }
  Ltac step NO NA SA ND SD SR NN SN AO := match goal with
    | |- attrs_ok None => exact NA
    | |- attrs_ok (Some _) => apply SA
    | |- default_ok None => exact ND
    | |- default_ok (Some _) => apply SD
    | |- return_ok (Some _) => apply SR
    | |- op_name_ok None => exact NN
    | |- op_name_ok (Some _) => apply SN
    | |- arg_ok (plain_arg _ _ _) => apply AO
    | |- arg_ok _ => unfold arg_ok; cbn [g_attrs g_optional g_tattrs g_type g_name g_default]
    | |- field_ok _ => unfold field_ok; cbn [f_attrs f_type f_name f_default]
    | |- name_ok _ => apply NO; reflexivity
    | |- Forall _ (_ :: _) => apply Forall_cons
    | |- Forall _ [] => apply Forall_nil
    | |- attr_ok _ => cbn [attr_ok]
    | |- type_ok _ => cbn [type_ok]
    | |- member_ok _ => cbn [member_ok]
    | |- def_ok _ => cbn [def_ok]
    | |- lit_ok _ => exact I
    | |- is_operation _ => exact I
    | |- True => exact I
    | |- _ /\ _ => split
    | |- @eq (list _) _ _ => reflexivity
    | |- _ <> _ => discriminate
    | |- ~ In _ _ => cbn; intuition discriminate
    | |- In _ _ => cbn; tauto
    | |- _ \/ _ => first [left; reflexivity | right; split; [reflexivity | intros _; reflexivity]]
    end.
  unfold a_doc. repeat (step NO NA SA ND SD SR NN SN AO; cbv beta).
Qed.
