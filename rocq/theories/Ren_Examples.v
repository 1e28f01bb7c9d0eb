(** Concrete cases for C39. *)
From Verif Require Import Base Meta_Types Reach_Spec Ren_Model Ren_Spec Ren_Proofs.
From Verif Require Names_Model.
Local Open Scope string_scope.

Notation crate := Names_Model.crate_name.

Definition fn (n : string) (args : list (string * ty)) (ret throws self : option ty) : callable :=
  Callable (S_ n) (map (fun a => (S_ (fst a), snd a)) args) ret throws self.
Definition R := TRecord (S_ "a::m") (S_ "R").
Definition E := TEnum (S_ "a") (S_ "E").
Definition O := TObject (S_ "a") (S_ "O") IStruct.
Definition Ext := TRecord (S_ "b") (S_ "Ext").

(** Two crates with a table each. *)
Definition conf : tables :=
  [(S_ "a", [(S_ "R", Some (S_ "Rec")); (S_ "R.f", Some (S_ "field")); (S_ "E", Some (S_ "Err"));
             (S_ "E.V", Some (S_ "Var")); (S_ "O", Some (S_ "Obj")); (S_ "O.m.x", Some (S_ "arg"));
             (S_ "CB", Some (S_ "Listener")); (S_ "CB.call", Some (S_ "notify"));
             (S_ "g", Some (S_ "fun")); (S_ "number", None)]);
   (S_ "b", [(S_ "Ext", Some (S_ "External"))])].

Lemma conf_unique : unique_keys conf.
Proof.
  split.
  - vm_compute. repeat (apply NoDup_cons; [intros I; repeat (destruct I as [I|I]; [discriminate I|]); exact I|]).
    apply NoDup_nil.
  - intros c t [H|[H|[]]]; injection H as <- <-; vm_compute;
      repeat (apply NoDup_cons; [intros I; repeat (destruct I as [I|I]; [discriminate I|]); exact I|]);
      apply NoDup_nil.
Qed.

(** An interface where all goes well. *)
Definition good : ci :=
  Ci (S_ "a") [] [R; TOption R; E]
     [EnumDef (S_ "a") (S_ "E") [VariantDef (S_ "V") [(S_ "r", TSeq R)]] [] []]
     [RecordDef (S_ "a::m") (S_ "R") [(S_ "f", TMap TString (TOption R)); (S_ "e", Ext)] [] []]
     [fn "g" [("x", TOption (TSeq R))] (Some R) (Some E) None]
     [ObjectDef (S_ "a") (S_ "O") [fn "new" [("r", R)] None None None]
        [fn "m" [("x", R)] (Some TU8) None None] [] []]
     [] [] [S_ "E"].

Definition Rec := TRecord (S_ "a::m") (S_ "Rec").
Example good_renamed : rename conf good =
  Ci (S_ "a") [] [Rec; TOption Rec; TEnum (S_ "a") (S_ "Err")]
     [EnumDef (S_ "a") (S_ "Err") [VariantDef (S_ "Var") [(S_ "r", TSeq Rec)]] [] []]
     [RecordDef (S_ "a::m") (S_ "Rec")
        [(S_ "field", TMap TString (TOption Rec)); (S_ "e", TRecord (S_ "b") (S_ "External"))] [] []]
     [fn "fun" [("x", TOption (TSeq Rec))] (Some Rec) (Some (TEnum (S_ "a") (S_ "Err"))) None]
     [ObjectDef (S_ "a") (S_ "Obj") [fn "new" [("r", Rec)] None None None]
        [fn "m" [("arg", Rec)] (Some TU8) None None] [] []]
     [] [] [S_ "Err"].
Proof. vm_compute. reflexivity. Qed.

(** Every mention is one the code treats well. *)
Definition all_fine (c : ci) : Prop := forall t, In t (mentions c) -> no_box t /\ one_crate (ci_crate c) t.
Ltac look :=
  let t := fresh "t" in let I := fresh "I" in intros t I; split;
  [ let b := fresh "b" in let J := fresh "J" in intros b J; vm_compute in I;
    repeat (destruct I as [<-|I];
      [repeat match goal with H : inside _ _ |- _ => inversion H; clear H; subst end|]); contradiction
  | let u := fresh "u" in let mp := fresh "mp" in let J := fresh "J" in let P := fresh "P" in
    intros u mp J P; vm_compute in I;
    repeat (destruct I as [<-|I];
      [repeat match goal with H : inside _ _ |- _ => inversion H; clear H; subst end;
       cbn in P; try discriminate P; injection P as <-; vm_compute; reflexivity|]); contradiction ].
Example good_fine : all_fine good.
Proof. look. Qed.

(** The pipeline, on the same interface: namespaces are named like the crates. *)
Definition good' : ci :=
  Ci (S_ "a") [] [] [] [RecordDef (S_ "a") (S_ "R") [(S_ "f", TSeq Ext)]
                          [fn "m" [("x", TOption Ext)] (Some (TRecord (S_ "a") (S_ "R"))) None
                              (Some (TRecord (S_ "a") (S_ "R")))] []]
     [] [] [CallbackDef (S_ "a") (S_ "CB") [fn "call" [] (Some Ext) None None]] [] [].
Example good_pipeline : p_namespace conf (S_ "a") good' =
  Ok (Ci (S_ "a") [] [] [] [RecordDef (S_ "a") (S_ "Rec") [(S_ "field", TSeq (TRecord (S_ "b") (S_ "External")))]
                 [fn "m" [("x", TOption (TRecord (S_ "b") (S_ "External")))] (Some (TRecord (S_ "a") (S_ "Rec")))
                     None (Some (TRecord (S_ "a") (S_ "Rec")))] []]
     [] [] [CallbackDef (S_ "a") (S_ "Listener")
              [fn "notify" [] (Some (TRecord (S_ "b") (S_ "External"))) None None]] [] []).
Proof. vm_compute. reflexivity. Qed.

(** ** What goes wrong *)

Definition empty : ci := Ci (S_ "a") [] [] [] [] [] [] [] [] [].
Definition with_functions fs : ci := Ci (S_ "a") [] [] [] [] fs [] [] [] [].
Definition with_objects os : ci := Ci (S_ "a") [] [] [] [] [] os [] [] [].
Definition with_callbacks cs : ci := Ci (S_ "a") [] [] [] [] [] [] cs [] [].
Definition with_records rs : ci := Ci (S_ "a") [] [] [] rs [] [] [] [] [].

(** A type of another crate, within an option. *)
Definition nested : ci := with_functions [fn "f" [("x", TOption Ext)] None None None].
(** A constructor with its object and its error. *)
Definition constructor : ci :=
  with_objects [ObjectDef (S_ "a") (S_ "O") [fn "make" [] None (Some E) (Some O)] [] [] []].
(** A callback interface. *)
Definition callback : ci :=
  with_callbacks [CallbackDef (S_ "a") (S_ "CB") [fn "call" [] (Some R) None None]].
(** A method of a record. *)
Definition record_method : ci :=
  with_records [RecordDef (S_ "a") (S_ "R") [] [fn "m" [("x", E)] None None None] []].
(** An object implementing a trait. *)
Definition implements : ci :=
  with_objects [ObjectDef (S_ "a") (S_ "P") [] [] [] [O]].
(** A box. *)
Definition boxed : ci := with_functions [fn "f" [("x", TBox R)] None None None].

Lemma constructor_fine : all_fine constructor. Proof. look. Qed.
Lemma callback_fine : all_fine callback. Proof. look. Qed.
Lemma record_method_fine : all_fine record_method. Proof. look. Qed.
Lemma implements_fine : all_fine implements. Proof. look. Qed.

Lemma conf_a n n' : In (n, Some n') (snd (nth 0 conf (S_ "", []))) -> configured conf (S_ "a") n n'.
Proof. intros I. eexists. split; [left; reflexivity | exact I]. Qed.
Lemma conf_b n n' : In (n, Some n') (snd (nth 1 conf (S_ "", []))) -> configured conf (S_ "b") n n'.
Proof. intros I. eexists. split; [right; left; reflexivity | exact I]. Qed.

Lemma not_right c k n : configured conf c k n -> forall old, old <> n -> ~ right_name conf c k old old.
Proof.
  intros C old D H. apply (configured_found _ _ _ _ conf_unique) in C.
  apply (right_is_found _ _ _ _ _ conf_unique) in H. rewrite C in H. exact (D H).
Qed.

Lemma R_conf : configured conf (S_ "a") (S_ "R") (S_ "Rec").
Proof. apply conf_a. left. reflexivity. Qed.
Lemma E_conf : configured conf (S_ "a") (S_ "E") (S_ "Err").
Proof. apply conf_a. right. right. left. reflexivity. Qed.
Lemma O_conf : configured conf (S_ "a") (S_ "O") (S_ "Obj").
Proof. apply conf_a. do 4 right. left. reflexivity. Qed.
Lemma Ext_conf : configured conf (S_ "b") (S_ "Ext") (S_ "External").
Proof. apply conf_b. left. reflexivity. Qed.
Lemma call_conf : configured conf (S_ "a") (S_ "CB.call") (S_ "notify").
Proof. apply conf_a. do 7 right. left. reflexivity. Qed.

Lemma unchanged t : renaming crate conf t t ->
  match t with
  | TRecord mp n => right_name conf (crate mp) n n n
  | TEnum mp n => right_name conf (crate mp) n n n
  | TObject mp n _ => right_name conf (crate mp) n n n
  | TOption (TRecord mp n) | TBox (TRecord mp n) => right_name conf (crate mp) n n n
  | _ => True
  end.
Proof.
  intros H. destruct t; try exact I.
  - inversion H; subst; [assumption|]. match goal with X : forall u, inside u _ -> _ |- _ => discriminate (X _ (in_self _)) end.
  - inversion H; subst; [assumption|]. match goal with X : forall u, inside u _ -> _ |- _ => discriminate (X _ (in_self _)) end.
  - inversion H; subst; [assumption|]. match goal with X : forall u, inside u _ -> _ |- _ => discriminate (X _ (in_self _)) end.
  - inversion H as [| | | | | | | |s s' K| |s K]; subst.
    + destruct t; try exact I. inversion K; subst; [assumption|].
      match goal with X : forall u, inside u _ -> _ |- _ => discriminate (X _ (in_self _)) end.
    + destruct t; try exact I. discriminate (K _ (in_box _ _ (in_self _))).
  - inversion H as [| | | | |s s' K| | | | |s K]; subst.
    + destruct t; try exact I. inversion K; subst; [assumption|].
      match goal with X : forall u, inside u _ -> _ |- _ => discriminate (X _ (in_self _)) end.
    + destruct t; try exact I. discriminate (K _ (in_option _ _ (in_self _))).
Qed.

Lemma head {A B} (P : A -> B -> Prop) a b l l' : Forall2 P (a :: l) (b :: l') -> P a b.
Proof. intros H. inversion H; assumption. Qed.

Lemma nested_wrong : ~ Forall2 (renaming crate conf) (function_mentions nested)
                                                     (function_mentions (rename conf nested)).
Proof.
  intros H. apply head in H. apply unchanged in H. revert H. apply (not_right _ _ _ Ext_conf). discriminate.
Qed.
Lemma constructor_result_wrong : ~ Forall2 (renaming crate conf) (constructor_results constructor)
                                          (constructor_results (rename conf constructor)).
Proof.
  intros H. apply head in H. apply unchanged in H. revert H. apply (not_right _ _ _ O_conf). discriminate.
Qed.
Lemma constructor_error_wrong : ~ Forall2 (renaming crate conf) (constructor_errors constructor)
                                          (constructor_errors (rename conf constructor)).
Proof.
  intros H. apply head in H. apply unchanged in H. revert H. apply (not_right _ _ _ E_conf). discriminate.
Qed.
Lemma callback_outcome_wrong : ~ Forall2 (renaming crate conf) (callback_outcomes callback)
                                          (callback_outcomes (rename conf callback)).
Proof.
  intros H. apply head in H. apply unchanged in H. revert H. apply (not_right _ _ _ R_conf). discriminate.
Qed.
Lemma record_method_wrong : ~ Forall2 (renaming crate conf) (value_method_mentions record_method)
                                          (value_method_mentions (rename conf record_method)).
Proof.
  intros H. apply head in H. apply unchanged in H. revert H. apply (not_right _ _ _ E_conf). discriminate.
Qed.
Lemma implements_wrong : ~ Forall2 (renaming crate conf) (trait_mentions implements)
                                          (trait_mentions (rename conf implements)).
Proof.
  intros H. apply head in H. apply unchanged in H. revert H. apply (not_right _ _ _ O_conf). discriminate.
Qed.
Lemma boxed_wrong : ~ Forall2 (renaming crate conf) (function_mentions boxed)
                                          (function_mentions (rename conf boxed)).
Proof.
  intros H. apply head in H. apply unchanged in H. revert H. apply (not_right _ _ _ R_conf). discriminate.
Qed.
Lemma callback_key_wrong : ~ Forall2 (renames_slot crate conf) (callback_slots callback)
                                          (callback_slots (rename conf callback)).
Proof.
  intros H. apply head in H. revert H. apply (not_right _ _ _ call_conf). discriminate.
Qed.
