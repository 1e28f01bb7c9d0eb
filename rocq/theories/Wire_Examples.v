(** A sample environment and values used to show that the hypotheses of the wire
    theorems are satisfiable. *)
From Verif Require Import Base Utf8 Wire_Model Wire_Spec.
Local Open Scope Z_scope.
Local Open Scope string_scope.

Definition ex_defs (n : string) : option def :=
  if n =? "Point" then Some (DRecord [TInt true W32; TOption TString])
  else if n =? "Shape" then Some (DEnum false [[TFloat true]; [TNamed "Point"; TVec (TInt false W8)]; []])
  else if n =? "Node" then Some (DRecord [TInt true W64; TOption (TBox (TNamed "Node"))])
  else if n =? "Error" then Some (DFlat 3 true)
  else if n =? "LowerOnlyError" then Some (DFlat 3 false)
  else if n =? "Obj" then Some DObject
  else if n =? "Url" then Some (DCustom TString)
  else None.

Definition ex_env : env := {|
  defs := ex_defs;
  clift := fun n v => match v with VStr [] => Err | _ => Ok v end;
  display := fun _ _ => [x6f; x6f; x70; x73] |}.

Definition ex_ty : ty := TMap TString (TOption (TNamed "Shape")).
Definition ex_val : val :=
  VMap [(VStr [x61], VSome (VEnum 1 [VRec [VInt (-5); VSome (VStr [xc3; xa9])]; VSeq [VInt 255; VInt 0]]));
        (VStr [], VNone);
        (VStr [x62], VSome (VEnum 2 []))].
Definition ex_bytes : bytes :=
  match write ex_env ex_ty ex_val with Ok b => b | _ => [] end.

Fixpoint ex_list (n : nat) : val :=
  match n with
  | O => VRec [VInt 0; VNone]
  | S n' => VRec [VInt (Z.of_nat n); VSome (VBox (ex_list n'))]
  end.

(** Case split on membership in a concrete list. *)
Ltac in_cases := repeat match goal with
  | H : In _ (_ :: _) |- _ => destruct H as [H|H]; [try subst|]
  | H : In _ [] |- _ => destruct H
  | H : _ = _ \/ _ |- _ => destruct H as [H|H]; [try subst|]
  | H : False |- _ => destruct H
  end.

Lemma ex_val_typed : has_type ex_env ex_ty ex_val.
Proof.
  repeat first [ reflexivity | (split; [lia|]) |
    apply ht_map | apply ht_some | apply ht_none | eapply ht_enum | eapply ht_rec
    | apply ht_seq | apply ht_sint | apply ht_uint | apply ht_str
    | apply Forall_cons | apply Forall_nil | apply Forall2_cons | apply Forall2_nil ];
    try (cbn; repeat constructor; cbn; intuition discriminate);
    try (vm_compute; intuition congruence).
Qed.

Lemma ex_val_carried : all_carried ex_env ex_val.
Proof. intros u H. cbn in H. in_cases; exact I. Qed.

Lemma ex_list_typed n : (Z.of_nat n < 1000) -> has_type ex_env (TNamed "Node") (ex_list n).
Proof.
  induction n; intros H.
  - eapply ht_rec; [reflexivity|]. apply Forall2_cons; [|apply Forall2_cons; [apply ht_none|apply Forall2_nil]].
    apply ht_sint. vm_compute. intuition congruence.
  - cbn [ex_list]. eapply ht_rec; [reflexivity|].
    apply Forall2_cons; [|apply Forall2_cons; [apply ht_some, ht_box, IHn; lia|apply Forall2_nil]].
    apply ht_sint. replace (half (wbytes W64)) with 9223372036854775808 by (vm_compute; reflexivity). lia.
Qed.

Lemma ex_list_carried n : all_carried ex_env (ex_list n).
Proof.
  induction n; intros u H; cbn in H; [in_cases; exact I|].
  destruct H as [<-|[<-|[<-|[<-|H]]]]; try exact I. apply IHn. now rewrite app_nil_r in H.
Qed.

(** Checking a property of every type used by a type: list the types and check
    that the list is closed under taking components. *)
Definition ty_eq_dec (a b : ty) : {a = b} + {a <> b}.
Proof. decide equality; try apply Bool.bool_dec; try apply string_dec. decide equality. Defined.

Definition components (E : env) (t : ty) : list ty :=
  match t with
  | TOption t | TBox t | TVec t | TSet t => [t]
  | TMap k v => [k; v]
  | TNamed n =>
    match defs E n with
    | Some (DRecord ts) => ts
    | Some (DEnum _ vs) => concat vs
    | Some (DCustom b) => [b]
    | _ => []
    end
  | _ => []
  end.

Definition inb (t : ty) (l : list ty) : bool := if in_dec ty_eq_dec t l then true else false.
Definition closedb (E : env) (l : list ty) : bool :=
  forallb (fun t => forallb (fun c => inb c l) (components E t)) l.

Lemma inb_spec t l : inb t l = true -> In t l.
Proof. unfold inb. destruct (in_dec ty_eq_dec t l); congruence. Qed.

Lemma uses_closed E l : closedb E l = true ->
  forall t u, uses E t u -> In t l -> In u l.
Proof.
  intros C t u U. unfold closedb in C. rewrite forallb_forall in C.
  assert (G : forall t c, In c (components E t) -> In t l -> In c l).
  { intros t' c Hc Ht. specialize (C t' Ht). rewrite forallb_forall in C. apply inb_spec, C, Hc. }
  induction U as [| | | | | | |n ts t u D I _ IH|n ne vs ts t u D I1 I2 _ IH|n b u D _ IH];
    intros H'; auto;
    try (apply IHU; eapply G; [|exact H']; cbn; auto; fail); apply IH; eapply G; try exact H';
    cbn; rewrite D; cbn; auto.
  apply in_concat. eauto.
Qed.
