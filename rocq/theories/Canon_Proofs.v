(** Proofs for C37. *)
From Verif Require Import Base Meta_Types Canon_Model Canon_Spec.

(** A name starts with a token that tells how the type is made. *)
Inductive tok :=
| KU8 | KI8 | KU16 | KI16 | KU32 | KI32 | KU64 | KI64 | KF32 | KF64 | KBool | KString | KBytes
| KTimestamp | KDuration | KOption | KSeq | KSet | KMap | KBox | KUser | KCallback.

Definition toks : list tok :=
  [KU8; KI8; KU16; KI16; KU32; KI32; KU64; KI64; KF32; KF64; KBool; KString; KBytes;
   KTimestamp; KDuration; KOption; KSeq; KSet; KMap; KBox; KUser; KCallback].

Definition head (t : ty) : tok :=
  match t with
  | TU8 => KU8 | TI8 => KI8 | TU16 => KU16 | TI16 => KI16 | TU32 => KU32 | TI32 => KI32
  | TU64 => KU64 | TI64 => KI64 | TF32 => KF32 | TF64 => KF64 | TBool => KBool
  | TString => KString | TBytes => KBytes | TTimestamp => KTimestamp | TDuration => KDuration
  | TObject _ _ _ | TRecord _ _ | TEnum _ _ | TCustom _ _ _ => KUser
  | TCallback _ _ => KCallback
  | TOption _ => KOption | TSeq _ => KSeq | TSet _ => KSet | TMap _ _ => KMap | TBox _ => KBox
  end.

Definition tok_eqb (a b : tok) : bool :=
  match a, b with
  | KU8, KU8 | KI8, KI8 | KU16, KU16 | KI16, KI16 | KU32, KU32 | KI32, KI32 | KU64, KU64
  | KI64, KI64 | KF32, KF32 | KF64, KF64 | KBool, KBool | KString, KString | KBytes, KBytes
  | KTimestamp, KTimestamp | KDuration, KDuration | KOption, KOption | KSeq, KSeq | KSet, KSet
  | KMap, KMap | KBox, KBox | KUser, KUser | KCallback, KCallback => true
  | _, _ => false
  end.

Lemma tok_eqb_eq a b : tok_eqb a b = true -> a = b.
Proof. destruct a, b; cbn; congruence. Qed.

Lemma in_toks a : In a toks.
Proof. destruct a; cbn; tauto. Qed.

Definition user (a : tok) : bool := match a with KUser | KCallback => true | _ => false end.

Section scheme.
  Variable tokstr : tok -> str.
  Variable class_name : str -> str.

  (** The general form of the three functions, for types without boxes or with a token for them. *)
  Fixpoint gname (t : ty) : str :=
    tokstr (head t) ++
    match t with
    | TObject _ n _ | TRecord _ n | TEnum _ n | TCustom _ n _ => n
    | TCallback _ n => class_name n
    | TOption t | TSeq t | TSet t | TBox t => gname t
    | TMap k v => gname k ++ gname v
    | _ => []
    end.

  Definition starts : list byte := flat_map (fun a => firstn 1 (tokstr a)) toks.

  Fixpoint differ (a b : tok) (s s' : str) : bool :=
    match s, s' with
    | x :: s, y :: s' => if byte_eqb x y then differ a b s s' else true
    | [], y :: _ => negb (user a) && negb (existsb (byte_eqb y) starts)
    | x :: _, [] => negb (user b) && negb (existsb (byte_eqb x) starts)
    | [], [] => user a && user b
    end.

  Hypothesis nonempty : forallb (fun a => negb (match tokstr a with [] => true | _ => false end)) toks
                        = true.
  Hypothesis separate :
    forallb (fun a => forallb (fun b => tok_eqb a b || differ a b (tokstr a) (tokstr b)) toks) toks
    = true.

  Definition follows (x : str) : Prop := x = [] \/ exists c x', x = c :: x' /\ In c starts.

  Lemma tok_nonempty a : exists c s, tokstr a = c :: s.
  Proof.
    rewrite forallb_forall in nonempty. specialize (nonempty a (in_toks a)).
    destruct (tokstr a) as [|c s]; [discriminate|eauto].
  Qed.

  Lemma gname_starts t x : follows (gname t ++ x).
  Proof.
    right. destruct (tok_nonempty (head t)) as [c [s E]].
    assert (G : exists y, gname t = tokstr (head t) ++ y) by (destruct t; eexists; reflexivity).
    destruct G as [y ->]. rewrite E. cbn [app]. exists c, ((s ++ y) ++ x). split; [reflexivity|].
    unfold starts. apply in_flat_map. exists (head t). split; [apply in_toks|].
    rewrite E. left. reflexivity.
  Qed.

  Lemma not_starts c : existsb (byte_eqb c) starts = false -> ~ In c starts.
  Proof.
    intros E I. assert (existsb (byte_eqb c) starts = true); [|congruence].
    apply existsb_exists. exists c. split; [exact I|]. destruct (byte_eqb_spec c c); congruence.
  Qed.

  Lemma differ_neq a b : forall s s' x y, differ a b s s' = true ->
    (user a = false -> follows x) -> (user b = false -> follows y) ->
    s ++ x = s' ++ y -> user a = true /\ user b = true.
  Proof.
    induction s as [|c s IH]; intros s' x y D FX FY E.
    - destruct s' as [|c' s']; cbn in D.
      + apply andb_true_iff in D. exact D.
      + apply andb_true_iff in D. destruct D as [U D]. apply negb_true_iff in U, D.
        cbn in E. exfalso. destruct (FX U) as [->|[c0 [x' [-> I]]]]; [discriminate E|].
        injection E as -> _. exact (not_starts _ D I).
    - destruct s' as [|c' s']; cbn in D.
      + apply andb_true_iff in D. destruct D as [U D]. apply negb_true_iff in U, D.
        cbn in E. exfalso. destruct (FY U) as [->|[c0 [x' [-> I]]]]; [discriminate E|].
        injection E as <- _. exact (not_starts _ D I).
      + cbn in E. injection E as -> E. destruct (byte_eqb_spec c' c') as [_|N]; [|congruence].
        exact (IH _ _ _ D FX FY E).
  Qed.

  Lemma tok_eq a b x y : user a = false \/ user b = false ->
    (user a = false -> follows x) -> (user b = false -> follows y) ->
    tokstr a ++ x = tokstr b ++ y -> a = b /\ x = y.
  Proof.
    intros U FX FY E.
    assert (AB : a = b).
    { rewrite forallb_forall in separate. specialize (separate a (in_toks a)). cbn beta in separate.
      rewrite forallb_forall in separate. specialize (separate b (in_toks b)).
      apply orb_true_iff in separate. destruct separate as [Q|D]; [exact (tok_eqb_eq _ _ Q)|].
      destruct (differ_neq _ _ _ _ _ _ D FX FY E) as [A B]. destruct U; congruence. }
    split; [exact AB|]. subst b. exact (app_inv_head _ _ _ E).
  Qed.

  Definition rest (t : ty) : str :=
    match t with
    | TObject _ n _ | TRecord _ n | TEnum _ n | TCustom _ n _ => n
    | TCallback _ n => class_name n
    | TOption t | TSeq t | TSet t | TBox t => gname t
    | TMap k v => gname k ++ gname v
    | _ => []
    end.

  Lemma gname_eq t : gname t = tokstr (head t) ++ rest t.
  Proof. destruct t; reflexivity. Qed.

  Lemma rest_follows t x : user (head t) = false -> follows x -> follows (rest t ++ x).
  Proof.
    intros U F. destruct t; cbn in U; try discriminate; cbn [rest]; try exact F;
      try apply gname_starts.
    rewrite <- app_assoc. apply gname_starts.
  Qed.

  Lemma no_part_head k : (forall u, ~ part k u) -> user (head k) = false.
  Proof.
    intros N. destruct k; try reflexivity; exfalso; eapply N; apply part_self; discriminate.
  Qed.

  (** Types made of builtins only: their names can be recognised at the start of any text. *)
  Lemma builtin_prefix : forall t t' x y, (forall u, ~ part t u) -> (forall u, ~ part t' u) ->
    follows x -> follows y -> gname t ++ x = gname t' ++ y -> t = t' /\ x = y.
  Proof.
    induction t; intros t' x y N N' FX FY E;
      pose proof (no_part_head _ N) as U; pose proof (no_part_head _ N') as U';
      rewrite !gname_eq, <- !app_assoc in E;
      destruct (tok_eq _ _ _ _ (or_introl U)
                  (fun _ => rest_follows _ _ U FX) (fun _ => rest_follows _ _ U' FY) E) as [H R];
      destruct t'; cbn [head] in H; try discriminate H; cbn [rest app] in R;
      try discriminate U; try (split; [reflexivity | exact R]).
    1-4: destruct (IHt t' x y) as [Q1 Q2];
      [ intros u P; apply (N u); constructor; exact P | intros u P; apply (N' u); constructor; exact P
      | exact FX | exact FY | exact R | rewrite Q1, Q2; split; reflexivity ].
    rewrite <- !app_assoc in R.
    destruct (IHt1 _ _ _ (fun u P => N u (part_key _ _ _ P)) (fun u P => N' u (part_key _ _ _ P))
                (gname_starts _ _) (gname_starts _ _) R) as [-> R'].
    destruct (IHt2 _ _ _ (fun u P => N u (part_value _ _ _ P))
                (fun u P => N' u (part_value _ _ _ P)) FX FY R') as [-> ->].
    split; reflexivity.
  Qed.

  (** Any types, keys apart: the same name means the same type up to user types of the same name. *)
  Lemma same_name_same_type (P : ty -> Prop) :
    (forall u u', P u -> P u' ->
       tokstr (head u) ++ rest u = tokstr (head u') ++ rest u' ->
       user (head u) = true -> user (head u') = true -> u = u') ->
    forall t t', (forall u, part t u -> P u) -> (forall u, part t' u -> P u) ->
    builtin_keys t -> builtin_keys t' -> gname t = gname t' -> t = t'.
  Proof.
    intros ONE.
    assert (FN : follows []) by (left; reflexivity).
    induction t; intros t' PT PT' B B' E.
    all: destruct (user (head t')) eqn:U'.
    all: match goal with
         | |- ?a = _ =>
             destruct (user (head a)) eqn:U; cbn [head user] in U; try discriminate U
         end.
    all: try (apply ONE;
      [ apply PT, part_self; discriminate
      | apply PT', part_self; destruct t'; first [discriminate U' | discriminate]
      | rewrite <- !gname_eq; exact E | reflexivity | exact U' ]; fail).
    all: rewrite !gname_eq in E;
      match type of E with
      | tokstr (head ?a) ++ _ = tokstr (head ?b) ++ _ =>
          let FA := fresh "FA" in let FB := fresh "FB" in
          assert (FA : user (head a) = false -> follows (rest a))
            by (intros Z; rewrite <- (app_nil_r (rest a)); apply rest_follows; assumption);
          assert (FB : user (head b) = false -> follows (rest b))
            by (intros Z; rewrite <- (app_nil_r (rest b)); apply rest_follows; assumption);
          let O := fresh "O" in
          assert (O : user (head a) = false \/ user (head b) = false)
            by (first [left; reflexivity | right; assumption]);
          destruct (tok_eq _ _ _ _ O FA FB E) as [H R]
      end.
    all: destruct t'; cbn [head] in H; try discriminate H; try discriminate U'; try reflexivity;
      cbn [rest] in R.
    1-4: f_equal; apply IHt;
      [ intros u X; apply PT; constructor; exact X | intros u X; apply PT'; constructor; exact X
      | exact B | exact B' | exact R ].
    destruct B as [B1 B2], B' as [B1' B2'].
    destruct (builtin_prefix t1 t'1 (gname t2) (gname t'2) B1 B1') as [-> R2].
    - rewrite <- (app_nil_r (gname t2)). apply gname_starts.
    - rewrite <- (app_nil_r (gname t'2)). apply gname_starts.
    - exact R.
    - f_equal. apply IHt2;
        [ intros u X; apply PT, part_value, X | intros u X; apply PT', part_value, X
        | exact B2 | exact B2' | exact R2 ].
  Qed.
End scheme.

(** ** The three schemes *)

Definition id_ (s : str) : str := s.

Definition pipeline_tok (a : tok) : str :=
  match a with
  | KU8 => S_ "UInt8" | KI8 => S_ "Int8" | KU16 => S_ "UInt16" | KI16 => S_ "Int16"
  | KU32 => S_ "UInt32" | KI32 => S_ "Int32" | KU64 => S_ "UInt64" | KI64 => S_ "Int64"
  | KF32 => S_ "Float32" | KF64 => S_ "Float64" | KBool => S_ "Boolean"
  | KString => S_ "String" | KBytes => S_ "Bytes"
  | KTimestamp => S_ "Timestamp" | KDuration => S_ "Duration"
  | KUser | KCallback => S_ "Type"
  | KOption => S_ "Optional" | KSeq => S_ "Sequence" | KMap => S_ "Map" | KBox => S_ "Box"
  | KSet => S_ "Set"
  end.
Definition kotlin_tok (a : tok) : str :=
  match a with
  | KU8 => S_ "UByte" | KI8 => S_ "Byte" | KU16 => S_ "UShort" | KI16 => S_ "Short"
  | KU32 => S_ "UInt" | KI32 => S_ "Int" | KU64 => S_ "ULong" | KI64 => S_ "Long"
  | KF32 => S_ "Float" | KF64 => S_ "Double" | KBool => S_ "Boolean"
  | KString => S_ "String" | KBytes => S_ "ByteArray"
  | KTimestamp => S_ "Timestamp" | KDuration => S_ "Duration"
  | KUser | KCallback => S_ "Type"
  | KOption => S_ "Optional" | KSeq => S_ "Sequence" | KMap => S_ "Map" | KBox => S_ "Box"
  | KSet => S_ "Set"
  end.
Definition swift_tok (a : tok) : str :=
  match a with
  | KU8 => S_ "UInt8" | KI8 => S_ "Int8" | KU16 => S_ "UInt16" | KI16 => S_ "Int16"
  | KU32 => S_ "UInt32" | KI32 => S_ "Int32" | KU64 => S_ "UInt64" | KI64 => S_ "Int64"
  | KF32 => S_ "Float" | KF64 => S_ "Double" | KBool => S_ "Bool"
  | KString => S_ "String" | KBytes => S_ "Data"
  | KTimestamp => S_ "Timestamp" | KDuration => S_ "Duration"
  | KUser => S_ "Type" | KCallback => S_ "CallbackInterface"
  | KOption => S_ "Option" | KSeq => S_ "Sequence" | KMap => S_ "Dictionary" | KBox => S_ "Box"
  | KSet => S_ "Set"
  end.

Lemma canonical_gname t : canonical_name t = gname pipeline_tok id_ t.
Proof. induction t; cbn; rewrite ?IHt, ?IHt1, ?IHt2, ?app_nil_r; reflexivity. Qed.
Lemma kotlin_gname t : kotlin_name t = gname kotlin_tok id_ (unboxed t).
Proof. induction t; cbn; rewrite ?IHt, ?IHt1, ?IHt2, ?app_nil_r; reflexivity. Qed.
Lemma swift_gname cn t : swift_name cn t = gname swift_tok cn (unboxed t).
Proof. induction t; cbn; rewrite ?IHt, ?IHt1, ?IHt2, ?app_nil_r; reflexivity. Qed.

Lemma user_head u : user (head u) = true -> exists n, user_name u = Some n.
Proof. destruct u; cbn; try discriminate; eauto. Qed.

Lemma unboxed_part t : forall u, part (unboxed t) u -> part t u.
Proof.
  induction t; intros u P; cbn in P; try exact P.
  all: try (constructor; apply IHt; exact P).
  all: try (inversion P; subst; [exfalso; match goal with H : _ <> _ |- _ => apply H; reflexivity end
            | constructor; apply IHt; assumption]).
  inversion P; subst.
  - exfalso. apply H. reflexivity.
  - apply part_key, IHt1. assumption.
  - apply part_value, IHt2. assumption.
Qed.

Lemma unboxed_keys t : builtin_keys t -> builtin_keys (unboxed t).
Proof.
  induction t; cbn; auto. intros [K V]. split; [|auto].
  intros u P. exact (K u (unboxed_part _ _ P)).
Qed.

Lemma pipeline_distinct types t t' : one_type_per_name types -> In t types -> In t' types ->
  builtin_keys t -> builtin_keys t' -> canonical_name t = canonical_name t' -> t = t'.
Proof.
  intros ONE I I' B B' E. rewrite !canonical_gname in E.
  refine (same_name_same_type pipeline_tok id_ _ _ (fun u => exists s, In s types /\ part s u)
            _ t t' _ _ B B' E).
  - vm_compute. reflexivity.
  - vm_compute. reflexivity.
  - intros u u' [s [S P]] [s' [S' P']] Q U U'. apply (ONE s s' u u' S S' P P').
    destruct u; try discriminate U; destruct u'; try discriminate U'; cbn in Q |- *;
      unfold id_ in Q; injection Q as Q; rewrite Q; reflexivity.
  - intros u P. exists t. auto.
  - intros u P. exists t'. auto.
Qed.

Lemma kotlin_distinct types t t' : one_type_per_name types -> In t types -> In t' types ->
  builtin_keys t -> builtin_keys t' -> kotlin_name t = kotlin_name t' -> unboxed t = unboxed t'.
Proof.
  intros ONE I I' B B' E. rewrite !kotlin_gname in E.
  refine (same_name_same_type kotlin_tok id_ _ _ (fun u => exists s, In s types /\ part s u)
            _ _ _ _ _ (unboxed_keys _ B) (unboxed_keys _ B') E).
  - vm_compute. reflexivity.
  - vm_compute. reflexivity.
  - intros u u' [s [S P]] [s' [S' P']] Q U U'. apply (ONE s s' u u' S S' P P').
    destruct u; try discriminate U; destruct u'; try discriminate U'; cbn in Q |- *;
      unfold id_ in Q; injection Q as Q; rewrite Q; reflexivity.
  - intros u P. exists t. split; [exact I | apply unboxed_part; exact P].
  - intros u P. exists t'. split; [exact I' | apply unboxed_part; exact P].
Qed.

Lemma swift_distinct cn types t t' :
  (forall n n', cn n = cn n' -> n = n') ->
  one_type_per_name types -> In t types -> In t' types ->
  builtin_keys t -> builtin_keys t' -> swift_name cn t = swift_name cn t' -> unboxed t = unboxed t'.
Proof.
  intros INJ ONE I I' B B' E. rewrite !swift_gname in E.
  refine (same_name_same_type swift_tok cn _ _ (fun u => exists s, In s types /\ part s u)
            _ _ _ _ _ (unboxed_keys _ B) (unboxed_keys _ B') E).
  - vm_compute. reflexivity.
  - vm_compute. reflexivity.
  - intros u u' [s [S P]] [s' [S' P']] Q U U'. apply (ONE s s' u u' S S' P P').
    destruct u; try discriminate U; destruct u'; try discriminate U'; cbn in Q |- *;
      try discriminate Q; injection Q as Q; try (rewrite Q; reflexivity).
    rewrite (INJ _ _ Q). reflexivity.
  - intros u P. exists t. split; [exact I | apply unboxed_part; exact P].
  - intros u P. exists t'. split; [exact I' | apply unboxed_part; exact P].
Qed.
