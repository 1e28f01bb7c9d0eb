(** Proofs: functions, methods, fields and variants of UDL files. *)
From Verif Require Import Base Meta_Types Lit_Spec Udl_Types Udl_Spec Udl_Claims Udl_Model Udl_Attrs Udl_Names.
Open Scope string_scope.
Open Scope list_scope.

Lemma forall2_iff {A B} (R Q : A -> B -> Prop) : (forall a b, R a b <-> Q a b) -> forall l r, Forall2 R l r <-> Forall2 Q l r.
Proof. intros H l r. split; induction 1; constructor; try apply H; assumption. Qed.
Lemma none_iff {A} (o : option A) : (match o with Some _ => true | None => false end) = false <-> o = None.
Proof. destruct o; split; congruence. Qed.

Section Conv.
  Variables (c : str) (lit : udl -> ty -> option literal) (docstring : str -> str) (file : list def) (m : tmap).
  Hypothesis RI : forall t T, resolve m t = UOk T <-> type_is c file t T.
  Hypothesis FI : forall x T, find_str x m = Some T <-> declares c file x T.

  Lemma default_iff d T D : conv_default lit d T = UOk D <-> default_is lit T d D.
  Proof.
    destruct d as [u|]; cbn [conv_default]; split.
    - intros H. apply ubind_ok in H as (v & E & H). apply of_opt_ok in E. injection H as <-. constructor. exact E.
    - intros H. inversion H; subst. match goal with E : lit _ _ = _ |- _ => rewrite E end. reflexivity.
    - intros H. injection H as <-. constructor.
    - intros H. inversion H. reflexivity.
  Qed.
  Lemma vfield_iff a f : conv_vfield m a = UOk f <-> vfield_is c file a f.
  Proof.
    destruct a as [at_ o t x d|]; cbn [conv_vfield]; split.
    - intros H. apply ubind_ok in H as (T & E & H). apply ubind_ok in H as (u & D & H). apply ubind_ok in H as (u' & A & H).
      injection H as <-. apply bail_if_ok in D, A. apply none_iff in D, A. subst. constructor. apply RI. exact E.
    - intros H. inversion H; subst. match goal with E : type_is _ _ _ _ |- _ => apply RI in E; rewrite E end. reflexivity.
    - discriminate.
    - intros H. inversion H.
  Qed.
  Lemma arg_iff a p : conv_arg lit m a = UOk p <-> arg_is c lit file a p.
  Proof.
    destruct a as [at_ o t x d|]; cbn [conv_arg]; [|split; [discriminate | intros H; inversion H]]. unfold arg_attrs. split.
    - intros H. apply ubind_ok in H as (T & E & H). apply ubind_ok in H as (D & ED & H). apply ubind_ok in H as (l & A & H). injection H as <-.
      apply ubind_ok in A as (l' & P & A). apply ubind_ok in A as (u & B & A). injection A as ->. apply bail_if_ok in B.
      destruct (parse_only _ _ _ _ arg_agrees P) as (OA & M). constructor; [exact OA | apply RI; exact E | apply default_iff; exact ED |].
      pose proof (has_by_ref _ _ M) as R1. pose proof (has_by_mut_ref _ _ M) as R2. unfold pass_by_of.
      destruct (has is_by_mut_ref l) eqn:E2, (has is_by_ref l) eqn:E1; try discriminate B.
      + constructor; [exact (bool_no _ _ R1 eq_refl) | apply R2; reflexivity].
      + constructor; [apply R1; reflexivity | exact (bool_no _ _ R2 eq_refl)].
      + constructor; [exact (bool_no _ _ R1 eq_refl) | exact (bool_no _ _ R2 eq_refl)].
    - intros H. inversion H as [? ? ? ? ? T D P OA TI DI PI]; subst. apply RI in TI. rewrite TI. cbn [ubind].
      apply default_iff in DI. rewrite DI. cbn [ubind].
      destruct (only_parse _ _ _ arg_agrees OA) as (r & E & M). rewrite E. cbn [ubind].
      pose proof (has_by_ref _ _ M) as R1. pose proof (has_by_mut_ref _ _ M) as R2. unfold pass_by_of.
      destruct PI as [N1 N2 | Y1 N2 | N1 Y2]; unfold flag in *.
      + rewrite (no_bool _ _ R1 N1), (no_bool _ _ R2 N2). cbn [andb bail_if ubind]. rewrite (no_bool _ _ R1 N1), (no_bool _ _ R2 N2). reflexivity.
      + rewrite (proj2 R1 Y1), (no_bool _ _ R2 N2). cbn [andb bail_if ubind]. rewrite (proj2 R1 Y1), (no_bool _ _ R2 N2). reflexivity.
      + rewrite (no_bool _ _ R1 N1), (proj2 R2 Y2). cbn [andb bail_if ubind]. rewrite (proj2 R2 Y2). reflexivity.
  Qed.
  Lemma args_iff l r : map_u (conv_arg lit m) l = UOk r <-> Forall2 (arg_is c lit file) l r.
  Proof. rewrite map_u_ok. apply forall2_iff. exact arg_iff. Qed.
  Lemma ret_iff r o : resolve_ret m r = UOk o <-> ret_is c file r o.
  Proof.
    destruct r as [|t]; cbn [resolve_ret].
    - split; [intros H; injection H as <-; constructor | intros H; inversion H; reflexivity].
    - assert (V : (match ident_of t with Some x => word_is "void" x | None => false end) = true <-> named t (S_ "void")).
      { rewrite <- ident_named. destruct (ident_of t) as [x|]; [rewrite word_is_iff|]; split; congruence. }
      destruct (match ident_of t with Some x => word_is "void" x | None => false end).
      + split.
        * intros H. injection H as <-. apply ri_void. apply V. reflexivity.
        * intros H. inversion H; subst; [reflexivity|]. exfalso. apply H1. apply V. reflexivity.
      + split.
        * intros H. apply ubind_ok in H as (T & E & H). injection H as <-. apply ri_type; [exact (bool_no _ _ V eq_refl) | apply RI; exact E].
        * intros H. inversion H; subst; [exfalso; exact (bool_no _ _ V eq_refl H1)|].
          match goal with E : type_is _ _ _ _ |- _ => apply RI in E; rewrite E end. reflexivity.
  Qed.
  Lemma throws_sound a l t : Forall2 parses (attrs_of a) l -> conv_throws m l = UOk t -> throws_is c file a t.
  Proof.
    intros M. unfold conv_throws. destruct (get_throws l) as [e|] eqn:E; intros H.
    - apply ubind_ok in H as (T & F & H). injection H as <-. apply of_opt_ok in F. apply FI in F.
      exact (th_error _ _ _ _ _ (throws_some _ _ M _ E) F).
    - injection H as <-. constructor. intros e. exact (throws_none _ _ M _ E).
  Qed.
  Lemma throws_complete a l t : once a -> Forall2 parses (attrs_of a) l -> throws_is c file a t -> conv_throws m l = UOk t.
  Proof.
    intros O1 M H. unfold conv_throws. destruct H as [N | e T I D].
    - destruct (get_throws l) as [e|] eqn:E; [|reflexivity]. exfalso. exact (N e (throws_some _ _ M _ E)).
    - rewrite (throws_once _ _ M _ O1 I). apply FI in D. rewrite D. reflexivity.
  Qed.
  Lemma reject_iff b ins u : reject_async_by_mut_ref b ins = UOk u <-> (b = true -> forall p, In p ins -> p_pass (fst p) <> ByMutRef).
  Proof.
    unfold reject_async_by_mut_ref. rewrite bail_if_ok. destruct b; cbn [andb]; [|split; [discriminate | reflexivity]]. split.
    - intros H _ p I E. assert (X : existsb (fun p => match p_pass (fst p) with ByMutRef => true | _ => false end) ins = true)
        by (apply existsb_exists; exists p; split; [exact I | rewrite E; reflexivity]). congruence.
    - intros H. destruct (existsb _ ins) eqn:E; [|reflexivity]. apply existsb_exists in E as (p & I & E). exfalso.
      apply (H eq_refl p I). destruct (p_pass (fst p)); congruence.
  Qed.
  Lemma async_iff a l : Forall2 parses (attrs_of a) l -> says_if (has is_async l) (flag a "Async").
  Proof. exact (has_async _ _). Qed.
  Lemma says_eq b b' P : says_if b P -> says_if b' P -> b = b'.
  Proof. unfold says_if. intros H K. destruct b, b'; try reflexivity; [symmetry; apply K, H | apply H, K]; reflexivity. Qed.

  Lemma fn_sound o f : conv_fn lit docstring m o = UOk f -> fn_is c lit docstring file o f.
  Proof.
    unfold conv_fn. intros H. apply ubind_ok in H as (r & R & H). apply ubind_ok in H as (x & X & H). apply ubind_ok in H as (l & A & H).
    apply ubind_ok in H as (t & T & H). apply ubind_ok in H as (ins & I & H). apply ubind_ok in H as (u & J & H). injection H as <-.
    destruct (parse_only _ _ _ _ fn_agrees A) as (OA & M). apply of_opt_ok in X. split; [exact X|]. split; [exact OA|].
    refine (conj _ (conj _ (conj _ (conj _ (conj _ _))))); cbn [u_async u_throws u_ret u_inputs u_doc].
    - exact (async_iff _ _ M).
    - exact (throws_sound _ _ _ M T).
    - apply ret_iff; exact R.
    - apply args_iff; exact I.
    - reflexivity.
    - apply (reject_iff _ _ u); exact J.
  Qed.
  Lemma fn_complete o f : once (op_attrs o) -> fn_is c lit docstring file o f -> conv_fn lit docstring m o = UOk f.
  Proof.
    intros O1 (X & OA & A & T & R & I & D & J). unfold conv_fn. apply ret_iff in R. rewrite R. cbn [ubind]. rewrite X. cbn [of_opt ubind].
    destruct (only_parse _ _ _ fn_agrees OA) as (l & E & M). unfold fn_attrs. rewrite E. cbn [ubind].
    rewrite (throws_complete _ _ _ O1 M T). cbn [ubind]. apply args_iff in I. rewrite I. cbn [ubind].
    rewrite (says_eq _ _ _ (async_iff _ _ M) A). apply (reject_iff _ _ tt) in J. rewrite J. cbn [ubind].
    destruct f; cbn in *. subst. reflexivity.
  Qed.
  Lemma cons_sound a args doc f : conv_cons lit docstring m a args doc = UOk f -> cons_is c lit docstring file a args doc f.
  Proof.
    unfold conv_cons. intros H. apply ubind_ok in H as (l & A & H).
    apply ubind_ok in H as (t & T & H). apply ubind_ok in H as (ins & I & H). apply ubind_ok in H as (u & J & H). injection H as <-.
    destruct (parse_only _ _ _ _ cons_agrees A) as (OA & M). split; [exact OA|]. cbn [u_name]. split.
    - destruct (get_name l) as [x|] eqn:E; [left; exact (name_some _ _ M _ E) | right; split; [|reflexivity]].
      intros x. exact (name_none _ _ M x E).
    - refine (conj _ (conj _ (conj _ (conj _ (conj _ _))))); cbn [u_async u_throws u_ret u_inputs u_doc].
      + exact (async_iff _ _ M).
      + apply (throws_sound _ l _ M). unfold conv_throws. destruct (get_throws l) as [e|]; [|exact T].
        destruct (find_str e m); [exact T | discriminate].
      + constructor.
      + apply args_iff; exact I.
      + reflexivity.
      + apply (reject_iff _ _ u); exact J.
  Qed.
  Lemma cons_complete a args doc f : once a -> cons_is c lit docstring file a args doc f -> conv_cons lit docstring m a args doc = UOk f.
  Proof.
    intros O1 (OA & N & A & T & R & I & D & J). unfold conv_cons.
    destruct (only_parse _ _ _ cons_agrees OA) as (l & E & M). unfold cons_attrs. rewrite E. cbn [ubind].
    pose proof (throws_complete _ _ _ O1 M T) as T'. unfold conv_throws in T'.
    assert (X : match get_throws l with None => UOk None
              | Some e => match find_str e m with Some T => UOk (Some T) | None => UPanic end end = UOk (u_throws f)).
    { destruct (get_throws l) as [e|]; [|exact T']. destruct (find_str e m); [exact T' | discriminate]. }
    rewrite X. cbn [ubind]. apply args_iff in I. rewrite I. cbn [ubind].
    rewrite (says_eq _ _ _ (async_iff _ _ M) A). apply (reject_iff _ _ tt) in J. rewrite J. cbn [ubind].
    assert (Y : match get_name l with Some x => x | None => S_ "new" end = u_name f).
    { destruct N as [N | (N & ->)].
      - rewrite (name_once _ _ M _ O1 N). reflexivity.
      - destruct (get_name l) as [x|] eqn:G; [|reflexivity]. exfalso. exact (N x (name_some _ _ M _ G)). }
    rewrite Y. inversion R as [E1 E2| |]. destruct f; cbn in *. subst. reflexivity.
  Qed.
  Lemma new_iff x : word_is "new" x = false <-> x <> S_ "new".
  Proof. rewrite <- not_true_iff_false, word_is_iff. reflexivity. Qed.
  Lemma method_sound o f arc : conv_method lit docstring m o = UOk (f, arc) -> method_is c lit docstring file o f arc.
  Proof.
    unfold conv_method. intros H. apply ubind_ok in H as (u & S1 & H). apply ubind_ok in H as (u' & MO & H).
    apply ubind_ok in H as (r & R & H). apply ubind_ok in H as (l & A & H).
    apply ubind_ok in H as (t & T & H). apply ubind_ok in H as (x & X & H). apply ubind_ok in H as (u2 & NW & H).
    apply ubind_ok in H as (ins & I & H). apply ubind_ok in H as (u3 & J & H). injection H as <- <-.
    apply bail_if_ok in S1, MO, NW. apply none_iff in MO. apply new_iff in NW. apply of_opt_ok in X.
    destruct (parse_only _ _ _ _ method_agrees A) as (OA & M).
    split; [exact S1|]. split; [exact MO|]. split; [exact X|]. split; [exact NW|]. split; [exact OA|]. split; [exact (has_by_arc _ _ M)|].
    refine (conj _ (conj _ (conj _ (conj _ (conj _ _))))); cbn [u_async u_throws u_ret u_inputs u_doc].
    - exact (async_iff _ _ M).
    - exact (throws_sound _ _ _ M T).
    - apply ret_iff; exact R.
    - apply args_iff; exact I.
    - reflexivity.
    - apply (reject_iff _ _ u3); exact J.
  Qed.
  Lemma method_complete o f arc : once (op_attrs o) -> method_is c lit docstring file o f arc -> conv_method lit docstring m o = UOk (f, arc).
  Proof.
    intros O1 (S1 & MO & X & NW & OA & AR & A & T & R & I & D & J). unfold conv_method. rewrite S1, MO. cbn [bail_if ubind].
    apply ret_iff in R. rewrite R. cbn [ubind].
    destruct (only_parse _ _ _ method_agrees OA) as (l & E & M). unfold method_attrs. rewrite E. cbn [ubind].
    rewrite (throws_complete _ _ _ O1 M T). cbn [ubind]. rewrite X. cbn [of_opt ubind]. apply new_iff in NW. rewrite NW. cbn [bail_if ubind].
    apply args_iff in I. rewrite I. cbn [ubind].
    rewrite (says_eq _ _ _ (async_iff _ _ M) A). apply (reject_iff _ _ tt) in J. rewrite J. cbn [ubind].
    rewrite (says_eq _ _ _ (has_by_arc _ _ M) AR).
    destruct f; cbn in *. subst. reflexivity.
  Qed.

  Lemma variant_name_iff r x :
    match r with RType WError => UOk (S_ "Error") | RType t => of_opt (ident_of t) | RUndefined => UErr end = UOk x <-> variant_name r x.
  Proof.
    destruct r as [|t]; [split; [discriminate | intros H; inversion H]|].
    assert (G : t <> WError -> (of_opt (ident_of t) = UOk x <-> variant_name (RType t) x)).
    { intros N. rewrite of_opt_ok, ident_named. split; [apply vn_name|]. intros H. inversion H; subst; [assumption | contradiction]. }
    destruct t; try (apply G; discriminate). split.
    - intros H. injection H as <-. apply vn_error.
    - intros H. inversion H as [? ? [N | N]|]; subst; try discriminate N. reflexivity.
  Qed.
  Lemma variant_complete b v : member_variant c docstring file b v -> conv_variant docstring m b = UOk v.
  Proof.
    intros H. destruct H as [o v (A & MO & S1 & N & R & V1 & V2 & F & D)]. cbn [conv_variant]. rewrite S1, MO, N. cbn [bail_if ubind].
    apply variant_name_iff in R. rewrite R. cbn [ubind]. apply (forall2_iff _ _ vfield_iff) in F. apply map_u_ok in F. rewrite F. cbn [ubind].
    destruct v; cbn in *. subst. reflexivity.
  Qed.
  Lemma variant_sound b v : (forall o, b = MemOp o -> op_attrs o = None /\ op_modifier o <> Some Static) ->
    conv_variant docstring m b = UOk v -> member_variant c docstring file b v.
  Proof.
    intros P. destruct b as [|o|]; try discriminate. cbn [conv_variant]. intros H. destruct (P o eq_refl) as (PA & PM).
    apply ubind_ok in H as (u & S1 & H). apply ubind_ok in H as (u1 & MO & H). apply ubind_ok in H as (u2 & N & H).
    apply ubind_ok in H as (x & R & H). apply ubind_ok in H as (fs & F & H). injection H as <-.
    apply bail_if_ok in S1, MO, N. apply none_iff in N. constructor. unfold variant_is. cbn [v_name v_orig v_discr v_fields v_doc].
    repeat apply conj; try reflexivity; try assumption.
    - destruct (op_modifier o) as [[]|]; [discriminate | contradiction PM; reflexivity | reflexivity].
    - apply variant_name_iff. exact R.
    - apply (forall2_iff _ _ vfield_iff). apply map_u_ok. exact F.
  Qed.
  Lemma field_iff f g : conv_field lit docstring m f = UOk g <-> field_is c lit docstring file f g.
  Proof.
    destruct f as [a t x d doc]. unfold conv_field. cbn [wf_attrs wf_ty wf_name wf_default wf_doc]. split.
    - intros H. apply ubind_ok in H as (u & A & H). apply ubind_ok in H as (T & E & H). apply ubind_ok in H as (D & ED & H). injection H as <-.
      apply bail_if_ok in A. apply none_iff in A. subst a. constructor; [apply RI; exact E | apply default_iff; exact ED].
    - intros H. inversion H; subst. cbn [bail_if ubind].
      match goal with E : type_is _ _ _ _ |- _ => apply RI in E; rewrite E end. cbn [ubind].
      match goal with E : default_is _ _ _ _ |- _ => apply default_iff in E; rewrite E end. reflexivity.
  Qed.
  Lemma fields_iff l r : map_u (conv_field lit docstring m) l = UOk r <-> Forall2 (field_is c lit docstring file) l r.
  Proof. rewrite map_u_ok. apply forall2_iff. exact field_iff. Qed.
  Lemma make_trait_iff t k fs : make_trait t k = UOk fs <-> exists w, k = S_ w /\ In (w, fs) (traits t).
  Proof.
    unfold make_trait. rewrite of_opt_ok. split.
    - intros H. apply find_str_in in H. cbn [In] in H. in_cases H; injection H as <- <-; (eexists; split; [reflexivity|]);
        unfold traits; cbn [In]; auto 8.
    - intros (w & -> & H). unfold traits in H. cbn [In] in H. in_cases H; injection H as <- <-; reflexivity.
  Qed.
  Lemma make_traits_sound a l self t ts M0 : Forall2 parses (attrs_of a) l -> make_traits self t (get_traits l) = UOk ts -> In M0 ts ->
    exists k fs, M0 = ITraitOf self k fs /\ trait_is a t k fs.
  Proof.
    intros M H I. unfold make_traits in H. apply map_u_ok in H. destruct (forall2_in_r _ _ _ _ H I) as (k & J & E).
    apply ubind_ok in E as (fs & E & X). injection X as <-. apply make_trait_iff in E as (w & -> & E).
    destruct (traits_in _ _ M _ J) as (tl & L & K). exists (S_ w), fs. split; [reflexivity|]. exists tl, w. auto.
  Qed.
  Lemma make_traits_in a l self t ts k fs : once a -> Forall2 parses (attrs_of a) l -> make_traits self t (get_traits l) = UOk ts ->
    trait_is a t k fs -> In (ITraitOf self k fs) ts.
  Proof.
    intros O1 M H (tl & w & L & K & -> & E). rewrite (traits_once _ _ M _ O1 L) in H. unfold make_traits in H. apply map_u_ok in H.
    destruct (forall2_in_l _ _ _ _ H K) as (i & J & X). apply ubind_ok in X as (fs' & X & Y). injection Y as <-.
    assert (Z : make_trait t (S_ w) = UOk fs) by (apply make_trait_iff; eauto). rewrite Z in X. injection X as <-. exact J.
  Qed.
  Lemma make_traits_covered a l self t ts : once a -> Forall2 parses (attrs_of a) l -> make_traits self t (get_traits l) = UOk ts ->
    traits_covered ts a self.
  Proof.
    intros O1 M H tl k L K. rewrite (traits_once _ _ M _ O1 L) in H. unfold make_traits in H. apply map_u_ok in H.
    destruct (forall2_in_l _ _ _ _ H K) as (i & J & X). apply ubind_ok in X as (fs' & X & Y). injection Y as <-. exists fs'. exact J.
  Qed.
  Lemma make_traits_ok a l self t : once a -> known_traits a -> Forall2 parses (attrs_of a) l ->
    exists ts, make_traits self t (get_traits l) = UOk ts.
  Proof.
    intros O1 KT M. unfold make_traits.
    destruct (forall2_exists (fun k i => (let? fs := make_trait t k in UOk (ITraitOf self k fs)) = UOk i) (get_traits l)) as (r & F).
    - intros k I. destruct (traits_in _ _ M _ I) as (tl & L & K). destruct (KT tl k L K) as (w & -> & W).
      assert (X : exists fs, In (w, fs) (traits t)).
      { unfold traits. cbn [In] in W. in_cases W; subst w; eexists; cbn [In]; eauto 8. }
      destruct X as (fs & X). exists (ITraitOf self (S_ w) fs).
      assert (Z : make_trait t (S_ w) = UOk fs) by (apply make_trait_iff; eauto). rewrite Z. reflexivity.
    - exists r. apply map_u_ok. exact F.
  Qed.
End Conv.
