(** Proofs: what UDL files say and the metadata that is made of them. *)
From Verif Require Import Base Meta_Types Lit_Spec Udl_Types Udl_Spec Udl_Claims Udl_Model Udl_Attrs Udl_Names Udl_Conv.
From Coq Require Import Permutation.
Open Scope string_scope.
Open Scope list_scope.

Lemma in_concat_map {A B} (f : A -> ures (list B)) l ls b : map_u f l = UOk ls ->
  (In b (concat ls) <-> exists a li, In a l /\ f a = UOk li /\ In b li).
Proof.
  intros H. apply map_u_ok in H. rewrite in_concat. split.
  - intros (li & I & J). destruct (forall2_in_r _ _ _ _ H I) as (a & K & E). exists a, li. auto.
  - intros (a & li & I & E & J). destruct (forall2_in_l _ _ _ _ H I) as (li' & K & E'). rewrite E in E'. injection E' as <-.
    exists li. auto.
Qed.
Lemma any_enum_attr a : only any_iface_attr a -> only enum_attr a -> only iface_enum_attr a.
Proof.
  intros (D & F) (_ & G). split; [exact D|]. rewrite Forall_forall in *. intros w I.
  destruct (F w I) as [(x & X & ->) | T]; [|right; exact T]. destruct (G _ I) as [(y & Y & E) | (l & E)]; [|discriminate].
  left. exists x. split; [|reflexivity]. cbn [In] in X, Y |- *.
  in_cases X; subst x; auto; in_cases Y; subst y; discriminate E.
Qed.
Lemma iface_enum_any a : only iface_enum_attr a -> only any_iface_attr a /\ only enum_attr a.
Proof.
  intros (D & F). split; (split; [exact D|]); rewrite Forall_forall in *; intros w I;
    (destruct (F w I) as [(x & X & ->) | T]; [left; exists x; split; [cbn [In] in X |- *; in_cases X; subst x; auto 8 | reflexivity] | right; exact T]).
Qed.
Lemma object_attrs a : only any_iface_attr a -> ~ flag a "Enum" -> ~ flag a "Error" -> only iface_attr a.
Proof.
  intros (D & F) N1 N2. split; [exact D|]. rewrite Forall_forall in *. intros w I.
  destruct (F w I) as [(x & X & ->) | T]; [|right; exact T]. left. exists x. split; [|reflexivity].
  cbn [In] in X |- *. in_cases X; subst x; first [solve [cbn; auto] | exfalso; exact (N1 I) | exfalso; exact (N2 I)].
Qed.
Lemma iface_not_enum a : only iface_attr a -> only any_iface_attr a /\ ~ flag a "Enum" /\ ~ flag a "Error".
Proof.
  intros (D & F). rewrite Forall_forall in F. split; [|split].
  - split; [exact D|]. rewrite Forall_forall. intros w I.
    destruct (F w I) as [(x & X & ->) | T]; [left; exists x; split; [cbn [In] in X |- *; in_cases X; subst x; auto 8 | reflexivity] | right; exact T].
  - intros I. destruct (F _ I) as [(x & X & E) | (l & E)]; [|discriminate]. cbn [In] in X. in_cases X; subst x; discriminate E.
  - intros I. destruct (F _ I) as [(x & X & E) | (l & E)]; [|discriminate]. cbn [In] in X. in_cases X; subst x; discriminate E.
Qed.
Lemma not_exhaustive_iface a : only iface_enum_attr a -> ~ flag a "NonExhaustive".
Proof.
  intros (D & F) I. rewrite Forall_forall in F. destruct (F _ I) as [(x & X & E) | (l & E)]; [|discriminate].
  cbn [In] in X. in_cases X; subst x; discriminate E.
Qed.
Lemma enum_iface_accepts a : only iface_enum_attr a -> (flag a "Enum" \/ flag a "Error") -> ~ (flag a "Enum" /\ flag a "Error") ->
  exists l, iface_attrs a = UOk l /\ Forall2 parses (attrs_of a) l.
Proof.
  intros OA EN NB. destruct (iface_enum_any _ OA) as (O1 & O2). destruct (only_parse _ _ _ iface_agrees O1) as (l & E & M).
  exists l. split; [|exact M]. unfold iface_attrs. rewrite E. cbn [ubind].
  assert (C1 : (has is_enum l && negb (Nat.eqb (length l) 1 || has (fun a => is_traits a || is_remote a) l))%bool = false).
  { destruct (has is_enum l) eqn:HE; [|reflexivity]. cbn [andb]. apply negb_false_iff, orb_true_iff.
    apply (has_enum _ _ M) in HE. destruct O1 as (D & _). destruct OA as (_ & FA). clear -M HE NB D FA.
    destruct (has (fun a => is_traits a || is_remote a) l)%bool eqn:HT; [right; reflexivity|left]. apply Nat.eqb_eq.
    assert (ALL : forall w, In w (attrs_of a) -> w = ANoArgs (S_ "Enum")).
    { intros w I. rewrite Forall_forall in FA. destruct (forall2_in_l _ _ _ _ M I) as (b & J & P).
      assert (NT : (is_traits b || is_remote b)%bool = false).
      { destruct (is_traits b || is_remote b)%bool eqn:X; [|reflexivity].
        assert (Y : has (fun a => is_traits a || is_remote a)%bool l = true) by (apply existsb_exists; exists b; auto). congruence. }
      apply orb_false_iff in NT as (N1 & N2). apply parses_iff in P.
      destruct (FA w I) as [(y & Y & ->) | (tl & ->)].
      - cbn [In] in Y. in_cases Y; subst y.
        + reflexivity.
        + exfalso. apply NB. split; [exact HE | exact I].
        + exfalso. destruct b as [| | | | ? | | ? | ? | ? | | [?|] | | | |]; try discriminate N2; cbn [written] in P;
            repeat match goal with H : exists _, _ |- _ => destruct H as (? & H) end; discriminate P.
      - exfalso. destruct b as [| | | | ? | | ? | ? | ? | | [?|] | | | |]; try discriminate N1; cbn [written] in P;
          repeat match goal with H : exists _, _ |- _ => destruct H as (? & H) end; discriminate P. }
    assert (L1 : length (attrs_of a) = 1).
    { destruct (attrs_of a) as [|w [|w' r]]; [destruct HE | reflexivity|]. exfalso.
      inversion D as [|? ? NI _]; subst. apply NI. left. rewrite (ALL w), (ALL w'); [reflexivity | right; left; reflexivity | left; reflexivity]. }
    rewrite <- L1. symmetry. clear -M. induction M; cbn; congruence. }
  rewrite C1. cbn [bail_if ubind].
  assert (C2 : (has is_remote l && has is_foreign l)%bool = false).
  { apply andb_false_iff. right. apply (no_bool _ _ (has_foreign _ _ M)). intros K. destruct OA as (_ & FA). rewrite Forall_forall in FA.
    destruct (FA _ K) as [(y & Y & X) | (tl & X)]; [|discriminate X]. cbn [In] in Y. in_cases Y; subst y; discriminate X. }
  rewrite C2. reflexivity.
Qed.
Lemma object_iface_accepts a : only iface_attr a -> ~ (flag a "Remote" /\ flag a "WithForeign") ->
  exists l, iface_attrs a = UOk l /\ Forall2 parses (attrs_of a) l.
Proof.
  intros OA NR. destruct (iface_not_enum _ OA) as (O1 & N1 & N2). destruct (only_parse _ _ _ iface_agrees O1) as (l & E & M).
  exists l. split; [|exact M]. unfold iface_attrs. rewrite E. cbn [ubind].
  assert (C1 : has is_enum l = false) by exact (no_bool _ _ (has_enum _ _ M) N1). rewrite C1. cbn [andb bail_if ubind].
  destruct (has is_remote l) eqn:C2, (has is_foreign l) eqn:C3; try reflexivity. exfalso. apply NR.
  split; [apply (has_remote _ _ M); exact C2 | apply (has_foreign _ _ M); exact C3].
Qed.
Lemma nth_in {A} (l : list A) i a : nth_error l i = Some a -> In a l. Proof. apply nth_error_In. Qed.

Section Items.
  Variables (c : str) (lit : udl -> ty -> option literal) (docstring : str -> str) (file : list def) (m : tmap) (ns : str).
  Hypothesis RI : forall t T, resolve m t = UOk T <-> type_is c file t T.
  Hypothesis FI : forall x T, find_str x m = Some T <-> declares c file x T.
  Notation says' := (says c lit docstring file).
  Notation process' := (process c lit docstring m ns).

  Lemma shape_sound flat a l : Forall2 parses (attrs_of a) l -> shape_is flat a (if has is_error l then ShError flat else ShEnum).
  Proof.
    intros M. pose proof (has_error _ _ M) as H. destruct (has is_error l); constructor; [apply H; reflexivity | exact (bool_no _ _ H eq_refl)].
  Qed.
  Lemma shape_fun flat a s t : shape_is flat a s -> shape_is flat a t -> s = t.
  Proof. intros [] []; try reflexivity; contradiction. Qed.

  (** *** Members *)
  Lemma members_ok x imp names ms fs : conv_members lit docstring m x imp names ms = UOk fs ->
    Forall2 (fun b i => (exists a args d f, b = MemCons a args d /\ imp = IStruct /\ conv_cons lit docstring m a args d = UOk f /\ i = ICons x f) \/
                        (exists o f arc, b = MemOp o /\ conv_method lit docstring m o = UOk (f, arc) /\ i = IMethod x f arc)) ms fs.
  Proof.
    revert names fs. induction ms as [|b ms IH]; intros names fs H; cbn [conv_members] in H.
    - injection H as <-. constructor.
    - destruct b as [a args d | o |]; [| |discriminate].
      + apply ubind_ok in H as (f & E & H). apply ubind_ok in H as (u & B & H). apply ubind_ok in H as (u' & _ & H).
        apply ubind_ok in H as (fs' & E' & H). injection H as <-. constructor; [|exact (IH _ _ E')].
        left. exists a, args, d, f. apply bail_if_ok in B. destruct imp; [auto | discriminate].
      + apply ubind_ok in H as ((f & arc) & E & H). apply ubind_ok in H as (u' & _ & H).
        apply ubind_ok in H as (fs' & E' & H). injection H as <-. constructor; [|exact (IH _ _ E')].
        right. exists o, f, arc. auto.
  Qed.
  Lemma members_accepted x imp ms names : Forall2 (member_ok c lit docstring file imp) ms names -> NoDup names ->
    (forall b, In b ms -> once (member_attrs b)) -> forall seen, (forall y, In y names -> ~ In y seen) ->
    exists fs, conv_members lit docstring m x imp seen ms = UOk fs.
  Proof.
    induction 1 as [|b y ms names H _ IH]; intros ND O1 seen NS; cbn [conv_members]; [eexists; reflexivity|].
    assert (E : existsb (bytes_eqb y) seen = false).
    { destruct (existsb (bytes_eqb y) seen) eqn:E; [|reflexivity]. apply existsb_exists in E as (z & I & E).
      destruct (bytes_eqb_spec y z); [|discriminate]. subst z. exfalso. exact (NS y (or_introl eq_refl) I). }
    inversion ND as [|? ? NI ND']; subst.
    destruct (IH ND' (fun b' I => O1 b' (or_intror I)) (y :: seen)) as (fs & F).
    { intros z I [<- | J]; [exact (NI I) | exact (NS z (or_intror I) J)]. }
    destruct H as [a args d f -> CI | o f arc MI].
    - pose proof (O1 _ (or_introl eq_refl)) as O2. cbn [member_attrs] in O2.
      rewrite (cons_complete c lit docstring file m RI FI _ _ _ _ O2 CI). cbn [ubind bail_if].
      rewrite E. cbn [ubind bail_if]. rewrite F. eexists; reflexivity.
    - pose proof (O1 _ (or_introl eq_refl)) as O2. cbn [member_attrs] in O2.
      rewrite (method_complete c lit docstring file m RI FI _ _ _ O2 MI). cbn [ubind bail_if fst].
      rewrite E. cbn [ubind bail_if]. rewrite F. eexists; reflexivity.
  Qed.
  Lemma callback_in x ms : forall k fs, conv_callback_members lit docstring m x k ms = UOk fs ->
    (forall i0, In i0 fs -> exists i o f arc, nth_error ms i = Some (MemOp o) /\ conv_method lit docstring m o = UOk (f, arc) /\ i0 = ITraitMethod x (k + i) f arc) /\
    (forall i b, nth_error ms i = Some b -> exists o f arc, b = MemOp o /\ conv_method lit docstring m o = UOk (f, arc) /\ In (ITraitMethod x (k + i) f arc) fs).
  Proof.
    induction ms as [|b ms IH]; intros k fs H; cbn [conv_callback_members] in H.
    - injection H as <-. split; [intros i0 [] | intros [|i] b E; discriminate E].
    - destruct b as [|o|]; try discriminate. apply ubind_ok in H as ((f & arc) & E & H). apply ubind_ok in H as (fs' & E' & H). injection H as <-.
      destruct (IH _ _ E') as (A & B). split.
      + intros i0 [<- | I].
        * exists 0, o, f, arc. rewrite Nat.add_0_r. auto.
        * destruct (A i0 I) as (i & o' & f' & arc' & N & C & ->). exists (S i), o', f', arc'. rewrite Nat.add_succ_r. auto.
      + intros [|i] b N; cbn [nth_error] in N.
        * injection N as <-. exists o, f, arc. rewrite Nat.add_0_r. repeat split; [exact E | left; reflexivity].
        * destruct (B i b N) as (o' & f' & arc' & -> & C & I). exists o', f', arc'. rewrite Nat.add_succ_r. repeat split; [exact C | right; exact I].
  Qed.
  Lemma callback_accepted x ms : (forall b, In b ms -> exists o f arc, b = MemOp o /\ method_is c lit docstring file o f arc) ->
    (forall b, In b ms -> once (member_attrs b)) -> forall k, exists fs, conv_callback_members lit docstring m x k ms = UOk fs.
  Proof.
    induction ms as [|b ms IH]; intros H O1 k; cbn [conv_callback_members]; [eexists; reflexivity|].
    destruct (H b (or_introl eq_refl)) as (o & f & arc & -> & MI).
    pose proof (O1 _ (or_introl eq_refl)) as O2. cbn [member_attrs] in O2.
    rewrite (method_complete c lit docstring file m RI FI _ _ _ O2 MI). cbn [ubind].
    destruct (IH (fun b' I => H b' (or_intror I)) (fun b' I => O1 b' (or_intror I)) (S k)) as (fs & ->). eexists; reflexivity.
  Qed.

  (** *** One definition: what it gives is said *)
  Lemma process_sound d li M0 : plain_variants file -> In d file -> process' d = UOk li -> In M0 li -> says' M0.
  Proof.
    intros PV I. destruct d as [a x doc ms | a x doc vs | a x i doc fs | a x i doc ms | a x i doc ms | a t x |]; cbn [process]; intros H J.
    - apply ubind_ok in H as (u & A & H). apply ubind_ok in H as (u' & _ & H). apply ubind_ok in H as (fs & F & H). injection H as <-.
      apply bail_if_ok in A. apply none_iff in A. subst a. apply in_map_iff in J as (f & <- & J). apply map_u_ok in F.
      destruct (forall2_in_r _ _ _ _ F J) as (b & K & E). destruct b as [|o|]; try discriminate. cbn [conv_ns_member] in E.
      exact (sy_func _ _ _ _ _ _ _ _ _ I K (fn_sound c lit docstring file m RI FI _ _ E)).
    - unfold conv_enum in H. apply ubind_ok in H as (l & A & H). injection H as <-. destruct J as [<- | []].
      destruct (parse_only _ _ _ _ enum_agrees A) as (OA & M).
      exact (sy_enum _ _ _ _ _ _ _ _ _ _ _ I OA (shape_sound _ _ _ M) (has_remote _ _ M) (has_non_exhaustive _ _ M)).
    - unfold conv_dict in H. apply ubind_ok in H as (l & A & H). apply ubind_ok in H as (u & B & H). apply ubind_ok in H as (ts & T & H).
      apply ubind_ok in H as (gs & G & H). injection H as <-. apply bail_if_ok in B. subst i.
      destruct (parse_only _ _ _ _ dict_agrees A) as (OA & M). apply in_app_or in J as [J | [<- | []]].
      + destruct (make_traits_sound _ _ _ _ _ _ M T J) as (k & gs' & -> & X). exact (sy_record_trait _ _ _ _ _ _ _ _ _ _ I OA X).
      + apply (sy_record _ _ _ _ _ _ _ _ _ _ I OA (has_remote _ _ M)). apply (fields_iff c lit docstring file m RI). exact G.
    - apply ubind_ok in H as (l & A & H). destruct (iface_ok _ _ A) as (OA & M & _). pose proof (is_enum_iff _ _ M) as B.
      destruct (has is_enum l || has is_error l)%bool.
      + unfold conv_enum_iface in H. apply ubind_ok in H as (u & Q & H). apply ubind_ok in H as (l' & A' & H). apply ubind_ok in H as (ts & T & H).
        apply ubind_ok in H as (vs & V & H). injection H as <-. apply bail_if_ok in Q. subst i.
        destruct (parse_only _ _ _ _ enum_agrees A') as (OA' & M'). pose proof (any_enum_attr _ OA OA') as OE.
        apply in_app_or in J as [J | [<- | []]].
        * destruct (make_traits_sound _ _ _ _ _ _ M' T J) as (k & gs' & -> & X).
          exact (sy_enum_iface_trait _ _ _ _ _ _ _ _ _ _ I OE (proj1 B eq_refl) X).
        * pose proof (not_exhaustive_iface _ OE) as NE. rewrite (no_bool _ _ (has_non_exhaustive _ _ M') NE).
          apply (sy_enum_iface _ _ _ _ _ _ _ _ _ _ _ I OE (proj1 B eq_refl) (shape_sound _ _ _ M') (has_remote _ _ M')).
          apply map_u_ok in V. assert (PV' : forall b, In b ms -> forall o, b = MemOp o -> op_attrs o = None /\ op_modifier o <> Some Static).
          { intros b Ib o ->. exact (PV _ _ _ _ _ _ I (proj1 B eq_refl) Ib). }
          clear -V PV' RI. induction V as [|b v ms vs E _ IH]; constructor.
          -- exact (variant_sound c docstring file m RI b v (PV' b (or_introl eq_refl)) E).
          -- apply IH. intros b' I. exact (PV' b' (or_intror I)).
      + unfold conv_object in H. apply ubind_ok in H as (u & Q & H). apply ubind_ok in H as (l' & A' & H). rewrite A in A'. injection A' as <-.
        apply ubind_ok in H as (imp & IM & H). apply ubind_ok in H as (fs & F & H). apply ubind_ok in H as (ts & T & H). injection H as <-.
        apply bail_if_ok in Q. subst i. apply (imp_iff _ _ _ M) in IM.
        assert (OI : only iface_attr a) by (apply object_attrs; [exact OA | |]; intros K; apply (bool_no _ _ B eq_refl); auto).
        apply in_app_or in J as [J | J]; [|apply in_app_or in J as [J | [<- | []]]].
        * destruct (forall2_in_r _ _ _ _ (members_ok _ _ _ _ _ F) J) as (b & K & [(a' & args & d & f & -> & _ & E & ->) | (o & f & arc & -> & E & ->)]).
          -- exact (sy_cons _ _ _ _ _ _ _ _ _ _ _ _ I OI K (cons_sound c lit docstring file m RI FI _ _ _ _ E)).
          -- exact (sy_method _ _ _ _ _ _ _ _ _ _ _ I OI K (method_sound c lit docstring file m RI FI _ _ _ E)).
        * destruct (make_traits_sound _ _ _ _ _ _ M T J) as (k & gs' & -> & X). exact (sy_object_trait _ _ _ _ _ _ _ _ _ _ _ I OI IM X).
        * exact (sy_object _ _ _ _ _ _ _ _ _ _ I OI IM (has_remote _ _ M)).
    - unfold conv_callback in H. apply ubind_ok in H as (u & A & H). apply ubind_ok in H as (u' & Q & H). apply ubind_ok in H as (fs & F & H).
      injection H as <-. apply bail_if_ok in A, Q. apply none_iff in A. subst. apply in_app_or in J as [J | [<- | []]].
      + destruct (proj1 (callback_in _ _ _ _ F) _ J) as (i & o & f & arc & N & E & ->). cbn [Nat.add].
        exact (sy_callback_method _ _ _ _ _ _ _ _ _ _ _ I N (method_sound c lit docstring file m RI FI _ _ _ E)).
      + exact (sy_callback _ _ _ _ _ _ _ I).
    - injection H as <-. destruct J.
    - discriminate.
  Qed.

  (** *** What is said is given *)
  Lemma once_in d a : attrs_once file -> In d file -> In a (attr_lists d) -> once a.
  Proof. intros H. exact (H d a). Qed.
  Lemma member_once ms b : In b ms -> In (member_attrs b) (map member_attrs ms). Proof. apply in_map. Qed.
  Lemma process_complete M0 : attrs_once file -> no_enum_traits file -> (forall d, In d file -> exists li, process' d = UOk li) -> says' M0 ->
    (exists d li, In d file /\ process' d = UOk li /\ In M0 li) \/ exists mp x b, M0 = ICustom mp x b /\ declares c file x (TCustom mp x b).
  Proof.
    intros AO NT P S1.
    assert (G : forall d, In d file -> (forall li, process' d = UOk li -> In M0 li) ->
      (exists d li, In d file /\ process' d = UOk li /\ In M0 li) \/ exists mp x b, M0 = ICustom mp x b /\ declares c file x (TCustom mp x b)).
    { intros d I H. left. destruct (P d I) as (li & E). exists d, li. auto. }
    destruct S1 as [x doc ms o f I K F | a x doc fs r gs I OA R F | a x doc vs sh r ne I OA SH R NE
      | a x doc ms sh r vs I OA EN SH R F | a x doc ms imp r I OA IM R | a x doc ms b args d f I OA K C | a x doc ms o f arc I OA K C
      | x doc ms I | x doc ms i o f arc I N C | x mp b D | a x doc fs k ms I OA T | a x doc ms k fs I OA EN T
      | a x doc ms imp k fs I OA IM T | a x doc vs k ms I OA T].
    - apply (G _ I). intros li H. cbn [process] in H. apply ubind_ok in H as (u & _ & H). apply ubind_ok in H as (u' & _ & H).
      apply ubind_ok in H as (fs & E & H). injection H as <-. apply in_map. apply map_u_ok in E.
      destruct (forall2_in_l _ _ _ _ E K) as (f' & J & E'). cbn [conv_ns_member] in E'.
      rewrite (fn_complete c lit docstring file m RI FI o f) in E'; [injection E' as <-; exact J | | exact F].
      exact (once_in _ _ AO I (or_intror (member_once _ _ K))).
    - apply (G _ I). intros li H. cbn [process] in H. unfold conv_dict in H. apply ubind_ok in H as (l & A & H). apply ubind_ok in H as (u & _ & H).
      apply ubind_ok in H as (ts & _ & H). apply ubind_ok in H as (gs' & E & H). injection H as <-. apply in_or_app. right. left.
      destruct (parse_only _ _ _ _ dict_agrees A) as (_ & M). rewrite (says_eq _ _ _ (has_remote _ _ M) R).
      apply (fields_iff c lit docstring file m RI) in F. rewrite F in E. injection E as <-. reflexivity.
    - apply (G _ I). intros li H. cbn [process] in H. unfold conv_enum in H. apply ubind_ok in H as (l & A & H). injection H as <-. left.
      destruct (parse_only _ _ _ _ enum_agrees A) as (_ & M). rewrite (says_eq _ _ _ (has_remote _ _ M) R).
      rewrite (says_eq _ _ _ (has_non_exhaustive _ _ M) NE). rewrite (shape_fun _ _ _ _ (shape_sound _ _ _ M) SH). reflexivity.
    - apply (G _ I). intros li H. cbn [process] in H. apply ubind_ok in H as (l & A & H). destruct (iface_ok _ _ A) as (_ & M & _).
      rewrite (proj2 (is_enum_iff _ _ M) EN) in H. unfold conv_enum_iface in H. apply ubind_ok in H as (u & _ & H).
      apply ubind_ok in H as (l' & A' & H). apply ubind_ok in H as (ts & _ & H). apply ubind_ok in H as (vs' & E & H). injection H as <-.
      destruct (parse_only _ _ _ _ enum_agrees A') as (_ & M'). apply in_or_app. right. left.
      rewrite (says_eq _ _ _ (has_remote _ _ M') R). rewrite (shape_fun _ _ _ _ (shape_sound _ _ _ M') SH).
      rewrite (no_bool _ _ (has_non_exhaustive _ _ M') (not_exhaustive_iface _ OA)). f_equal.
      apply map_u_ok in E. clear -E F RI. revert vs' E. induction F as [|b v ms vs H _ IH]; intros vs' E; inversion E; subst; [reflexivity|].
      f_equal; [|apply IH; assumption]. rewrite (variant_complete c docstring file m RI _ _ H) in H2. congruence.
    - apply (G _ I). intros li H. cbn [process] in H. apply ubind_ok in H as (l & A & H). destruct (iface_ok _ _ A) as (_ & M & _).
      destruct (iface_not_enum _ OA) as (_ & N1 & N2). rewrite (no_bool _ _ (is_enum_iff _ _ M)) in H by tauto. unfold conv_object in H.
      apply ubind_ok in H as (u & _ & H). rewrite A in H. cbn [ubind] in H. apply (imp_iff _ _ _ M) in IM. rewrite IM in H. cbn [ubind] in H.
      apply ubind_ok in H as (fs & F & H). apply ubind_ok in H as (ts & _ & H). injection H as <-.
      apply in_or_app. right. apply in_or_app. right. left. rewrite (says_eq _ _ _ (has_remote _ _ M) R). reflexivity.
    - apply (G _ I). intros li H. cbn [process] in H. apply ubind_ok in H as (l & A & H). destruct (iface_ok _ _ A) as (_ & M & _).
      destruct (iface_not_enum _ OA) as (_ & N1 & N2). rewrite (no_bool _ _ (is_enum_iff _ _ M)) in H by tauto. unfold conv_object in H.
      apply ubind_ok in H as (u & _ & H). rewrite A in H. cbn [ubind] in H. apply ubind_ok in H as (imp & _ & H).
      apply ubind_ok in H as (fs & F & H). apply ubind_ok in H as (ts & _ & H). injection H as <-. apply in_or_app. left.
      destruct (forall2_in_l _ _ _ _ (members_ok _ _ _ _ _ F) K) as (j & J & [(a' & args' & d' & f' & X & _ & E & ->) | (o & f' & arc & X & _)]); [|discriminate X].
      injection X as <- <- <-. pose proof (once_in _ _ AO I (or_intror (member_once _ _ K))) as O2. cbn [member_attrs] in O2.
      rewrite (cons_complete c lit docstring file m RI FI _ _ _ _ O2 C) in E.
      injection E as <-. exact J.
    - apply (G _ I). intros li H. cbn [process] in H. apply ubind_ok in H as (l & A & H). destruct (iface_ok _ _ A) as (_ & M & _).
      destruct (iface_not_enum _ OA) as (_ & N1 & N2). rewrite (no_bool _ _ (is_enum_iff _ _ M)) in H by tauto. unfold conv_object in H.
      apply ubind_ok in H as (u & _ & H). rewrite A in H. cbn [ubind] in H. apply ubind_ok in H as (imp & _ & H).
      apply ubind_ok in H as (fs & F & H). apply ubind_ok in H as (ts & _ & H). injection H as <-. apply in_or_app. left.
      destruct (forall2_in_l _ _ _ _ (members_ok _ _ _ _ _ F) K) as (j & J & [(a' & args' & d' & f' & X & _) | (o' & f' & arc' & X & E & ->)]); [discriminate X|].
      injection X as <-. pose proof (once_in _ _ AO I (or_intror (member_once _ _ K))) as O2. cbn [member_attrs] in O2.
      rewrite (method_complete c lit docstring file m RI FI _ _ _ O2 C) in E.
      injection E as <- <-. exact J.
    - apply (G _ I). intros li H. cbn [process] in H. unfold conv_callback in H. cbn [bail_if ubind] in H. apply ubind_ok in H as (fs & _ & H).
      injection H as <-. apply in_or_app. right. left. reflexivity.
    - apply (G _ I). intros li H. cbn [process] in H. unfold conv_callback in H. cbn [bail_if ubind] in H. apply ubind_ok in H as (fs & F & H).
      injection H as <-. apply in_or_app. left. destruct (proj2 (callback_in _ _ _ _ F) _ _ N) as (o' & f' & arc' & X & E & J).
      injection X as <-. pose proof (once_in _ _ AO I (or_intror (member_once _ _ (nth_in _ _ _ N)))) as O2. cbn [member_attrs] in O2.
      rewrite (method_complete c lit docstring file m RI FI _ _ _ O2 C) in E.
      injection E as <- <-. exact J.
    - right. exists mp, x, b. auto.
    - apply (G _ I). intros li H. cbn [process] in H. unfold conv_dict in H. apply ubind_ok in H as (l & A & H). apply ubind_ok in H as (u & _ & H).
      apply ubind_ok in H as (ts & TS & H). apply ubind_ok in H as (gs' & _ & H). injection H as <-. apply in_or_app. left.
      destruct (parse_only _ _ _ _ dict_agrees A) as (_ & M). exact (make_traits_in _ _ _ _ _ _ _ (once_in _ _ AO I (or_introl eq_refl)) M TS T).
    - apply (G _ I). intros li H. cbn [process] in H. apply ubind_ok in H as (l & A & H). destruct (iface_ok _ _ A) as (_ & M & _).
      rewrite (proj2 (is_enum_iff _ _ M) EN) in H. unfold conv_enum_iface in H. apply ubind_ok in H as (u & _ & H).
      apply ubind_ok in H as (l' & A' & H). apply ubind_ok in H as (ts & TS & H). apply ubind_ok in H as (vs' & _ & H). injection H as <-.
      destruct (parse_only _ _ _ _ enum_agrees A') as (_ & M'). apply in_or_app. left.
      exact (make_traits_in _ _ _ _ _ _ _ (once_in _ _ AO I (or_introl eq_refl)) M' TS T).
    - apply (G _ I). intros li H. cbn [process] in H. apply ubind_ok in H as (l & A & H). destruct (iface_ok _ _ A) as (_ & M & _).
      destruct (iface_not_enum _ OA) as (_ & N1 & N2). rewrite (no_bool _ _ (is_enum_iff _ _ M)) in H by tauto. unfold conv_object in H.
      apply ubind_ok in H as (u & _ & H). rewrite A in H. cbn [ubind] in H. apply (imp_iff _ _ _ M) in IM. rewrite IM in H. cbn [ubind] in H.
      apply ubind_ok in H as (fs' & F & H). apply ubind_ok in H as (ts & TS & H). injection H as <-.
      apply in_or_app. right. apply in_or_app. left. exact (make_traits_in _ _ _ _ _ _ _ (once_in _ _ AO I (or_introl eq_refl)) M TS T).
    - exfalso. destruct T as (l & w & L & _). exact (NT _ _ _ _ _ I L).
  Qed.

  (** *** Nothing is left out *)
  Lemma process_covers d li items : plain_variants file -> attrs_once file -> no_enum_traits file -> In d file -> process' d = UOk li -> incl li items ->
    (forall x mp b, declares c file x (TCustom mp x b) -> In (ICustom mp x b) items) ->
    (forall x, def_name d = Some x -> exists T, gives c m d T /\ declares c file x T) -> covers c lit docstring file items d.
  Proof.
    intros PV AO NT I. destruct d as [a x doc ms | a x doc vs | a x i doc fs | a x i doc ms | a x i doc ms | a t x |]; cbn [process]; intros H IN CI GD.
    - apply ubind_ok in H as (u & A & H). apply ubind_ok in H as (u' & _ & H). apply ubind_ok in H as (fs & F & H). injection H as <-.
      intros b K. apply map_u_ok in F. destruct (forall2_in_l _ _ _ _ F K) as (f & J & E). destruct b as [|o|]; try discriminate.
      exists o, f. split; [reflexivity|]. split; [exact (fn_sound c lit docstring file m RI FI _ _ E) | apply IN, in_map; exact J].
    - unfold conv_enum in H. apply ubind_ok in H as (l & A & H). injection H as <-. split.
      + eexists; eexists; eexists. apply IN. left. reflexivity.
      + intros tl k L. exfalso. exact (NT _ _ _ _ _ I L).
    - unfold conv_dict in H. apply ubind_ok in H as (l & A & H). apply ubind_ok in H as (u & B & H). apply ubind_ok in H as (ts & T & H).
      apply ubind_ok in H as (gs & G & H). injection H as <-. destruct (parse_only _ _ _ _ dict_agrees A) as (OA & M). split.
      + exists (has is_remote l), gs. split; [apply (fields_iff c lit docstring file m RI); exact G | apply IN, in_or_app; right; left; reflexivity].
      + intros tl k L K. destruct (make_traits_covered _ _ _ _ _ (once_in _ _ AO I (or_introl eq_refl)) M T tl k L K) as (gs' & J).
        exists gs'. apply IN, in_or_app. left. exact J.
    - apply ubind_ok in H as (l & A & H). destruct (iface_ok _ _ A) as (OA & M & _). pose proof (is_enum_iff _ _ M) as B.
      destruct (has is_enum l || has is_error l)%bool.
      + unfold conv_enum_iface in H. apply ubind_ok in H as (u & Q & H). apply ubind_ok in H as (l' & A' & H). apply ubind_ok in H as (ts & T & H).
        apply ubind_ok in H as (vs & V & H). injection H as <-. destruct (parse_only _ _ _ _ enum_agrees A') as (OA' & M').
        pose proof (any_enum_attr _ OA OA') as OE. split.
        * left. split; [apply B; reflexivity|]. eexists; eexists; exists vs. split.
          -- apply map_u_ok in V. assert (PV' : forall b, In b ms -> forall o, b = MemOp o -> op_attrs o = None /\ op_modifier o <> Some Static).
             { intros b Ib o ->. exact (PV _ _ _ _ _ _ I (proj1 B eq_refl) Ib). }
             clear -V PV' RI. induction V as [|b v ms vs E _ IH]; constructor.
             ++ exact (variant_sound c docstring file m RI b v (PV' b (or_introl eq_refl)) E).
             ++ apply IH. intros b' I. exact (PV' b' (or_intror I)).
          -- apply IN, in_or_app. right. left. rewrite (no_bool _ _ (has_non_exhaustive _ _ M') (not_exhaustive_iface _ OE)). reflexivity.
        * intros tl k L K. destruct (make_traits_covered _ _ _ _ _ (once_in _ _ AO I (or_introl eq_refl)) M' T tl k L K) as (gs' & J).
          exists gs'. apply IN, in_or_app. left. exact J.
      + unfold conv_object in H. apply ubind_ok in H as (u & Q & H). rewrite A in H. cbn [ubind] in H.
        apply ubind_ok in H as (imp & IM & H). apply ubind_ok in H as (fs & F & H). apply ubind_ok in H as (ts & T & H). injection H as <-. split.
        * right. split; [intros K; apply (bool_no _ _ B eq_refl); auto|]. split; [intros K; apply (bool_no _ _ B eq_refl); auto|]. split.
          -- eexists; eexists. apply IN, in_or_app. right. apply in_or_app. right. left. reflexivity.
          -- intros b K. destruct (forall2_in_l _ _ _ _ (members_ok _ _ _ _ _ F) K) as (j & J & [(a' & args & d & f & -> & _ & E & ->) | (o & f & arc & -> & E & ->)]).
             ++ left. exists a', args, d, f. split; [reflexivity|]. split; [exact (cons_sound c lit docstring file m RI FI _ _ _ _ E) | apply IN, in_or_app; left; exact J].
             ++ right. exists o, f, arc. split; [reflexivity|]. split; [exact (method_sound c lit docstring file m RI FI _ _ _ E) | apply IN, in_or_app; left; exact J].
        * intros tl k L K. destruct (make_traits_covered _ _ _ _ _ (once_in _ _ AO I (or_introl eq_refl)) M T tl k L K) as (gs' & J).
          exists gs'. apply IN, in_or_app. right. apply in_or_app. left. exact J.
    - unfold conv_callback in H. apply ubind_ok in H as (u & A & H). apply ubind_ok in H as (u' & Q & H). apply ubind_ok in H as (fs & F & H).
      injection H as <-. split; [apply IN, in_or_app; right; left; reflexivity|]. intros j b N.
      destruct (proj2 (callback_in _ _ _ _ F) _ _ N) as (o & f & arc & -> & E & J). exists o, f, arc. split; [reflexivity|].
      split; [exact (method_sound c lit docstring file m RI FI _ _ _ E) | apply IN, in_or_app; left; exact J].
    - destruct (GD x eq_refl) as (T & G & D). exists T. split; [exact D|]. intros CU. cbn [gives] in G. destruct G as (l & E & G).
      destruct (typedef_ok c a l E) as (_ & CU' & _). rewrite (proj2 CU' CU) in G. destruct G as (b & _ & ->).
      eexists; eexists. split; [reflexivity|]. exact (CI _ _ _ D).
    - discriminate.
  Qed.

  (** *** Legal definitions are accepted *)
  Lemma process_accepts d : attrs_once file -> In d file -> def_ok c lit docstring file d ->
    (forall a x doc ms, d = DNamespace a x doc ms -> x = ns) -> exists li, process' d = UOk li.
  Proof.
    intros AO I. destruct d as [a x doc ms | a x doc vs | a x i doc fs | a x i doc ms | a x i doc ms | a t x |]; cbn [process def_ok]; intros H N.
    - destruct H as (-> & H). cbn [bail_if ubind]. rewrite (N _ _ _ _ eq_refl). destruct (bytes_eqb_spec ns ns); [|contradiction]. cbn [negb bail_if ubind].
      destruct (forall2_exists (fun b f => conv_ns_member lit docstring m b = UOk f) ms) as (r & F).
      + intros b K. destruct (H b K) as (o & f & -> & E). exists f. cbn [conv_ns_member].
        exact (fn_complete c lit docstring file m RI FI _ _ (once_in _ _ AO I (or_intror (member_once _ _ K))) E).
      + apply map_u_ok in F. rewrite F. eexists; reflexivity.
    - destruct H as (OA & _). destruct (only_parse _ _ _ enum_agrees OA) as (l & E & _). unfold conv_enum, enum_attrs. rewrite E. eexists; reflexivity.
    - destruct H as (OA & KT & -> & (gs & G)). destruct (only_parse _ _ _ dict_agrees OA) as (l & E & M). unfold conv_dict, dict_attrs. rewrite E.
      cbn [bail_if ubind]. destruct (make_traits_ok a l x (TRecord c x) (once_in _ _ AO I (or_introl eq_refl)) KT M) as (ts & ->). cbn [ubind].
      apply (fields_iff c lit docstring file m RI) in G. rewrite G. eexists; reflexivity.
    - destruct H as (-> & KT & [(OA & EN & NB & (vs & V)) | (OA & NR & imp & names & IM & F & ND)]).
      + destruct (enum_iface_accepts _ OA EN NB) as (l & IA & M). rewrite IA. cbn [ubind]. destruct (iface_enum_any _ OA) as (_ & O2).
        destruct (only_parse _ _ _ enum_agrees O2) as (l' & E' & M').
        rewrite (proj2 (is_enum_iff _ _ M) EN). unfold conv_enum_iface, enum_attrs. cbn [bail_if ubind]. rewrite E'. cbn [ubind].
        destruct (make_traits_ok a l' x (TEnum c x) (once_in _ _ AO I (or_introl eq_refl)) KT M') as (ts & ->). cbn [ubind].
        assert (V' : map_u (conv_variant docstring m) ms = UOk vs).
        { apply map_u_ok. clear -V RI. induction V; constructor; [exact (variant_complete c docstring file m RI _ _ H) | assumption]. }
        rewrite V'. eexists; reflexivity.
      + destruct (object_iface_accepts _ OA NR) as (l & IA & M). destruct (iface_not_enum _ OA) as (_ & N1 & N2).
        rewrite IA. cbn [ubind]. rewrite (no_bool _ _ (is_enum_iff _ _ M)) by tauto. unfold conv_object. cbn [bail_if ubind]. rewrite IA. cbn [ubind].
        apply (imp_iff _ _ _ M) in IM. rewrite IM. cbn [ubind].
        destruct (members_accepted x imp ms names F ND) with (seen := @nil str) as (fs & ->).
        * intros b K. exact (once_in _ _ AO I (or_intror (member_once _ _ K))).
        * intros y _ [].
        * cbn [ubind]. destruct (make_traits_ok a l x (TObject c x imp) (once_in _ _ AO I (or_introl eq_refl)) KT M) as (ts & ->). eexists; reflexivity.
    - destruct H as (-> & -> & H). unfold conv_callback. cbn [bail_if ubind].
      destruct (callback_accepted x ms H (fun b K => once_in _ _ AO I (or_intror (member_once _ _ K))) 0) as (fs & ->). eexists; reflexivity.
    - eexists; reflexivity.
    - destruct H.
  Qed.
End Items.
