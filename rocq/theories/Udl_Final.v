(** Proofs: whole UDL files. *)
From Verif Require Import Base Meta_Types Lit_Spec Udl_Types Udl_Spec Udl_Claims Udl_Model Udl_Attrs Udl_Names Udl_Conv Udl_Proofs.
From Coq Require Import Permutation.
Open Scope string_scope.
Open Scope list_scope.

(** *** The same definitions say the same *)
Section Same.
  Variables (c : str) (lit : udl -> ty -> option literal) (docstring : str -> str) (f1 f2 : list def).
  Hypothesis EQ : forall d, In d f1 <-> In d f2.
  Lemma declared_same x : is_declared f2 x -> is_declared f1 x.
  Proof. intros (d & I & N). exists d. split; [apply EQ; exact I | exact N]. Qed.
  Lemma types_same :
    (forall t T, type_is c f1 t T -> type_is c f2 t T) /\ (forall t T, key_is c f1 t T -> key_is c f2 t T) /\
    (forall x T, declares c f1 x T -> declares c f2 x T).
  Proof.
    apply types_mut; intros; repeat match goal with H : In _ f1 |- _ => apply EQ in H end.
    - apply ti_own; assumption.
    - apply ti_builtin; [assumption|]. intros D. match goal with H : ~ is_declared _ _ |- _ => apply H, declared_same, D end.
    - constructor.
    - constructor.
    - constructor.
    - constructor; assumption.
    - constructor; assumption.
    - constructor; assumption.
    - constructor.
    - apply ki_type; assumption.
    - eapply dc_dict; eassumption.
    - eapply dc_enum; eassumption.
    - eapply dc_enum_iface; eassumption.
    - eapply dc_object; eassumption.
    - eapply dc_callback; eassumption.
    - eapply dc_custom; eassumption.
    - eapply dc_outside; eassumption.
  Qed.
  Lemma forall2_mono {A B} (R Q : A -> B -> Prop) l r : (forall a b, R a b -> Q a b) -> Forall2 R l r -> Forall2 Q l r.
  Proof. intros H F. induction F; constructor; auto. Qed.
  Lemma callable_same a r args doc f : callable c lit docstring f1 a r args doc f -> callable c lit docstring f2 a r args doc f.
  Proof.
    intros (A & T & R & I & D & J). split; [exact A|]. split; [|split; [|split; [|split; [exact D | exact J]]]].
    - destruct T; [constructor; assumption | eapply th_error; [eassumption | apply types_same; assumption]].
    - destruct R; [constructor | constructor; assumption | apply ri_type; [assumption | apply types_same; assumption]].
    - apply (forall2_mono _ _ _ _) with (2 := I). intros wa0 p0 []; constructor; try assumption. apply types_same; assumption.
  Qed.
  Lemma method_same o f arc : method_is c lit docstring f1 o f arc -> method_is c lit docstring f2 o f arc.
  Proof.
    intros (A & B & C & D & E & F & G).
    exact (conj A (conj B (conj C (conj D (conj E (conj F (callable_same _ _ _ _ _ G))))))).
  Qed.
  Lemma says_same M : says c lit docstring f1 M -> says c lit docstring f2 M.
  Proof.
    intros H. destruct H; repeat match goal with H : In _ f1 |- _ => apply EQ in H end.
    - match goal with H : fn_is _ _ _ _ _ _ |- _ => destruct H as (A & B & C) end.
      eapply sy_func; [eassumption | eassumption|]. exact (conj A (conj B (callable_same _ _ _ _ _ C))).
    - eapply sy_record; [eassumption | eassumption | eassumption |].
      match goal with H : Forall2 _ _ _ |- _ => apply (forall2_mono _ _ _ _) with (2 := H) end.
      intros wf0 g0 []; constructor; try assumption. apply types_same; assumption.
    - eapply sy_enum; eassumption.
    - eapply sy_enum_iface; try eassumption.
      match goal with H : Forall2 _ _ _ |- _ => apply (forall2_mono _ _ _ _) with (2 := H) end.
      intros b v [o w (P1 & P2 & P3 & P4 & P5 & P6 & P7 & P8 & P9)]. constructor. unfold variant_is.
      repeat (split; [assumption|]). split; [|assumption]. apply (forall2_mono _ _ _ _) with (2 := P8).
      intros wf0 g0 []; constructor. apply types_same; assumption.
    - eapply sy_object; eassumption.
    - match goal with H : cons_is _ _ _ _ _ _ _ _ |- _ => destruct H as (A & B & C) end.
      eapply sy_cons; [eassumption | eassumption | eassumption|]. exact (conj A (conj B (callable_same _ _ _ _ _ C))).
    - eapply sy_method; [eassumption | eassumption | eassumption | apply method_same; assumption].
    - eapply sy_callback; eassumption.
    - eapply sy_callback_method; [eassumption | eassumption | apply method_same; assumption].
    - apply sy_custom, types_same; assumption.
    - eapply sy_record_trait; eassumption.
    - eapply sy_enum_iface_trait; eassumption.
    - eapply sy_object_trait; eassumption.
    - eapply sy_enum_trait; eassumption.
  Qed.
End Same.

(** *** Custom types *)
Definition keyed (m : tmap) : Prop := forall x T, In (x, T) m -> find_str x m = Some T.
Lemma add_keyed x T m m' : keyed m -> add_type x T m = UOk m' -> keyed m'.
Proof.
  unfold add_type, keyed. intros K. destruct (find_str x m) as [U|] eqn:E.
  - destruct (_ && _)%bool; [|discriminate]. intros H; injection H as <-. exact K.
  - intros H; injection H as <-. intros y U [P | I]; cbn [find_str].
    + injection P as -> ->. destruct (bytes_eqb_spec y y); congruence.
    + destruct (bytes_eqb_spec y x) as [->|]; [|exact (K _ _ I)]. pose proof (K _ _ I). congruence.
Qed.
Lemma find_defs_keyed c ds : forall m m', keyed m -> find_defs c ds m = UOk m' -> keyed m'.
Proof.
  induction ds as [|d ds IH]; intros m m' K H; cbn [find_defs] in H; [injection H as <-; exact K|].
  apply ubind_ok in H as (n & E & H). apply (IH n m'); [|exact H]. pose proof (find_def_ok _ _ _ _ E) as F. destruct (def_name d).
  - destruct F as (T & _ & A). exact (add_keyed _ _ _ _ K A).
  - subst n. exact K.
Qed.
Lemma declares_custom c file x mp y b : declares c file x (TCustom mp y b) -> y = x.
Proof. intros H. inversion H; subst; try reflexivity. match goal with H : stands_for _ _ _ _ |- _ => inversion H end. Qed.
Lemma custom_in m M : In M (custom_items m) <-> exists x mp y b, In (x, TCustom mp y b) m /\ M = ICustom mp y b.
Proof.
  unfold custom_items. rewrite in_concat. split.
  - intros (l & I & J). apply in_map_iff in I as ((x & T) & <- & I). cbn [snd] in J. destruct T; try destruct J as [<- | []]; try destruct J.
    eauto 8.
  - intros (x & mp & y & b & I & ->). exists [ICustom mp y b]. split; [|left; reflexivity]. apply in_map_iff. exists (x, TCustom mp y b). auto.
Qed.

(** *** Files *)
Section Files.
  Variables (c : str) (lit : udl -> ty -> option literal) (docstring : str -> str).
  Notation read := (read_udl c lit docstring).
  Lemma read_ok file g : read file = UOk g -> exists ns m ls,
    find_namespace file = Some ns /\ find_defs c file [] = UOk m /\ map_u (process c lit docstring m ns) file = UOk ls /\
    g = Group ns (namespace_doc docstring file) (concat ls ++ custom_items m).
  Proof.
    unfold read_udl. intros H. apply ubind_ok in H as (ns & N & H). apply ubind_ok in H as (m & F & H). apply ubind_ok in H as (l & P & H).
    injection H as <-. unfold process_all in P. apply ubind_ok in P as (ls & P & Q). injection Q as <-. apply of_opt_ok in N. eauto 8.
  Qed.
  Lemma nil_keyed : keyed []. Proof. intros x T []. Qed.
  Lemma udl_sound file g M : unshadowed file -> plain_variants file -> read file = UOk g -> In M (g_items g) -> says c lit docstring file M.
  Proof.
    intros NS PV H I. destruct (read_ok _ _ H) as (ns & m & ls & _ & F & P & ->). cbn [g_items] in I. apply in_app_or in I as [I | I].
    - apply (in_concat_map _ _ _ _ P) in I as (d & li & J & E & K).
      exact (process_sound c lit docstring file m ns (resolve_iff c file NS m F) (find_iff c file NS m F) d li M PV J E K).
    - apply custom_in in I as (x & mp & y & b & I & ->). apply (find_defs_keyed _ _ _ _ nil_keyed F) in I.
      apply (find_iff c file NS m F) in I. pose proof (declares_custom _ _ _ _ _ _ I). subst y. apply sy_custom. exact I.
  Qed.
  Lemma processed file m ns ls : map_u (process c lit docstring m ns) file = UOk ls ->
    forall d, In d file -> exists li, process c lit docstring m ns d = UOk li.
  Proof. intros P d I. apply map_u_ok in P. destruct (forall2_in_l _ _ _ _ P I) as (li & _ & E). eauto. Qed.
  Lemma udl_complete file g M : unshadowed file -> attrs_once file -> no_enum_traits file -> read file = UOk g -> says c lit docstring file M ->
    In M (g_items g).
  Proof.
    intros NS AO NT H S1. destruct (read_ok _ _ H) as (ns & m & ls & _ & F & P & ->). cbn [g_items]. apply in_or_app.
    destruct (process_complete c lit docstring file m ns (resolve_iff c file NS m F) (find_iff c file NS m F) M AO NT (processed _ _ _ _ P) S1)
      as [(d & li & J & E & K) | (mp & x & b & -> & D)].
    - left. apply (in_concat_map _ _ _ _ P). eauto.
    - right. apply custom_in. exists x, mp, x, b. split; [|reflexivity]. apply find_str_in. apply (find_iff c file NS m F). exact D.
  Qed.
  Lemma udl_covers file g d : unshadowed file -> plain_variants file -> attrs_once file -> no_enum_traits file -> read file = UOk g -> In d file ->
    covers c lit docstring file (g_items g) d.
  Proof.
    intros NS PV AO NT H I. assert (CU : forall x mp b, declares c file x (TCustom mp x b) -> In (ICustom mp x b) (g_items g)).
    { intros x mp b D. apply (udl_complete file g _ NS AO NT H). apply sy_custom. exact D. }
    destruct (read_ok _ _ H) as (ns & m & ls & _ & F & P & ->). destruct (processed _ _ _ _ P d I) as (li & E).
    apply (process_covers c lit docstring file m ns (resolve_iff c file NS m F) (find_iff c file NS m F) d li _ PV AO NT I E).
    - intros M J. apply in_or_app. left. apply (in_concat_map _ _ _ _ P). eauto.
    - exact CU.
    - intros x N. destruct (m_gives c file NS m F d x I N) as (T & FT & G). exists T. split; [exact G|]. apply (find_iff c file NS m F). exact FT.
  Qed.
  Lemma find_namespace_in file x : find_namespace file = Some x -> exists a d ms, In (DNamespace a x d ms) file.
  Proof.
    induction file as [|d file IH]; [discriminate|]. destruct d; cbn [find_namespace]; intros H;
      try (destruct (IH H) as (a' & d' & ms' & I); exists a', d', ms'; right; exact I).
    injection H as ->. exists a, doc, ms. left; reflexivity.
  Qed.
  Lemma namespace_doc_in file : forall o, (exists a x d ms, In (DNamespace a x d ms) file) ->
    exists a x d ms, In (DNamespace a x d ms) file /\
      fold_left (fun o e => match e with DNamespace _ _ doc _ => option_map docstring doc | _ => o end) file o = option_map docstring d.
  Proof.
    induction file as [|e file IH]; intros o (a & x & d & ms & I); [destruct I|]. cbn [fold_left].
    assert (D : (exists a x d ms, In (DNamespace a x d ms) file) \/ forall a x d ms, ~ In (DNamespace a x d ms) file).
    { clear. induction file as [|f file IH]; [right; intros a x d ms []|].
      destruct IH as [(a & x & d & ms & I) | N]; [left; exists a, x, d, ms; right; exact I|].
      destruct f; try (right; intros a' x' d' ms' [X | I]; [discriminate X | exact (N _ _ _ _ I)]).
      left. exists a, x, doc, ms. left; reflexivity. }
    destruct D as [D | N].
    - destruct (IH (match e with DNamespace _ _ doc _ => option_map docstring doc | _ => o end) D) as (a' & x' & d' & ms' & I' & E).
      exists a', x', d', ms'. split; [right; exact I' | exact E].
    - destruct I as [-> | I]; [|exfalso; exact (N _ _ _ _ I)]. exists a, x, d, ms. split; [left; reflexivity|].
      clear IH. generalize (option_map docstring d). intros w. revert N. clear. revert w.
      induction file as [|f file IH]; intros w N; [reflexivity|]. cbn [fold_left].
      assert (N' : forall a x d ms, ~ In (DNamespace a x d ms) file) by (intros a x d ms I; exact (N a x d ms (or_intror I))).
      destruct f; try (exact (IH w N')). exfalso. exact (N _ _ _ _ (or_introl eq_refl)).
  Qed.
  Lemma udl_namespace file g : read file = UOk g -> namespace_is docstring file (g_namespace g) (g_doc g).
  Proof.
    intros H. destruct (read_ok _ _ H) as (ns & m & ls & N & F & P & ->). cbn [g_namespace g_doc].
    assert (ALL : forall a y d ms, In (DNamespace a y d ms) file -> a = None /\ y = ns).
    { intros a y d ms I. destruct (processed _ _ _ _ P _ I) as (li & E). cbn [process] in E. apply ubind_ok in E as (u & A & E).
      apply ubind_ok in E as (u' & B & _). apply bail_if_ok in A, B. apply none_iff in A. split; [exact A|].
      destruct (bytes_eqb_spec y ns); [assumption | discriminate]. }
    split; [|intros a y d ms I; exact (proj2 (ALL _ _ _ _ I))].
    destruct (find_namespace_in _ _ N) as (a0 & d0 & ms0 & I0).
    destruct (namespace_doc_in file None (ex_intro _ a0 (ex_intro _ ns (ex_intro _ d0 (ex_intro _ ms0 I0))))) as (a & x & d & ms & I & E).
    destruct (ALL _ _ _ _ I) as (-> & ->). exists d, ms. split; [exact I | exact E].
  Qed.

  (** *** Acceptance *)
  Lemma unshadowed_pre pre post : unshadowed (pre ++ post) -> unshadowed pre.
  Proof. intros H x t I (d & J & N). apply (H x t I). exists d. split; [apply in_or_app; left; exact J | exact N]. Qed.
  Lemma legal_found file : unshadowed file -> customs_after c file -> legal c lit docstring file -> forall post pre m, file = pre ++ post -> find_defs c pre [] = UOk m ->
    exists m', find_defs c post m = UOk m'.
  Proof.
    intros NS ORD (_ & OKS & DIS). induction post as [|d post IH]; intros pre m E F; cbn [find_defs]; [eexists; reflexivity|].
    assert (NSP : unshadowed pre) by (apply (unshadowed_pre pre (d :: post)); rewrite <- E; exact NS).
    assert (FRESH : forall x, def_name d = Some x -> find_str x m = None).
    { intros x N. destruct (find_str x m) as [U|] eqn:X; [|reflexivity]. exfalso.
      apply (m_sound c pre NSP m F) in X. destruct (declares_declared c pre x U X) as (e & I & N'). apply in_split in I as (p1 & p2 & ->).
      apply (DIS p1 e d (p2 ++ d :: post) x); [rewrite E; rewrite <- app_assoc; reflexivity | apply in_or_app; right; left; reflexivity | exact N' | exact N]. }
    assert (ADD : forall x T, def_name d = Some x -> exists m', add_type x T m = UOk m').
    { intros x T N. unfold add_type. rewrite (FRESH x N). eexists; reflexivity. }
    assert (STEP : exists m', find_def c d m = UOk m').
    { assert (I : In d file) by (rewrite E; apply in_or_app; right; left; reflexivity). pose proof (OKS d I) as OK.
      destruct d as [a x doc ms | a x doc vs | a x i doc fs | a x i doc ms | a x i doc ms | a t x |]; cbn [find_def def_ok] in *.
      - eexists; reflexivity.
      - apply ADD; reflexivity.
      - apply ADD; reflexivity.
      - destruct OK as (_ & _ & [(OA & EN & NB & _) | (OA & NR & imp & names & IM & _)]).
        + destruct (enum_iface_accepts _ OA EN NB) as (l & IA & M). rewrite IA. cbn [ubind]. rewrite (proj2 (is_enum_iff _ _ M) EN). apply ADD; reflexivity.
        + destruct (object_iface_accepts _ OA NR) as (l & IA & M). destruct (iface_not_enum _ OA) as (_ & N1 & N2). rewrite IA. cbn [ubind].
          rewrite (no_bool _ _ (is_enum_iff _ _ M)) by tauto. apply (imp_iff _ _ _ M) in IM. rewrite IM. cbn [ubind]. apply ADD; reflexivity.
      - destruct OK as (-> & _). apply ADD; reflexivity.
      - destruct OK as (TA & OK). destruct (typedef_parse _ TA) as (l & EL). rewrite EL. cbn [ubind].
        destruct (typedef_ok c a l EL) as (_ & CU & _). destruct (has is_custom_attr l) eqn:HC.
        + destruct (ORD pre a t x post E (proj1 CU eq_refl)) as (b & TB). apply (resolve_iff c pre NSP m F) in TB. rewrite TB. cbn [ubind]. apply ADD; reflexivity.
        + destruct OK as [K | (w & T & N & ST)]; [apply CU in K; discriminate|]. apply ident_named in N. rewrite N. cbn [of_opt ubind].
          assert (X : exists T', find_str (S_ w) (outside (or_crate c (get_crate_name l)) x) = Some T').
          { assert (Y : exists T', stands_for (or_crate c (get_crate_name l)) x w T') by (destruct ST; eexists; constructor; assumption).
            destruct Y as (T' & Y). exists T'. apply outside_iff. eauto. }
          destruct X as (T' & ->). cbn [of_opt ubind]. apply ADD; reflexivity.
      - destruct OK. }
    destruct STEP as (m' & ST). rewrite ST. cbn [ubind]. apply (IH (pre ++ [d]) m'); [rewrite <- app_assoc; exact E|].
    clear -F ST. revert m F ST. generalize (@nil (str * ty)). induction pre as [|e pre IH]; intros m0 m F ST; cbn [find_defs app] in *.
    - injection F as <-. rewrite ST. reflexivity.
    - apply ubind_ok in F as (n & E & F). rewrite E. cbn [ubind]. exact (IH _ _ F ST).
  Qed.
  Lemma find_namespace_some file a x d ms : In (DNamespace a x d ms) file -> exists y, find_namespace file = Some y.
  Proof.
    induction file as [|e file IH]; intros I; [destruct I|]. destruct e; cbn [find_namespace]; try (destruct I as [X | I]; [discriminate X | exact (IH I)]).
    eexists; reflexivity.
  Qed.
  Lemma udl_accepts file : unshadowed file -> attrs_once file -> customs_after c file -> legal c lit docstring file -> exists g, read file = UOk g.
  Proof.
    intros NS AO CA L. destruct (legal_found file NS CA L file [] [] eq_refl eq_refl) as (m & F).
    destruct L as ((x & doc & ((d & ms & I & _) & ALL)) & OKS & _).
    destruct (find_namespace_some _ _ _ _ _ I) as (y & N). destruct (find_namespace_in _ _ N) as (a' & d' & ms' & I').
    pose proof (ALL _ _ _ _ I') as Y. subst y. unfold read_udl. rewrite N. cbn [of_opt ubind]. rewrite F. cbn [ubind]. unfold process_all.
    destruct (forall2_exists (fun e li => process c lit docstring m x e = UOk li) file) as (ls & G).
    - intros e J. apply (process_accepts c lit docstring file m x (resolve_iff c file NS m F) (find_iff c file NS m F) e AO J (OKS e J)).
      intros a y d0 ms0 ->. exact (ALL _ _ _ _ J).
    - apply map_u_ok in G. rewrite G. eexists; reflexivity.
  Qed.
  (** *** Order *)
  Lemma udl_order f1 f2 g1 g2 : Permutation f1 f2 -> unshadowed f1 -> plain_variants f1 -> attrs_once f1 -> no_enum_traits f1 ->
    read f1 = UOk g1 -> read f2 = UOk g2 -> forall M, In M (g_items g1) <-> In M (g_items g2).
  Proof.
    intros PE NS PV AO NT R1 R2 M.
    assert (EQ : forall d, In d f1 <-> In d f2) by (intros d; split; apply Permutation_in; [exact PE | apply Permutation_sym; exact PE]).
    assert (NS2 : unshadowed f2) by (intros x t I (d & J & N); apply (NS x t I); exists d; split; [apply EQ; exact J | exact N]).
    assert (PV2 : plain_variants f2) by (intros a x i doc ms o I; apply (PV a x i doc ms o); apply EQ; exact I).
    assert (AO2 : attrs_once f2) by (intros d a I; apply (AO d a); apply EQ; exact I).
    assert (NT2 : no_enum_traits f2) by (intros a x doc vs l I; apply (NT a x doc vs l); apply EQ; exact I).
    split; intros I.
    - apply (udl_complete _ _ _ NS2 AO2 NT2 R2). apply (says_same c lit docstring f1 f2 EQ). exact (udl_sound _ _ _ NS PV R1 I).
    - apply (udl_complete _ _ _ NS AO NT R1). apply (says_same c lit docstring f2 f1 (fun d => iff_sym (EQ d))). exact (udl_sound _ _ _ NS2 PV2 R2 I).
  Qed.
End Files.

(** *** Panics *)
Lemma ubind_panic {A B} (x : ures A) (f : A -> ures B) : x <> UPanic -> (forall a, x = UOk a -> f a <> UPanic) -> ubind x f <> UPanic.
Proof. destruct x; cbn [ubind]; intros H K; [apply K; reflexivity | discriminate | contradiction (H eq_refl)]. Qed.
Lemma of_opt_panic {A} (x : option A) : of_opt x <> UPanic. Proof. destruct x; discriminate. Qed.
Lemma bail_panic b : bail_if b <> UPanic. Proof. destruct b; discriminate. Qed.
Lemma map_u_panic {A B} (f : A -> ures B) l : (forall a, In a l -> f a <> UPanic) -> map_u f l <> UPanic.
Proof.
  induction l as [|a l IH]; intros H; cbn [map_u]; [discriminate|]. apply ubind_panic; [apply H; left; reflexivity|]. intros b _.
  apply ubind_panic; [apply IH; intros x I; apply H; right; exact I | discriminate].
Qed.
Lemma parse_attr_panic w : parse_attr w <> UPanic.
Proof.
  destruct w as [x | x y q | x l |]; cbn [parse_attr]; [apply of_opt_panic | | destruct (word_is _ _); discriminate | discriminate].
  apply ubind_panic; [apply of_opt_panic|]. intros r E. apply of_opt_ok in E. apply find_str_in in E. unfold with_value in E. cbn [In] in E.
  in_cases E; injection E as _ <-; try discriminate. destruct (_ && _)%bool; discriminate.
Qed.
Lemma parse_panic ok a : parse_attributes ok a <> UPanic.
Proof.
  destruct a as [l|]; cbn [parse_attributes]; [|discriminate]. apply ubind_panic; [apply bail_panic|]. intros _ _.
  apply ubind_panic; [apply map_u_panic; intros w _; apply parse_attr_panic|]. intros r _. apply ubind_panic; [apply bail_panic | discriminate].
Qed.
Lemma resolve_panic m t : resolve m t <> UPanic.
Proof.
  induction t; cbn [resolve]; try discriminate.
  - destruct (find_str x builtin_types); [discriminate | apply of_opt_panic].
  - destruct unrestricted; discriminate.
  - destruct unrestricted; discriminate.
  - apply ubind_panic; [exact IHt | discriminate].
  - apply ubind_panic; [destruct t1; first [exact IHt1 | discriminate]|]. intros K _. apply ubind_panic; [exact IHt2 | discriminate].
  - apply ubind_panic; [exact IHt | discriminate].
Qed.
Ltac no_panic :=
  repeat first
  [ discriminate
  | apply ubind_panic; [|intros ? ?]
  | apply of_opt_panic | apply bail_panic | apply parse_panic | apply resolve_panic
  | apply map_u_panic; intros ? ?
  | match goal with |- (if ?b then _ else _) <> _ => destruct b | |- (match ?x with _ => _ end) <> _ => destruct x end ].
Lemma ret_panic m r : resolve_ret m r <> UPanic.
Proof. destruct r; cbn [resolve_ret]; [discriminate|]. destruct (match ident_of t with Some x => word_is "void" x | None => false end); [discriminate|]. no_panic. Qed.
Lemma arg_panic lit m a : conv_arg lit m a <> UPanic.
Proof. destruct a; cbn [conv_arg]; [|discriminate]. unfold conv_default, arg_attrs. no_panic. Qed.
Lemma fn_panic lit ds m o : conv_fn lit ds m o <> UPanic.
Proof. unfold conv_fn, fn_attrs, conv_throws, reject_async_by_mut_ref. no_panic; first [apply ret_panic | apply arg_panic]. Qed.
Lemma method_panic lit ds m o : conv_method lit ds m o <> UPanic.
Proof. unfold conv_method, method_attrs, conv_throws, reject_async_by_mut_ref. no_panic; first [apply ret_panic | apply arg_panic]. Qed.
Lemma cons_panic lit ds m a args doc : (forall e, is_set a "Throws" e -> find_str e m <> None) -> conv_cons lit ds m a args doc <> UPanic.
Proof.
  intros H. unfold conv_cons, cons_attrs, reject_async_by_mut_ref. apply ubind_panic; [apply parse_panic|]. intros l P.
  apply ubind_panic.
  - destruct (get_throws l) as [e|] eqn:E; [|discriminate]. destruct (parse_only _ _ _ _ cons_agrees P) as (_ & M).
    specialize (H e (throws_some _ _ M _ E)). destruct (find_str e m); [discriminate | contradiction].
  - intros t _. no_panic. apply arg_panic.
Qed.
Lemma add_panic x T m : add_type x T m <> UPanic.
Proof. unfold add_type. destruct (find_str x m); [|discriminate]. destruct (_ && _)%bool; discriminate. Qed.
Lemma iface_panic a : iface_attrs a <> UPanic. Proof. unfold iface_attrs. no_panic. Qed.
Lemma impl_panic l : object_impl l <> UPanic. Proof. unfold object_impl. destruct (has is_trait l), (has is_foreign l); discriminate. Qed.
Lemma find_defs_panic c ds : forall m, find_defs c ds m <> UPanic.
Proof.
  induction ds as [|d ds IH]; intros m; cbn [find_defs]; [discriminate|]. apply ubind_panic; [|intros n _; apply IH].
  destruct d; cbn [find_def]; try discriminate; try apply add_panic.
  - apply ubind_panic; [apply iface_panic|]. intros l _. destruct (_ || _)%bool; [apply add_panic|]. apply ubind_panic; [apply impl_panic|]. intros; apply add_panic.
  - destruct a; [discriminate | apply add_panic].
  - unfold typedef_attrs_of. no_panic. apply add_panic.
Qed.
Lemma variant_panic ds m b : conv_variant ds m b <> UPanic.
Proof.
  destruct b; cbn [conv_variant]; try discriminate. apply ubind_panic; [apply bail_panic|]. intros _ _. apply ubind_panic; [apply bail_panic|]. intros _ _.
  apply ubind_panic; [apply bail_panic|]. intros _ _. apply ubind_panic.
  - destruct (op_ret o) as [|t]; [discriminate|]. destruct t; try discriminate; apply of_opt_panic.
  - intros x _. apply ubind_panic; [|discriminate]. apply map_u_panic. intros a _. destruct a; cbn [conv_vfield]; [|discriminate]. no_panic.
Qed.
Lemma traits_panic self t ks : make_traits self t ks <> UPanic.
Proof. unfold make_traits, make_trait. apply map_u_panic. intros k _. apply ubind_panic; [apply of_opt_panic | discriminate]. Qed.
Lemma members_panic lit ds m x imp ms : (forall a args d e, In (MemCons a args d) ms -> is_set a "Throws" e -> find_str e m <> None) ->
  forall seen, conv_members lit ds m x imp seen ms <> UPanic.
Proof.
  induction ms as [|b ms IH]; intros H seen; cbn [conv_members]; [discriminate|].
  assert (IH' := IH (fun a args d e I => H a args d e (or_intror I))). destruct b as [a args d | o |]; [| |discriminate].
  - apply ubind_panic; [apply cons_panic; intros e; exact (H a args d e (or_introl eq_refl))|]. intros f _.
    apply ubind_panic; [apply bail_panic|]. intros _ _. apply ubind_panic; [apply bail_panic|]. intros _ _. apply ubind_panic; [apply IH' | discriminate].
  - apply ubind_panic; [apply method_panic|]. intros f _. apply ubind_panic; [apply bail_panic|]. intros _ _. apply ubind_panic; [apply IH' | discriminate].
Qed.
Lemma callback_panic lit ds m x ms : forall k, conv_callback_members lit ds m x k ms <> UPanic.
Proof.
  induction ms as [|b ms IH]; intros k; cbn [conv_callback_members]; [discriminate|]. destruct b as [|o|]; try discriminate.
  apply ubind_panic; [apply method_panic|]. intros f _. apply ubind_panic; [apply IH | discriminate].
Qed.
Lemma find_defs_named c ds : forall m m', find_defs c ds m = UOk m' ->
  ext m m' /\ forall d x, In d ds -> def_name d = Some x -> find_str x m' <> None.
Proof.
  induction ds as [|d ds IH]; intros m m' H; cbn [find_defs] in H.
  - injection H as <-. split; [apply ext_refl | intros d x []].
  - apply ubind_ok in H as (n & E & H). pose proof (find_def_ok _ _ _ _ E) as F. destruct (IH _ _ H) as (X & N).
    assert (G : ext m n /\ forall x, def_name d = Some x -> find_str x n <> None).
    { destruct (def_name d) as [y|].
      - destruct F as (T & _ & A). apply add_type_ok in A as (A & B & _). split; [exact B|]. intros x Ex. injection Ex as <-. congruence.
      - subst n. split; [apply ext_refl | discriminate]. }
    destruct G as (G1 & G2). split; [exact (ext_trans _ _ _ G1 X)|]. intros e x [<- | I] D; [|exact (N e x I D)].
    specialize (G2 x D). destruct (find_str x n) as [T|] eqn:Y; [|contradiction]. rewrite (X _ _ Y). discriminate.
Qed.
Lemma udl_panic c lit ds file : constructors_throw_known file -> read_udl c lit ds file <> UPanic.
Proof.
  intros K. unfold read_udl. apply ubind_panic; [apply of_opt_panic|]. intros ns _. apply ubind_panic; [apply find_defs_panic|]. intros m F.
  apply ubind_panic; [|discriminate]. unfold process_all. apply ubind_panic; [|discriminate]. apply map_u_panic. intros d I.
  destruct d as [a x doc ms | a x doc vs | a x i doc fs | a x i doc ms | a x i doc ms | a t x |]; cbn [process]; try discriminate.
  - apply ubind_panic; [apply bail_panic|]. intros _ _. apply ubind_panic; [apply bail_panic|]. intros _ _. apply ubind_panic; [|discriminate].
    apply map_u_panic. intros b _. destruct b; cbn [conv_ns_member]; try discriminate. apply fn_panic.
  - unfold conv_enum, enum_attrs. apply ubind_panic; [apply parse_panic | discriminate].
  - unfold conv_dict, dict_attrs. apply ubind_panic; [apply parse_panic|]. intros l _. apply ubind_panic; [apply bail_panic|]. intros _ _.
    apply ubind_panic; [apply traits_panic|]. intros ts _. apply ubind_panic; [|discriminate]. apply map_u_panic. intros f _. unfold conv_field, conv_default. no_panic.
  - apply ubind_panic; [apply iface_panic|]. intros l _. destruct (_ || _)%bool.
    + unfold conv_enum_iface, enum_attrs. apply ubind_panic; [apply bail_panic|]. intros _ _. apply ubind_panic; [apply parse_panic|]. intros l' _.
      apply ubind_panic; [apply traits_panic|]. intros ts _. apply ubind_panic; [|discriminate]. apply map_u_panic. intros b _. apply variant_panic.
    + unfold conv_object. apply ubind_panic; [apply bail_panic|]. intros _ _. apply ubind_panic; [apply iface_panic|]. intros l' _.
      apply ubind_panic; [apply impl_panic|]. intros imp _. apply ubind_panic; [|intros fs _; apply ubind_panic; [apply traits_panic | discriminate]].
      apply members_panic. intros b args d e J S1. destruct (K _ _ _ _ _ _ _ _ _ I J S1) as (d' & I' & N).
      exact (proj2 (find_defs_named _ _ _ _ F) d' e I' N).
  - unfold conv_callback. apply ubind_panic; [apply bail_panic|]. intros _ _. apply ubind_panic; [apply bail_panic|]. intros _ _.
    apply ubind_panic; [apply callback_panic | discriminate].
Qed.

(** *** The claims *)
Lemma reads_soundly_proof : reads_soundly (fun file => unshadowed file /\ plain_variants file).
Proof. intros c lit ds file g M (A & B). exact (udl_sound c lit ds file g M A B). Qed.
Lemma reads_fully_proof : reads_fully (fun file => unshadowed file /\ attrs_once file /\ no_enum_traits file).
Proof. intros c lit ds file g M (A & B & C). exact (udl_complete c lit ds file g M A B C). Qed.
Lemma reads_all_proof : reads_all plainly_written.
Proof. intros c lit ds file g d (A & B & C & D). exact (udl_covers c lit ds file g d A B C D). Qed.
Lemma reads_namespace_proof : reads_namespace.
Proof. exact udl_namespace. Qed.
Lemma accepts_proof : accepts (fun c file => unshadowed file /\ attrs_once file /\ customs_after c file).
Proof. intros c lit ds file (A & B & C). exact (udl_accepts c lit ds file A B C). Qed.
Lemma order_free_proof : order_free plainly_written.
Proof. intros c lit ds f1 f2 g1 g2 P (A & B & C & D). exact (udl_order c lit ds f1 f2 g1 g2 P A B C D). Qed.
Lemma never_panics_proof : never_panics constructors_throw_known.
Proof. exact udl_panic. Qed.
