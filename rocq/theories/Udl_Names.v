(** Proofs: the types that UDL files name. *)
From Verif Require Import Base Meta_Types Lit_Spec Udl_Types Udl_Spec Udl_Claims Udl_Model Udl_Attrs.
Open Scope string_scope.
Open Scope list_scope.

Lemma obj_impl_eqb_iff a b : obj_impl_eqb a b = true -> a = b.
Proof. destruct a as [|[]], b as [|[]]; cbn; congruence. Qed.
Lemma ty_eqb_sound a : forall b, ty_eqb a b = true -> a = b.
Proof.
  induction a; intros []; cbn [ty_eqb]; intros H; try discriminate H; try reflexivity;
    repeat match goal with
    | X : (_ && _)%bool = true |- _ => apply andb_true_iff in X as (? & ?)
    | X : bytes_eqb ?x ?y = true |- _ => destruct (bytes_eqb_spec x y); [subst|discriminate X]; clear X
    | X : obj_impl_eqb _ _ = true |- _ => apply obj_impl_eqb_iff in X; subst
    | IH : forall b, ty_eqb ?x b = true -> _, X : ty_eqb ?x _ = true |- _ => apply IH in X; subst
    end; reflexivity.
Qed.


Lemma ident_named t x : ident_of t = Some x <-> named t x.
Proof.
  unfold named. split.
  - destruct t as [y| | | | | | | |t|]; try discriminate; cbn [ident_of].
    + intros E; injection E as ->; left; reflexivity.
    + destruct t; try discriminate. intros E; injection E as ->; right; reflexivity.
  - intros [-> | ->]; reflexivity.
Qed.
Lemma named_fun t x y : named t x -> named t y -> x = y.
Proof. intros H K. apply ident_named in H, K. congruence. Qed.

(** *** Typedefs *)
Lemma custom_written w b : parses w b -> (is_custom_attr b = true <-> w = ANoArgs (S_ "Custom") \/ exists c q, w = AIs (S_ "Custom") c q).
Proof.
  intros P. apply parses_iff in P. split.
  - destruct b as [| | | | ? | | ? | ? | ? | | [x|] | | | |]; try discriminate; intros _; cbn [written] in P.
    + destruct P as (q & ->). right. exists x, q. reflexivity.
    + left. exact P.
  - intros [-> | (x & q & ->)]; destruct b as [| | | | ? | | ? | ? | ? | | [y|] | | | |]; cbn [written] in P; try reflexivity; exfalso;
      repeat match goal with H : exists _, _ |- _ => destruct H as (? & H) end; discriminate P.
Qed.
Lemma typedef_ok c a l : typedef_attrs_of a = UOk l ->
  typedef_attrs a /\ (has is_custom_attr l = true <-> is_custom a) /\ (forall mp, crate_is c a mp <-> mp = or_crate c (get_crate_name l)).
Proof.
  unfold typedef_attrs_of. intros H. apply ubind_ok in H as (l' & P & H). apply ubind_ok in H as (u & L & H). injection H as ->.
  apply bail_if_ok in L. apply Nat.ltb_ge in L.
  destruct (parse_only _ _ _ _ typedef_agrees P) as ((_ & F) & M).
  unfold typedef_attrs, is_custom, crate_is, flag, is_set. destruct (attrs_of a) as [|w ws] eqn:E.
  - inversion M; subst l. repeat split; cbn.
    + left; reflexivity.
    + intros; discriminate.
    + intros [[] | (x & q & [])].
    + intros [(q & []) | [(q & []) | (_ & _ & X)]]. exact X.
    + intros ->. right; right. repeat split; intros m (q & []).
  - inversion M as [|? b ? bs Pb M']; subst. inversion M'; subst; [|cbn in L; lia]. clear M' M L P.
    inversion F; subst. pose proof (custom_written _ _ Pb) as CW. apply parses_iff in Pb.
    split; [|split].
    + right. exists w. split; [reflexivity|]. destruct H1 as [(x & [<- | []] & ->) | K]; [left; reflexivity | right; exact K].
    + cbn [has existsb]. rewrite orb_false_r. rewrite CW. split.
      * intros [-> | (x & q & ->)]; [left; left; reflexivity | right; exists x, q; left; reflexivity].
      * intros [[I | []] | (x & q & [I | []])]; [left | right; exists x, q]; exact I.
    + intros mp. destruct H1 as [(x & [<- | []] & ->) | (x & y & q & [<- | [<- | []]] & ->)].
      * assert (b = AtCustom None) as -> by (destruct b as [| | | | ? | | ? | ? | ? | | [z|] | | | |]; cbn [written] in Pb; try reflexivity; exfalso;
          repeat match goal with H : exists _, _ |- _ => destruct H as (? & H) end; discriminate Pb).
        cbn. split.
        -- intros [(q & [I | []]) | [(q & [I | []]) | (_ & _ & X)]]; [discriminate | discriminate | exact X].
        -- intros ->. right; right. repeat split; intros m (q & [I | []]); discriminate.
      * assert (b = AtExternal y) as -> by (destruct b as [| | | | ? | | ? | ? | ? | | [z|] | | | |]; cbn [written] in Pb;
          repeat match goal with H : exists _, _ |- _ => destruct H as (? & H) end; try discriminate Pb; injection Pb as -> ; reflexivity).
        cbn. split.
        -- intros [(q' & [I | []]) | [(q' & [I | []]) | (X & _ & _)]]; [injection I as -> _; reflexivity | discriminate |].
           exfalso. apply (X y). exists q. left; reflexivity.
        -- intros ->. left. exists q. left; reflexivity.
      * assert (b = AtCustom (Some y)) as -> by (destruct b as [| | | | ? | | ? | ? | ? | | [z|] | | | |]; cbn [written] in Pb;
          repeat match goal with H : exists _, _ |- _ => destruct H as (? & H) end; try discriminate Pb; injection Pb as -> ; reflexivity).
        cbn. split.
        -- intros [(q' & [I | []]) | [(q' & [I | []]) | (_ & X & _)]]; [discriminate | injection I as -> _; reflexivity |].
           exfalso. apply (X y). exists q. left; reflexivity.
        -- intros ->. right; left. exists q. left; reflexivity.
Qed.
Lemma typedef_parse a : typedef_attrs a -> exists l, typedef_attrs_of a = UOk l.
Proof.
  intros H. assert (OA : only typedef_attr a).
  { unfold only. destruct H as [-> | (w & -> & H)].
    - split; constructor.
    - split; [constructor; [intros []|constructor]|]. constructor; [|constructor].
      destruct H as [-> | H]; [left; exists "Custom"; split; [left; reflexivity | reflexivity] | right; exact H]. }
  destruct (only_parse _ _ _ typedef_agrees OA) as (r & E & M). exists r. unfold typedef_attrs_of. rewrite E. cbn [ubind].
  assert (L : Nat.ltb 1 (length r) = false).
  { apply Nat.ltb_ge. destruct H as [H | (w & H & _)]; rewrite H in M.
    - inversion M; subst. cbn. lia.
    - inversion M as [|? ? ? ? ? M']; subst. inversion M'; subst. cbn. lia. }
  rewrite L. reflexivity.
Qed.
Lemma outside_iff mp x w T : find_str w (outside mp x) = Some T <-> exists s, w = S_ s /\ stands_for mp x s T.
Proof.
  split.
  - intros H. apply find_str_in in H. unfold outside in H. cbn [In] in H.
    in_cases H; injection H as <- <-; (eexists; split; [reflexivity|]); constructor; cbn [In]; auto 8.
  - intros (s & -> & H). destruct H; cbn [In] in *;
      repeat match goal with X : _ \/ _ |- _ => destruct X as [X | X] | X : False |- _ => destruct X end; subst; reflexivity.
Qed.

(** *** Interfaces *)
Lemma iface_ok a l : iface_attrs a = UOk l ->
  only any_iface_attr a /\ Forall2 parses (attrs_of a) l /\ ~ (flag a "Remote" /\ flag a "WithForeign").
Proof.
  unfold iface_attrs. intros H. apply ubind_ok in H as (l' & P & H). apply ubind_ok in H as (u & _ & H).
  apply ubind_ok in H as (u' & R & H). injection H as ->. apply bail_if_ok in R.
  destruct (parse_only _ _ _ _ iface_agrees P) as (OA & M). split; [exact OA|]. split; [exact M|].
  intros (X & Y). unfold flag in X, Y. apply (has_remote _ _ M) in X. apply (has_foreign _ _ M) in Y. rewrite X, Y in R. discriminate.
Qed.
Lemma is_enum_iff a l : Forall2 parses (attrs_of a) l ->
  ((has is_enum l || has is_error l)%bool = true <-> flag a "Enum" \/ flag a "Error").
Proof. intros M. rewrite orb_true_iff. unfold flag. rewrite (has_enum _ _ M), (has_error _ _ M). reflexivity. Qed.
Lemma bool_no b P : (b = true <-> P) -> b = false -> ~ P.
Proof. intros H E K. apply H in K. congruence. Qed.
Lemma no_bool b P : (b = true <-> P) -> ~ P -> b = false.
Proof. intros H K. destruct b; [exfalso; apply K, H; reflexivity | reflexivity]. Qed.
Lemma imp_iff a l i : Forall2 parses (attrs_of a) l -> (object_impl l = UOk i <-> imp_is a i).
Proof.
  intros M. pose proof (has_trait _ _ M) as HT. pose proof (has_foreign _ _ M) as HF. unfold object_impl. split.
  - destruct (has is_trait l) eqn:E1, (has is_foreign l) eqn:E2; intros H; try discriminate; injection H as <-.
    + constructor; [apply HT | apply HF]; reflexivity.
    + constructor; [apply HT; reflexivity | exact (bool_no _ _ HF eq_refl)].
    + constructor; [exact (bool_no _ _ HT eq_refl) | exact (bool_no _ _ HF eq_refl)].
  - intros []; unfold flag in *.
    + rewrite (no_bool _ _ HT), (no_bool _ _ HF) by assumption. reflexivity.
    + rewrite (proj2 HT), (no_bool _ _ HF) by assumption. reflexivity.
    + rewrite (proj2 HT), (proj2 HF) by assumption. reflexivity.
Qed.
Lemma imp_fun a i j : imp_is a i -> imp_is a j -> i = j.
Proof. intros H K. destruct H, K; try reflexivity; contradiction. Qed.

(** *** The map of types *)
Definition ext (m n : tmap) : Prop := forall x T, find_str x m = Some T -> find_str x n = Some T.
Lemma add_type_ok x T m m' : add_type x T m = UOk m' ->
  find_str x m' = Some T /\ ext m m' /\ forall y U, find_str y m' = Some U -> y = x /\ U = T \/ find_str y m = Some U.
Proof.
  unfold add_type, ext. destruct (find_str x m) as [U|] eqn:E.
  - destruct (ty_eqb T U && _)%bool eqn:X; [|discriminate]. intros H; injection H as <-.
    apply andb_true_iff in X as (X & _). apply ty_eqb_sound in X. subst U. auto.
  - intros H; injection H as <-. cbn [find_str]. split; [|split].
    + destruct (bytes_eqb_spec x x); congruence.
    + intros y U F. destruct (bytes_eqb_spec y x); congruence.
    + intros y U. destruct (bytes_eqb_spec y x) as [->|]; intros F; [injection F as <-; left; auto | right; exact F].
Qed.
Lemma ext_refl m : ext m m. Proof. intros x T H; exact H. Qed.
Lemma ext_trans m n p : ext m n -> ext n p -> ext m p.
Proof. intros H K x T E. exact (K _ _ (H _ _ E)). Qed.
Lemma resolve_ext m n t T : ext m n -> resolve m t = UOk T -> resolve n t = UOk T.
Proof.
  intros X. revert T. induction t; intros T H; cbn [resolve] in *; try exact H.
  - destruct (find_str x builtin_types); [exact H|]. apply of_opt_ok in H. apply of_opt_ok. exact (X _ _ H).
  - apply ubind_ok in H as (U & E & H). rewrite (IHt _ E). exact H.
  - apply ubind_ok in H as (K & E & H). apply ubind_ok in H as (V & E' & H). injection H as <-.
    assert (Y : match t1 with WDom => UOk TString | _ => resolve n t1 end = UOk K) by (destruct t1; first [exact (IHt1 _ E) | exact E]).
    rewrite Y. cbn [ubind]. rewrite (IHt2 _ E'). reflexivity.
  - apply ubind_ok in H as (U & E & H). rewrite (IHt _ E). exact H.
Qed.

Section Found.
  Variables (c : str) (file : list def).
  Hypothesis NS : unshadowed file.
  Definition sound (m : tmap) : Prop := forall x T, find_str x m = Some T -> declares c file x T.
  Lemma builtin_iff x T : find_str x builtin_types = Some T <-> exists s, x = S_ s /\ In (s, T) builtins.
  Proof.
    split.
    - intros H. apply find_str_in in H. unfold builtin_types in H. cbn [In] in H.
      in_cases H; injection H as <- <-; (eexists; split; [reflexivity|]); cbn [In builtins]; auto 20.
    - intros (s & -> & H). unfold builtins in H. cbn [In] in H. in_cases H; injection H as <- <-; reflexivity.
  Qed.
  Lemma declares_declared x T : declares c file x T -> is_declared file x.
  Proof. intros H. destruct H; (eexists; split; [eassumption|reflexivity]). Qed.
  Lemma resolve_sound m t T : sound m -> resolve m t = UOk T -> type_is c file t T.
  Proof.
    intros X. revert T. induction t; intros T H; cbn [resolve] in H; try discriminate H.
    - destruct (find_str x builtin_types) as [U|] eqn:E.
      + injection H as <-. apply builtin_iff in E as (s & -> & I). exact (ti_builtin _ _ _ _ I (NS _ _ I)).
      + apply of_opt_ok in H. apply ti_own. exact (X _ _ H).
    - injection H as <-. constructor.
    - destruct unrestricted; [discriminate|]. injection H as <-. constructor.
    - destruct unrestricted; [discriminate|]. injection H as <-. constructor.
    - apply ubind_ok in H as (U & E & H). injection H as <-. constructor. exact (IHt _ E).
    - apply ubind_ok in H as (K & E & H). apply ubind_ok in H as (V & E' & H). injection H as <-.
      constructor; [|exact (IHt2 _ E')]. destruct t1; try (apply ki_type; exact (IHt1 _ E)). injection E as <-. constructor.
    - apply ubind_ok in H as (U & E & H). injection H as <-. constructor. exact (IHt _ E).
  Qed.

  (** What a definition gives. *)
  Definition gives (m : tmap) (d : def) (T : ty) : Prop :=
    match d with
    | DIface a x _ _ _ => exists l, iface_attrs a = UOk l /\
        if (has is_enum l || has is_error l)%bool then T = TEnum c x else exists i, object_impl l = UOk i /\ T = TObject c x i
    | DDict _ x _ _ _ => T = TRecord c x
    | DEnum _ x _ _ => T = TEnum c x
    | DCallback a x _ _ _ => a = None /\ T = TCallback c x
    | DTypedef a t x => exists l, typedef_attrs_of a = UOk l /\
        if has is_custom_attr l then exists b, resolve m t = UOk b /\ T = TCustom (or_crate c (get_crate_name l)) x b
        else exists w, ident_of t = Some w /\ find_str w (outside (or_crate c (get_crate_name l)) x) = Some T
    | DNamespace _ _ _ _ | DOther => False
    end.
  Lemma find_def_ok d m m' : find_def c d m = UOk m' ->
    match def_name d with
    | Some x => exists T, gives m d T /\ add_type x T m = UOk m'
    | None => m' = m
    end.
  Proof.
    destruct d as [a x doc ms | a x doc vs | a x i doc fs | a x i doc ms | a x i doc ms | a t x |]; cbn [find_def def_name gives]; intros H.
    - injection H as <-. reflexivity.
    - exists (TEnum c x). auto.
    - exists (TRecord c x). auto.
    - apply ubind_ok in H as (l & E & H). destruct (has is_enum l || has is_error l)%bool eqn:B.
      + exists (TEnum c x). split; [|exact H]. exists l. rewrite B. auto.
      + apply ubind_ok in H as (j & E' & H). exists (TObject c x j). split; [|exact H]. exists l. rewrite B. eauto.
    - destruct a; [discriminate|]. exists (TCallback c x). auto.
    - apply ubind_ok in H as (l & E & H). apply ubind_ok in H as (T & E' & H). exists T. split; [|exact H]. exists l.
      split; [exact E|]. destruct (has is_custom_attr l).
      + apply ubind_ok in E' as (b & E' & K). injection K as <-. eauto.
      + apply ubind_ok in E' as (w & E' & K). apply of_opt_ok in E', K. eauto.
    - injection H as <-. reflexivity.
  Qed.
  Lemma gives_ext m n d T : ext m n -> gives m d T -> gives n d T.
  Proof.
    intros X. destruct d as [a x doc ms | a x doc vs | a x i doc fs | a x i doc ms | a x i doc ms | a t x |]; cbn [gives]; try (intros H; exact H).
    intros (l & E & H). exists l. split; [exact E|]. destruct (has is_custom_attr l); [|exact H].
    destruct H as (b & R & K). exists b. split; [exact (resolve_ext _ _ _ _ X R) | exact K].
  Qed.
  Lemma gives_fun m d T U : gives m d T -> gives m d U -> T = U.
  Proof.
    destruct d as [a x doc ms | a x doc vs | a x i doc fs | a x i doc ms | a x i doc ms | a t x |]; cbn [gives]; try congruence; try tauto.
    - intros (l & E & H) (l' & E' & H'). rewrite E in E'. injection E' as <-. destruct (_ || _)%bool; [congruence|].
      destruct H as (j & A & ->), H' as (j' & A' & ->). congruence.
    - intros (_ & ->) (_ & ->). reflexivity.
    - intros (l & E & H) (l' & E' & H'). rewrite E in E'. injection E' as <-. destruct (has is_custom_attr l).
      + destruct H as (b & A & ->), H' as (b' & A' & ->). congruence.
      + destruct H as (w & A & B), H' as (w' & A' & B'). congruence.
  Qed.
  Lemma gives_sound m d x T : sound m -> In d file -> def_name d = Some x -> gives m d T -> declares c file x T.
  Proof.
    intros X I N. destruct d as [a y doc ms | a y doc vs | a y i doc fs | a y i doc ms | a y i doc ms | a t y |]; cbn [def_name] in N; try discriminate;
      injection N as ->; cbn [gives].
    - intros ->. exact (dc_enum _ _ _ _ _ _ I).
    - intros ->. exact (dc_dict _ _ _ _ _ _ _ I).
    - intros (l & E & H). destruct (iface_ok _ _ E) as (OA & M & _). pose proof (is_enum_iff _ _ M) as B.
      destruct (_ || _)%bool.
      + subst T. apply (dc_enum_iface _ _ _ _ _ _ _ I). apply B. reflexivity.
      + destruct H as (j & O1 & ->). apply (dc_object _ _ _ _ _ _ _ _ I); [| |apply (imp_iff _ _ _ M); exact O1];
          intros F; apply (bool_no _ _ B eq_refl); auto.
    - intros (-> & ->). exact (dc_callback _ _ _ _ _ _ _ I).
    - intros (l & E & H). destruct (typedef_ok c a l E) as (TA & CU & CR). destruct (has is_custom_attr l).
      + destruct H as (b & R & ->). apply (dc_custom _ _ _ _ _ _ _ I TA); [apply CU; reflexivity | apply CR; reflexivity | exact (resolve_sound _ _ _ X R)].
      + destruct H as (w & ID & F). apply outside_iff in F as (s & -> & F).
        apply (dc_outside _ _ _ _ _ s (or_crate c (get_crate_name l)) _ I TA); [exact (bool_no _ _ CU eq_refl) | apply CR; reflexivity | apply ident_named; exact ID | exact F].
  Qed.
  Lemma find_defs_ok ds : incl ds file -> forall m m', sound m -> find_defs c ds m = UOk m' ->
    sound m' /\ ext m m' /\
    forall d x, In d ds -> def_name d = Some x -> exists T, find_str x m' = Some T /\ gives m' d T.
  Proof.
    induction ds as [|d ds IH]; intros IN m m' X H; cbn [find_defs] in H.
    - injection H as <-. repeat split; [exact X | apply ext_refl | intros d x []].
    - apply ubind_ok in H as (n & E & H). pose proof (find_def_ok _ _ _ E) as F.
      assert (X' : sound n /\ ext m n /\ forall x, def_name d = Some x -> exists T, find_str x n = Some T /\ gives m d T).
      { destruct (def_name d) as [x|] eqn:N.
        - destruct F as (T & G & A). apply add_type_ok in A as (A & Y & B). split; [|split].
          + intros y U FU. destruct (B _ _ FU) as [(-> & ->) | P]; [|exact (X _ _ P)].
            exact (gives_sound _ _ _ _ X (IN _ (or_introl eq_refl)) N G).
          + exact Y.
          + intros y Ey. injection Ey as <-. eauto.
        - subst n. repeat split; [exact X | apply ext_refl | discriminate]. }
      destruct X' as (X1 & X2 & X3).
      destruct (IH (fun y I => IN y (or_intror I)) n m' X1 H) as (Y1 & Y2 & Y3).
      split; [exact Y1|]. split; [exact (ext_trans _ _ _ X2 Y2)|].
      intros e x [<- | I] N.
      + destruct (X3 x N) as (T & FT & G). exists T. split; [exact (Y2 _ _ FT)|]. exact (gives_ext _ _ _ _ (ext_trans _ _ _ X2 Y2) G).
      + exact (Y3 e x I N).
  Qed.

  Variable m : tmap.
  Hypothesis FD : find_defs c file [] = UOk m.
  Lemma sound_nil : sound []. Proof. intros x T H. discriminate. Qed.
  Lemma m_sound : sound m. Proof. exact (proj1 (find_defs_ok file (fun _ I => I) [] m sound_nil FD)). Qed.
  Lemma m_gives d x : In d file -> def_name d = Some x -> exists T, find_str x m = Some T /\ gives m d T.
  Proof. exact (proj2 (proj2 (find_defs_ok file (fun _ I => I) [] m sound_nil FD)) d x). Qed.
  Lemma m_found d x T : In d file -> def_name d = Some x -> gives m d T -> find_str x m = Some T.
  Proof. intros I N G. destruct (m_gives d x I N) as (U & F & G'). rewrite (gives_fun _ _ _ _ G G'). exact F. Qed.

  Scheme type_is_mut := Minimality for type_is Sort Prop
    with key_is_mut := Minimality for key_is Sort Prop
    with declares_mut := Minimality for declares Sort Prop.
  Combined Scheme types_mut from type_is_mut, key_is_mut, declares_mut.

  Lemma complete :
    (forall t T, type_is c file t T -> resolve m t = UOk T) /\
    (forall k K, key_is c file k K -> match k with WDom => UOk TString | _ => resolve m k end = UOk K) /\
    (forall x T, declares c file x T -> find_str x m = Some T).
  Proof.
    apply types_mut.
    - intros x T D F. cbn [resolve]. destruct (find_str x builtin_types) as [U|] eqn:E.
      + exfalso. apply builtin_iff in E as (s & -> & I). exact (NS _ _ I (declares_declared _ _ D)).
      + rewrite F. reflexivity.
    - intros x t I _. cbn [resolve]. rewrite (proj2 (builtin_iff (S_ x) t)); [reflexivity | eauto].
    - reflexivity.
    - reflexivity.
    - reflexivity.
    - intros t T _ H. cbn [resolve]. rewrite H. reflexivity.
    - intros t T _ H. cbn [resolve]. rewrite H. reflexivity.
    - intros k K v V _ HK _ HV. cbn [resolve]. rewrite HK. cbn [ubind]. rewrite HV. reflexivity.
    - reflexivity.
    - intros t T _ H. destruct t; try exact H. discriminate H.
    - intros a x i doc fs I. exact (m_found _ _ _ I eq_refl eq_refl).
    - intros a x doc vs I. exact (m_found _ _ _ I eq_refl eq_refl).
    - intros a x i doc ms I F. apply (m_found _ _ _ I eq_refl). destruct (m_gives _ _ I eq_refl) as (T & _ & (l & E & H)).
      cbn [gives]. exists l. split; [exact E|]. destruct (iface_ok _ _ E) as (_ & M & _). rewrite (proj2 (is_enum_iff _ _ M) F). reflexivity.
    - intros a x i doc ms imp I N1 N2 IM. apply (m_found _ _ _ I eq_refl). destruct (m_gives _ _ I eq_refl) as (T & _ & (l & E & H)).
      cbn [gives]. exists l. split; [exact E|]. destruct (iface_ok _ _ E) as (_ & M & _).
      rewrite (no_bool _ _ (is_enum_iff _ _ M)) by (intros [K | K]; auto). exists imp. split; [apply (imp_iff _ _ _ M); exact IM | reflexivity].
    - intros a x i doc ms I. apply (m_found _ _ _ I eq_refl). destruct (m_gives _ _ I eq_refl) as (T & _ & (-> & _)). cbn. auto.
    - intros a t x mp b I TA CU CR _ R. apply (m_found _ _ _ I eq_refl). destruct (typedef_parse _ TA) as (l & E).
      destruct (typedef_ok c a l E) as (_ & CU' & CR'). cbn [gives]. exists l. split; [exact E|]. rewrite (proj2 CU' CU).
      exists b. split; [exact R|]. apply CR' in CR. subst mp. reflexivity.
    - intros a t x w mp T I TA CU CR N S1. apply (m_found _ _ _ I eq_refl). destruct (typedef_parse _ TA) as (l & E).
      destruct (typedef_ok c a l E) as (_ & CU' & CR'). cbn [gives]. exists l. split; [exact E|]. rewrite (no_bool _ _ CU' CU).
      exists (S_ w). split; [apply ident_named; exact N|]. apply CR' in CR. subst mp. apply outside_iff. eauto.
  Qed.
  Lemma resolve_iff t T : resolve m t = UOk T <-> type_is c file t T.
  Proof. split; [exact (resolve_sound m t T m_sound) | exact (proj1 complete t T)]. Qed.
  Lemma find_iff x T : find_str x m = Some T <-> declares c file x T.
  Proof. split; [exact (m_sound x T) | exact (proj2 (proj2 complete) x T)]. Qed.
End Found.
