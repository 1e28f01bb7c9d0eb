(** When the pipeline accepts what the component interface accepts. *)
From Verif Require Import Base Meta_Types Meta_Eq Group_Model Api_Types Api_Spec Api_Model Api_Accept Api_Iface Api_Said Api_Pipe Api_Tree Api_Claims Api_Agree.
From Verif Require Import Univ_Model Univ_Spec Univ_Proofs.
From Coq Require Import Permutation Sorted.
From Verif Require Names_Model.

(** ** The converter *)

Definition agree (m m' : metadata) : Prop :=
  m = m' \/ exists mp n b doc doc', m = MCustom mp n b doc /\ m' = MCustom mp n b doc'.

Lemma add_item_ok seen st m : inv seen st ->
  (forall c n, m = MNamespace c n -> forall c', In (MNamespace c' n) seen -> c' = c) ->
  (is_namespace m = false -> (exists a b c, m = MUdlFile a b c) \/ key_of m <> None) ->
  (forall m', In m' seen -> key_of m' = key_of m -> key_of m <> None -> agree m' m) ->
  exists st', add_metadata_item m st = Ok st'.
Proof.
  intros I NS KN AG.
  assert (UNIQ : forall k, key_of m = Some k -> is_custom m = false -> exists l, insert_unique k m (c_entries st) = Ok l).
  { intros k KM CM. unfold insert_unique. destruct (find_key k (c_entries st)) as [m'|] eqn:F; [|eauto].
    apply find_key_in in F. destruct (i_entry _ _ I k m' F) as [S K].
    destruct (metadata_eq_dec m' m) as [-> | NE]; [eauto|].
    destruct (AG m' S ltac:(congruence) ltac:(congruence)) as [-> | (mp & n & b & doc & doc' & -> & ->)]; [contradiction | discriminate]. }
  destruct (is_namespace m) eqn:NM.
  - destruct m; try discriminate. cbn [add_metadata_item]. unfold add_namespace.
    destruct (find_str name (c_spaces st)) as [c'|] eqn:F; [|eauto].
    apply find_str_in in F. apply (i_space _ _ I) in F. destruct (str_eq_dec c' crate_name) as [-> | NE]; [eauto|].
    exfalso. apply NE. exact (NS _ _ eq_refl c' F).
  - destruct (KN eq_refl) as [(a & b & c & ->) | K]; [cbn; eauto|].
    destruct (key_of m) as [k|] eqn:KM; [|contradiction].
    destruct (is_custom m) eqn:CM.
    + destruct m as [ | | | | | | | | | |mp n b doc| | ]; try discriminate. cbn [add_metadata_item]. rewrite KM.
      unfold insert_custom. destruct (find_key k (c_entries st)) as [m'|] eqn:F; [|cbn [bind]; eauto].
      apply find_key_in in F. destruct (i_entry _ _ I k m' F) as [S K'].
      destruct (AG m' S K' ltac:(discriminate)) as [-> | (mp' & n' & b' & doc1 & doc2 & -> & Q)].
      * destruct (ty_eq_dec b b); [|contradiction]. destruct (str_eq_dec mp mp); [|contradiction].
        destruct doc; cbn [bind]; eauto.
      * injection Q as -> -> -> ->. destruct (ty_eq_dec b' b'); [|contradiction]. destruct (str_eq_dec mp' mp'); [|contradiction].
        destruct doc2, doc1; cbn [bind]; eauto.
    + destruct (UNIQ k eq_refl eq_refl) as (l & E).
      destruct m; try discriminate; cbn [add_metadata_item]; rewrite KM, E; cbn [bind]; eauto.
Qed.

Lemma add_all_ok all : 
  (forall c c' n, In (MNamespace c n) all -> In (MNamespace c' n) all -> c' = c) ->
  (forall m, In m all -> is_namespace m = false -> (exists a b c, m = MUdlFile a b c) \/ key_of m <> None) ->
  (forall m m', In m all -> In m' all -> key_of m' = key_of m -> key_of m <> None -> agree m' m) ->
  forall post pre st, all = pre ++ post -> inv pre st -> exists st', add_all post st = Ok st'.
Proof.
  intros NS KN AG. induction post as [|m post IH]; intros pre st E I; cbn [add_all]; [eauto|].
  assert (J : In m all) by (rewrite E; apply in_or_app; right; left; reflexivity).
  assert (SUB : forall x, In x pre -> In x all) by (intros x X; rewrite E; apply in_or_app; left; exact X).
  destruct (add_item_ok pre st m I) as (st' & A).
  - intros c n -> c' X. exact (NS c c' n J (SUB _ X)).
  - exact (KN m J).
  - intros m' X K N. exact (AG m m' J (SUB _ X) K N).
  - rewrite A. cbn [bind]. apply (IH (pre ++ [m]) st'); [rewrite <- app_assoc; exact E | exact (add_item_inv _ _ _ _ I A)].
Qed.

(** ** Keys tell items apart *)

Lemma label_trait u u' : trait_name_of u = trait_name_of u' -> label_of (MUniffiTrait u) = label_of (MUniffiTrait u').
Proof. destruct u, u'; intros E; try reflexivity; vm_compute in E; discriminate. Qed.

Lemma same_key m m' : key_of m = key_of m' -> key_of m <> None ->
  (exists f f', m = MFunc f /\ m' = MFunc f' /\ path_crate (f_mp f) = path_crate (f_mp f') /\ f_name f = f_name f') \/
  (defines m <> None /\ defines m = defines m') \/
  (role_of m <> None /\ role_of m = role_of m' /\ written_for m = written_for m' /\ label_of m = label_of m').
Proof.
  intros E N.
  assert (IMPL : forall t u, key_of (MTraitImpl t u) = None \/
            exists mp n, key_of (MTraitImpl t u) = Some (KImpl (path_crate mp) n u) /\ written_for (MTraitImpl t u) = Some (path_crate mp, n)).
  { intros t u. cbn [key_of]. destruct (type_module_path t) as [mp|] eqn:A; [|auto]. destruct (type_name t) as [n|] eqn:B; [|auto].
    right. exists mp, n. split; [reflexivity|]. exact (impl_written t u mp n A B). }
  destruct m as [ | |f|o|mp n doc|r|e|self f|self f|self ix f|mp n b doc|u|t tt],
           m' as [ | |f'|o'|mp' n' doc'|r'|e'|self' f'|self' f'|self' ix' f'|mp' n' b' doc'|u'|t' tt'];
    try (exfalso; apply N; reflexivity); try discriminate;
    try (match type of E with
         | key_of (MTraitImpl _ _) = key_of (MTraitImpl _ _) => fail 1
         | _ = key_of (MTraitImpl ?a ?b) => destruct (IMPL a b) as [Q | (? & ? & Q & _)]; rewrite Q in E; discriminate
         | key_of (MTraitImpl ?a ?b) = _ => destruct (IMPL a b) as [Q | (? & ? & Q & _)];
             [exfalso; exact (N Q) | rewrite Q in E; discriminate]
         end).
  - left. cbn [key_of] in E. injection E as A B. exists f, f'. auto.
  - right; left. cbn [key_of] in E. injection E as A B. split; [discriminate|]. unfold defines, crate_of. cbn [defined_at]. unfold path_crate in A. congruence.
  - right; left. cbn [key_of] in E. injection E as A B. split; [discriminate|]. unfold defines, crate_of. cbn [defined_at]. unfold path_crate in A. congruence.
  - right; left. cbn [key_of] in E. injection E as A B. split; [discriminate|]. unfold defines, crate_of. cbn [defined_at]. unfold path_crate in A. congruence.
  - right; left. cbn [key_of] in E. injection E as A B. split; [discriminate|]. unfold defines, crate_of. cbn [defined_at]. unfold path_crate in A. congruence.
  - right; right. cbn [key_of] in E. injection E as A B C. repeat split; [discriminate| |]; cbn [written_for label_of]; unfold crate_of, path_crate in *; congruence.
  - right; right. cbn [key_of] in E. injection E as A B C. repeat split; [discriminate| |]; cbn [written_for label_of]; unfold crate_of, path_crate in *; congruence.
  - right; right. cbn [key_of] in E. injection E as A B C. repeat split; [discriminate| |]; cbn [written_for label_of]; unfold crate_of, path_crate in *; congruence.
  - right; left. cbn [key_of] in E. injection E as A B. split; [discriminate|]. unfold defines, crate_of. cbn [defined_at]. unfold path_crate in A. congruence.
  - right; right. cbn [key_of] in E. injection E as A B C. repeat split; [discriminate | |exact (label_trait u u' C)].
    rewrite !utrait_written. congruence.
  - right; right. destruct (IMPL t tt) as [Q | (mp & n & Q & W)]; [rewrite Q in N; contradiction|].
    destruct (IMPL t' tt') as [Q' | (mp' & n' & Q' & W')]; rewrite Q, Q' in E; [discriminate|]. injection E as A B C.
    repeat split; [discriminate | rewrite W, W'; congruence | cbn [label_of]; congruence].
Qed.

Lemma functions_once items i f f' : add_metadata items = Ok i -> In (MFunc f) items -> In (MFunc f') items ->
  f_name f = f_name f' -> f = f'.
Proof.
  intros H J J' N. unfold add_metadata in H. step H. step H. apply add_types_functions in E.
  assert (N0 : NoDup (functions a)) by (rewrite E; constructor).
  destruct (add_items_functions _ _ _ E0 N0) as [ND FN]. rewrite FN, E in ND. cbn [functions empty] in ND. rewrite app_nil_r in ND.
  apply NoDup_rev in ND. rewrite rev_involutive in ND.
  assert (X := flat_map_once _ _ ND (MFunc f) (MFunc f') (f_name f) J J' (or_introl eq_refl) (or_introl (eq_sym N))).
  congruence.
Qed.

Lemma kinds m : (exists a b c, m = MUdlFile a b c) \/ (exists f, m = MFunc f) \/ defines m <> None \/ role_of m <> None \/ is_namespace m = true.
Proof. destruct m; eauto; right; right; try (left; discriminate); right; try (left; discriminate); right; reflexivity. Qed.

Section Ready.
  Variable gs : list group.
  Hypothesis GR : grouped gs.
  Hypothesis ND : no_dashes gs.
  Hypothesis CT : crates_there gs.
  Hypothesis NSP : NoDup (map g_namespace gs).
  Hypothesis HY : forall g, In g gs -> plain_constructors (g_items g) /\ objects_differ (g_items g).
  Hypothesis ME : forall g, In g gs -> members_differ (g_items g) /\ not_mixed (g_items g).
  Hypothesis AC : forall g, In g gs -> accepted g.

  Lemma accepted_agree g m m' : In g gs -> In m (g_items g) -> In m' (g_items g) -> key_of m' = key_of m -> key_of m <> None -> agree m' m.
  Proof.
    intros J K K' E N. destruct (AC g J) as (a & A). destruct (interface_ok _ _ A) as (i & H). destruct (HY g J) as [PC OD].
    destruct (same_key m' m E ltac:(congruence)) as [(f & f' & -> & -> & _ & F) | [[D F] | (R & R' & W & L)]].
    - left. f_equal. exact (functions_once _ _ _ _ H K' K F).
    - exact (accepted_types_differ g i (group_of gs GR g J) PC OD H m' m K' K D F).
    - left. exact (proj1 (ME g J) m' m K' K R R' W L).
  Qed.

  Lemma key_crate g m k : In g gs -> In m (g_items g) -> key_of m = Some k ->
    match k with
    | KFunction c _ | KRecord c _ | KEnum c _ | KObject c _ | KCallback c _ | KCustom c _ | KConstructor c _ _
    | KMethod c _ _ | KTraitMethod c _ _ | KTrait c _ _ | KImpl c _ _ => c = g_crate g
    end.
  Proof.
    intros J K E. assert (C := fun mp M => of_group_crate g m mp (group_of gs GR g J) K M).
    destruct m; cbn [key_of] in E; try discriminate; try (injection E as <-; exact (C _ eq_refl)).
    destruct t; cbn in E; try discriminate; injection E as <-; rewrite <- (C _ eq_refl); symmetry; apply crate_twice.
  Qed.

  Lemma converter_ready : exists st, add_groups gs (Converter [] [] [] []) = Ok st.
  Proof.
    rewrite add_groups_stream. apply (add_all_ok (stream gs)) with (pre := []); [ | | |reflexivity | exact inv_nil].
    - intros c c' n A B. apply (namespace_in_stream gs GR) in A, B. destruct A as (g & J & <- & N), B as (g' & J' & <- & N').
      f_equal. clear -NSP J J' N N'. induction gs as [|x l IH]; [destruct J|]. cbn [map] in NSP. apply NoDup_cons_iff in NSP as [X0 X].
      destruct J as [-> | J], J' as [-> | J']; auto.
      + exfalso. apply X0. rewrite N, <- N'. apply in_map. exact J'.
      + exfalso. apply X0. rewrite N', <- N. apply in_map. exact J.
    - intros m J NN. apply (in_stream gs m NN) in J. destruct (kinds m) as [(a & b & c & ->) | [(f & ->) | [D | [R | X]]]]; [left; eauto| | |  |congruence].
      + right. discriminate.
      + right. destruct m; try (exfalso; apply D; reflexivity); discriminate.
      + right. destruct (role_of m) as [r|] eqn:RM; [|contradiction]. exact (proj1 (role_key gs GR m r RM J)).
    - intros m m' J J' E N.
      assert (NN : is_namespace m = false) by (destruct m; try reflexivity; exfalso; apply N; reflexivity).
      assert (NN' : is_namespace m' = false) by (destruct m'; try reflexivity; exfalso; apply N; rewrite <- E; reflexivity).
      apply (in_stream gs m NN) in J. apply (in_stream gs m' NN') in J'.
      destruct (proj1 (in_flat_map _ _ _) J) as (g & G & K). destruct (proj1 (in_flat_map _ _ _) J') as (g' & G' & K').
      destruct (key_of m) as [k|] eqn:KM; [|contradiction].
      assert (C := key_crate g m k G K KM). assert (C' := key_crate g' m' k G' K' E).
      assert (GG : g' = g) by (apply (same_group gs GR g' g G' G); destruct k; congruence). subst g'.
      apply (accepted_agree g m m' G K K'); congruence.
  Qed.

  Section Tree.
    Variable st : converter.
    Hypothesis I : inv (stream gs) st.

    Lemma namespace_ready mp : no_dash (crate_of mp) -> In (crate_of mp) (map g_crate gs) -> exists ns, namespace_of st mp = Ok ns.
    Proof.
      intros N J. apply in_map_iff in J. destruct J as (g & C & J). exists (g_namespace g).
      exact (namespace_group gs st GR (proj1 ND) I g mp J (eq_sym C)).
    Qed.

    Lemma map_type_ready t : (forall c, In c (crates_in t) -> no_dash c /\ In c (map g_crate gs)) -> exists i, map_type st t = Ok i.
    Proof.
      induction t; intros H; cbn [map_type crates_in] in *; eauto.
      all: try (destruct (IHt H) as (i & ->); cbn [bind]; eauto; fail).
      all: try (destruct (namespace_ready mp (proj1 (H _ (or_introl eq_refl))) (proj2 (H _ (or_introl eq_refl)))) as (ns & ->); cbn [bind]; eauto; fail).
      - destruct (IHt1 (fun c X => H c (in_or_app _ _ _ (or_introl X)))) as (i & ->).
        destruct (IHt2 (fun c X => H c (in_or_app _ _ _ (or_intror X)))) as (j & ->). cbn [bind]. eauto.
      - destruct (namespace_ready mp (proj1 (H _ (or_introl eq_refl))) (proj2 (H _ (or_introl eq_refl)))) as (ns & ->).
        destruct (IHt (fun c X => H c (or_intror X))) as (i & ->). cbn [bind]. eauto.
    Qed.

    Lemma map_all_ready {A B} (f : A -> res B) l : (forall a, In a l -> exists b, f a = Ok b) -> exists r, map_all f l = Ok r.
    Proof.
      induction l as [|a l IH]; intros H; cbn [map_all]; [eauto|]. destruct (H a (or_introl eq_refl)) as (b & ->).
      destruct (IH (fun x X => H x (or_intror X))) as (r & ->). cbn [bind]. eauto.
    Qed.

    Lemma map_node_ready m : In m (all_items gs) -> exists s, map_node st m = Ok s.
    Proof.
      intros J. unfold map_node. rewrite types_written.
      destruct (map_all_ready (map_type st) (written m)) as (ts & ->); [|cbn [bind]; eauto].
      intros t T. apply map_type_ready. intros c C. split; [exact (proj2 ND m t c J T C) | exact (CT m t c J T C)].
    Qed.
    Lemma entries_ready p : exists r, map_all (map_node st) (entries_where p st) = Ok r.
    Proof.
      apply map_all_ready. intros m J. apply map_node_ready. unfold entries_where in J. apply in_map_iff in J.
      destruct J as ([k x] & <- & J). apply filter_In in J. exact (proj1 (entry_all gs st I k x (proj1 J))).
    Qed.

    Lemma methods_ready mp n : exists r, methods_for_type st mp n = Ok r.
    Proof.
      unfold methods_for_type. set (pm := fun k => match k with KMethod c' o _ => eqb2 (path_crate mp) n c' o | _ => false end).
      set (pt := fun k => match k with KTraitMethod c' o _ => eqb2 (path_crate mp) n c' o | _ => false end).
      assert (SORT : exists r, map_all (map_node st) (sort_by_index (entries_where pt st)) = Ok r).
      { apply map_all_ready. intros m J. apply (Permutation_in _ (sort_perm _)) in J. apply map_node_ready. unfold entries_where in J.
        apply in_map_iff in J. destruct J as ([k x] & <- & J). apply filter_In in J. exact (proj1 (entry_all gs st I k x (proj1 J))). }
      destruct (entries_where pm st) as [|m0 l0] eqn:E; [exact SORT|].
      destruct (entries_where pt st) as [|t0 l1] eqn:E'; [|exfalso].
      - rewrite <- E. apply entries_ready.
      - assert (A : In m0 (entries_where pm st)) by (rewrite E; left; reflexivity).
        assert (B : In t0 (entries_where pt st)) by (rewrite E'; left; reflexivity).
        unfold entries_where in A, B. apply in_map_iff in A, B. destruct A as ([k x] & <- & A), B as ([k' x'] & <- & B).
        apply filter_In in A, B. destruct A as [A PA], B as [B PB]. cbn [fst snd] in *.
        destruct (entry_all gs st I k x A) as [K KM]. destruct (entry_all gs st I k' x' B) as [K' KM'].
        unfold pm in PA. unfold pt in PB. destruct k; try discriminate. destruct k'; try discriminate.
        apply eqb2_spec in PA. apply eqb2_spec in PB. destruct PA as [<- <-], PB as [<- <-].
        destruct (proj1 (in_flat_map _ _ _) K) as (g & G & KG). destruct (proj1 (in_flat_map _ _ _) K') as (g' & G' & KG').
        assert (C := key_crate g _ _ G KG KM). assert (C' := key_crate g' _ _ G' KG' KM'). cbn in C, C'.
        assert (GG : g' = g) by (apply (same_group gs GR g' g G' G); congruence). subst g'.
        assert (M : exists f, x = MMethod n f /\ path_crate (f_mp f) = path_crate mp).
        { destruct x; cbn [key_of] in KM; try discriminate; [injection KM as Q1 Q2 _; subst; eauto|].
          destruct (type_module_path t), (type_name t); discriminate. }
        assert (M' : exists ix f, x' = MTraitMethod n ix f /\ path_crate (f_mp f) = path_crate mp).
        { destruct x'; cbn [key_of] in KM'; try discriminate; [injection KM' as Q1 Q2 _; subst; eauto|].
          destruct (type_module_path t), (type_name t); discriminate. }
        destruct M as (f & -> & F), M' as (ix & f' & -> & F').
        apply (proj2 (ME g G) _ _ KG KG' eq_refl eq_refl). cbn [written_for]. unfold crate_of, path_crate in *. congruence.
    Qed.

    Lemma place_ready e : In e (c_entries st) -> exists x, place st e = Ok x.
    Proof.
      destruct e as [k m]. intros J. destruct (entry_all gs st I k m J) as [K KM].
      destruct (proj1 (in_flat_map _ _ _) K) as (g & G & KG).
      assert (NS : forall mp, module_path m = Ok mp -> namespace_of st (path_crate mp) = Ok (g_namespace g)).
      { intros mp M. apply (namespace_group gs st GR (proj1 ND) I g _ G).
        rewrite <- (of_group_crate g m mp (group_of gs GR g G) KG M). apply crate_twice. }
      destruct (map_node_ready m K) as (s & S).
      destruct m; cbn [place snd]; eauto; rewrite (NS _ eq_refl); cbn [bind];
        unfold map_interface, map_callback_interface, map_data, map_custom_type,
               constructors_for_type, uniffi_traits_for_type, trait_impls_for_type.
      all: repeat match goal with
           | |- context [map_all (map_node st) (entries_where ?p st)] => destruct (entries_ready p) as (? & ->); cbn [bind]
           | |- context [methods_for_type st ?mp ?n] => destruct (methods_ready mp n) as (? & ->); cbn [bind]
           end.
      all: rewrite S; cbn [bind]; eauto.
    Qed.
  End Tree.

  Lemma pipeline_ready : exists r, pipeline gs = Ok r.
  Proof.
    unfold pipeline. destruct converter_ready as (st & E). rewrite E. cbn [bind].
    assert (I := converter_inv gs st E). unfold try_into_initial_ir.
    destruct (map_all_ready (place st) (c_entries st) (place_ready st I)) as (nodes & ->). cbn [bind]. eauto.
  Qed.
End Ready.

(** ** The statements *)

Lemma interface_true_proof : interface_true (fun items => objects_differ items /\ numbered items).
Proof. intros g a G PC [OD NU] H. exact (interface_says g a G PC OD NU H). Qed.

Lemma pipeline_true_proof : pipeline_true (fun items => owned items /\ types_differ items /\ numbered items).
Proof.
  intros gs r GR ND HY H. split; [exact (pipeline_spaces gs r GR H)|]. intros g n J K C.
  exact (pipeline_says gs r g n GR (proj1 ND) (fun g J => proj1 (HY g J)) (fun g J => proj1 (proj2 (HY g J)))
           (fun g J => proj2 (proj2 (HY g J))) H J K C).
Qed.

Lemma types_true_proof : types_true no_dashes (fun items => types_differ items /\ functions_differ items).
Proof.
  intros gs r n GR ND HY H K. exact (pipeline_typed gs r n GR ND (fun g J => proj1 (HY g J)) (fun g J => proj2 (HY g J)) H K).
Qed.

Lemma builders_agree_proof : builders_agree (fun items => objects_differ items /\ numbered items).
Proof. intros gs r GR ND HY AC H. exact (both_agree gs r GR ND HY AC H). Qed.

Lemma determined_proof : determined.
Proof. exact says_unique. Qed.

Lemma pipeline_accepts_proof :
  pipeline_accepts (fun gs => no_dashes gs /\ crates_there gs /\ NoDup (map g_namespace gs))
                   (fun items => objects_differ items /\ members_differ items /\ not_mixed items).
Proof.
  intros gs GR (ND & CT & NSP) HY. apply pipeline_ready; auto.
  - intros g J. destruct (HY g J) as (PC & (OD & _) & _). auto.
  - intros g J. destruct (HY g J) as (_ & (_ & M) & _). exact M.
  - intros g J. exact (proj2 (proj2 (HY g J))).
Qed.
