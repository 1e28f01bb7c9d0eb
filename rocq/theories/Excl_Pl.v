(** Bindings from the pipeline. *)
From Verif Require Import Base Meta_Types Group_Model Api_Types Api_Spec Api_Model.
From Verif Require Import Reach_Spec Univ_Spec Names_Model Excl_Types Excl_Spec Excl_Model Excl_Claims Excl_Basics.
From Verif Require Api_Agree Api_Ready Api_Iface.

Section Pl.
  Variables (c : conf) (g : group) (a : api metadata) (b : bindings).
  Hypotheses (OG : of_group g) (SA : says (g_items g) a) (OW : owned (g_items g))
    (EB : pl_generate c (g_crate g) a = Ok b).

  Definition kept (v : view metadata) : bool := negb (should_exclude_toplevel_item c (def_name (v_item v))).

  Lemma pl_no_bad : existsb bad_constructor (map (pl_typ c (g_crate g)) (filter kept (a_types a))) = false.
  Proof.
    revert EB. unfold pl_generate. fold kept. change (fun v => negb (should_exclude_toplevel_item c (def_name (v_item v)))) with kept.
    destruct (existsb _ _); [discriminate|reflexivity].
  Qed.
  Lemma pl_b : b = Bindings
    (map (pl_call (g_crate g) []) (filter (fun f => negb (should_exclude_toplevel_item c (name_of f))) (a_functions a)))
    (map (pl_typ c (g_crate g)) (filter kept (a_types a)))
    (type_definitions_from_api (g_crate g) a)
    ((flat_map (pl_checksum (g_crate g) []) (a_functions a) ++ flat_map (pl_type_checksums (g_crate g)) (a_types a)) ++
      flat_map (pl_symbols (g_crate g) []) (a_functions a) ++ flat_map (pl_type_symbols (g_crate g)) (a_types a))
    (flat_map (pl_checksum (g_crate g) []) (a_functions a) ++ flat_map (pl_type_checksums (g_crate g)) (a_types a)).
  Proof.
    revert EB. unfold pl_generate. change (fun v => negb (should_exclude_toplevel_item c (def_name (v_item v)))) with kept.
    destruct (existsb _ _); [discriminate|]. intros E. now injection E as <-.
  Qed.

  Lemma kept_false v : In v (a_types a) -> (kept v = false <-> left_out c (v_item v)).
  Proof. intros Hv. rewrite <- (left_view c g a SA v Hv). unfold kept. apply Bool.negb_false_iff. Qed.
  Lemma typ_from y : In y (b_types b) -> exists v, In v (a_types a) /\ y = pl_typ c (g_crate g) v /\ ~ left_out c (v_item v).
  Proof.
    rewrite pl_b. cbn [b_types]. rewrite in_map_iff. intros (v & <- & H). apply filter_In in H. destruct H as [Hv K].
    exists v. refine (conj Hv (conj eq_refl _)). rewrite <- (kept_false v Hv). congruence.
  Qed.
  Lemma typ_of v : In v (a_types a) -> ~ left_out c (v_item v) -> In (pl_typ c (g_crate g) v) (b_types b).
  Proof.
    intros Hv L. rewrite pl_b. cbn [b_types]. apply in_map. apply filter_In. split; [exact Hv|].
    rewrite <- (kept_false v Hv) in L. now destruct (kept v).
  Qed.

  (** ** What is shown *)

  Lemma call_items n l : map c_item (map (pl_call (g_crate g) n) l) = l.
  Proof. rewrite map_map. apply map_id. Qed.
  Definition remaining (v : view metadata) (l : list metadata) : list metadata :=
    filter (fun m => negb (should_exclude_method c (def_name (v_item v)) (name_of m))) l.
  Lemma remaining_false v m : In v (a_types a) -> In m (v_constructors v ++ v_methods v) ->
    (negb (should_exclude_method c (def_name (v_item v)) (name_of m)) = false <-> left_out c m).
  Proof. intros Hv Hm. rewrite <- (left_member c g a SA v m Hv Hm). apply Bool.negb_false_iff. Qed.
  Lemma remaining_in v l m : In v (a_types a) -> (forall m, In m l -> In m (v_constructors v ++ v_methods v)) ->
    In m (remaining v l) -> In m l /\ ~ left_out c m.
  Proof.
    intros Hv Hl H. apply filter_In in H. destruct H as [Hm K]. split; [exact Hm|].
    rewrite <- (remaining_false v m Hv (Hl m Hm)). congruence.
  Qed.
  Lemma remaining_without v l : In v (a_types a) -> (forall m, In m l -> In m (v_constructors v ++ v_methods v)) ->
    without (left_out c) l (remaining v l).
  Proof. intros Hv Hl. apply filter_without. intros m Hm. exact (remaining_false v m Hv (Hl m Hm)). Qed.

  Lemma pl_shows_type v : In v (a_types a) -> shows_type c v (pl_typ c (g_crate g) v).
  Proof.
    intros Hv. unfold shows_type. cbn [pl_typ y_item y_constructors y_methods y_traits y_impls]. rewrite !call_items.
    refine (conj eq_refl (conj _ (conj _ (conj eq_refl eq_refl)))).
    - apply (remaining_without v _ Hv). intros m Hm. apply in_or_app. now left.
    - apply (remaining_without v _ Hv). intros m Hm. apply in_or_app. now right.
  Qed.
  Lemma pl_shows : shows c (g_items g) b.
  Proof.
    exists a. refine (conj SA (conj _ _)).
    - rewrite pl_b. cbn [b_functions]. rewrite call_items. apply filter_without. intros m Hm.
      rewrite <- (left_function c g a SA m Hm). apply Bool.negb_false_iff.
    - exists (filter kept (a_types a)). split.
      + apply filter_without. exact kept_false.
      + rewrite pl_b. cbn [b_types]. assert (G : forall l, (forall v, In v l -> In v (a_types a)) ->
          Forall2 (shows_type c) l (map (pl_typ c (g_crate g)) l)).
        { induction l as [|v l IH]; intros H; [constructor|]. cbn [map]. constructor.
          - apply pl_shows_type. apply H. now left.
          - apply IH. intros w Hw. apply H. now right. }
        apply G. intros v Hv. apply filter_In in Hv. exact (proj1 Hv).
  Qed.

  (** ** Symbols *)

  Lemma member_in v m : In v (a_types a) -> In m (v_constructors v ++ v_methods v ++ v_traits v) ->
    exists r, member (g_items g) (v_item v) r m /\ r <> AnImpl.
  Proof.
    intros Hv H. rewrite !in_app_iff in H. destruct H as [H|[H|H]].
    - eexists. split; [exact (a_constructor g a SA v m Hv H)|discriminate].
    - destruct (a_method g a SA v m Hv H) as [M|M]; eexists; (split; [exact M|discriminate]).
    - eexists. split; [exact (a_trait g a SA v m Hv H)|discriminate].
  Qed.
  Lemma view_crate v : In v (a_types a) -> defines (v_item v) = Some (g_crate g, def_name (v_item v)).
  Proof.
    intros Hv. pose proof (proj1 (a_view g a SA v Hv)) as D. pose proof (a_item g a SA v Hv) as Hi.
    destruct (v_item v) eqn:E; try (destruct (D eq_refl)); unfold defines; cbn [defined_at def_name];
      now rewrite (item_crate g _ _ OG Hi eq_refl).
  Qed.
  Lemma symbols_eq v m : eq_whole (g_items g) -> In v (a_types a) -> In m (v_constructors v ++ v_methods v ++ v_traits v) ->
    pl_symbols (g_crate g) (def_name (v_item v)) m = entry m.
  Proof.
    intros EW Hv Hm. destruct (member_in v m Hv Hm) as (r & (Hi & R & W) & _). rewrite (view_crate v Hv) in W.
    destruct m; cbn in R; try discriminate R; cbn [pl_symbols entry].
    1-3: cbn [written_for] in W; injection W as Wc Wn; rewrite <- Wn, <- Wc; now rewrite ?method_crate, ?constructor_crate.
    - destruct u; cbn [written_for] in W; injection W as Wc Wn; rewrite <- Wn, <- Wc; rewrite ?method_crate; try reflexivity.
      match goal with H : In (MUniffiTrait (UTEq ?s ?e ?s' ?n)) _ |- _ => destruct (EW s e s' n H) as [-> En];
        rewrite <- (method_crate (f_mp n)), En, (method_crate (f_mp e)); reflexivity end.
    - reflexivity.
  Qed.
  Lemma function_symbols m : In m (a_functions a) -> pl_symbols (g_crate g) [] m = entry m.
  Proof.
    intros H. destruct (a_function g a SA m H) as (Hi & f & ->). cbn [pl_symbols entry].
    rewrite <- (item_crate g _ _ OG Hi eq_refl). now rewrite fn_crate.
  Qed.

  Lemma pl_calls : eq_whole (g_items g) -> calls b.
  Proof.
    intros EW. split.
    - rewrite pl_b. cbn [b_functions]. rewrite Forall_map. apply Forall_forall. intros m Hm. apply filter_In in Hm.
      unfold calls_own. cbn [pl_call c_symbols c_item]. exact (function_symbols m (proj1 Hm)).
    - apply Forall_forall. intros y Hy. destruct (typ_from y Hy) as (v & Hv & -> & _).
      cbn [pl_typ y_constructors y_methods y_traits]. rewrite <- !map_app, Forall_map. apply Forall_forall. intros m Hm.
      unfold calls_own. cbn [pl_call c_symbols c_item]. apply (symbols_eq v m EW Hv). rewrite !in_app_iff in Hm |- *.
      destruct Hm as [Hm|[Hm|Hm]]; [left|right; left|right; right; exact Hm]; apply filter_In in Hm; exact (proj1 Hm).
  Qed.

  Lemma declared_type v x : In v (a_types a) -> In x (pl_type_symbols (g_crate g) v) -> In x (b_declared b).
  Proof.
    intros Hv Hx. rewrite pl_b. cbn [b_declared]. apply in_or_app. right. apply in_or_app. right. apply in_flat_map. eauto.
  Qed.
  Lemma handles_eq v : In v (a_types a) -> forall o, v_item v = MObject o ->
    handles (MObject o) = [clone_fn_symbol_name (g_crate g) (o_name o); free_fn_symbol_name (g_crate g) (o_name o)].
  Proof.
    intros Hv o E. pose proof (a_item g a SA v Hv) as Hi. rewrite E in Hi. cbn [handles].
    rewrite <- (item_crate g _ _ OG Hi eq_refl). now rewrite clone_crate, free_crate.
  Qed.
  Lemma foreign_imp o : has_callback_interface (o_imp o) = true <-> foreign (MObject o).
  Proof.
    cbn [foreign]. destruct (o_imp o) as [|[| |]]; cbn; split; try discriminate; auto; intros [X|X]; discriminate X.
  Qed.
  Lemma pl_init v t : In v (a_types a) -> pl_table (g_crate g) v = Some t ->
    foreign (v_item v) /\ init_of (v_item v) = Some (t_init t) /\ t_slots t = v_methods v.
  Proof.
    intros Hv. unfold pl_table. pose proof (a_item g a SA v Hv) as Hi. destruct (v_item v) eqn:E; try discriminate.
    - destruct (has_callback_interface (o_imp o)) eqn:F; [|discriminate]. intros X. injection X as <-.
      apply foreign_imp in F. refine (conj F (conj _ eq_refl)). unfold init_of. cbn [defined_at t_init].
      rewrite <- (item_crate g _ _ OG Hi eq_refl). now rewrite init_crate.
    - intros X. injection X as <-. refine (conj I (conj _ eq_refl)). unfold init_of. cbn [defined_at t_init].
      rewrite <- (item_crate g _ _ OG Hi eq_refl). now rewrite init_crate.
  Qed.

  (** Custom types have no members. *)
  Lemma custom_alone v m mp n t doc : In v (a_types a) -> v_item v = MCustom mp n t doc ->
    ~ In m (v_constructors v ++ v_methods v ++ v_traits v).
  Proof.
    intros Hv E Hm. destruct (member_in v m Hv Hm) as (r & (Hi & R & W) & _).
    destruct (OW m r Hi R) as (d & Hd & D & Wd & T).
    destruct SA as (_ & _ & _ & H & _). destruct (H d Hd D) as (w & Hw & St).
    assert (Ed : defines (v_item w) = defines d) by (destruct St as [->|(? & ? & ? & ? & ? & -> & ->)]; reflexivity).
    assert (X : v = w) by (apply (a_unique g a SA); [exact Hv|exact Hw|congruence]). subst w.
    rewrite E in St. destruct St as [<-|(? & ? & ? & ? & ? & -> & _)]; exact T.
  Qed.

  Lemma pl_declares : declares b.
  Proof.
    refine (conj _ (conj _ _)).
    - intros k x Hk Hx. rewrite pl_b in Hk |- *. cbn [b_functions b_declared] in Hk |- *. apply in_map_iff in Hk.
      destruct Hk as (m & <- & Hm). apply filter_In in Hm. cbn [pl_call c_symbols] in Hx.
      apply in_or_app. right. apply in_or_app. left. apply in_flat_map. exists m. now split.
    - intros y Hy. destruct (typ_from y Hy) as (v & Hv & -> & L).
      assert (B : bad_constructor (pl_typ c (g_crate g) v) = false).
      { pose proof pl_no_bad as N. destruct (bad_constructor (pl_typ c (g_crate g) v)) eqn:E; [|reflexivity].
        rewrite <- N. symmetry. apply existsb_exists. eexists. split; [|exact E]. rewrite pl_b in Hy. exact Hy. }
      refine (conj _ (conj _ _)).
      + intros k x Hk N Hx. apply (declared_type v x Hv). unfold pl_type_symbols.
        cbn [pl_typ y_constructors y_methods y_traits y_item] in Hk, N. fold (remaining v (v_constructors v)) in Hk.
        rewrite !in_app_iff, !in_map_iff in Hk. unfold bad_constructor in B. cbn [pl_typ y_item y_constructors] in B.
        fold (remaining v (v_constructors v)) in B.
        destruct (a_view g a SA v Hv) as (D & _).
        assert (X : exists m, In x (pl_symbols (g_crate g) (def_name (v_item v)) m) /\
                    (In m (remaining v (v_constructors v)) \/ In m (v_methods v) \/ In m (v_traits v))).
        { destruct Hk as [(m & <- & Hm)|[(m & <- & Hm)|(m & <- & Hm)]]; exists m; (split; [exact Hx|]); auto.
          apply filter_In in Hm. intuition. }
        destruct X as (m & Hx' & Hm).
        destruct (v_item v) eqn:E; try (destruct (D eq_refl)).
        * apply in_or_app. left. apply in_flat_map. exists m. split; [|exact Hx']. rewrite !in_app_iff.
          destruct Hm as [Hm|[Hm|Hm]]; auto. apply filter_In in Hm. intuition.
        * destruct (N I).
        * apply in_flat_map. exists m. split; [|exact Hx']. rewrite !in_app_iff.
          destruct Hm as [Hm|[Hm|Hm]]; auto. destruct (remaining v (v_constructors v)); [destruct Hm|discriminate B].
        * apply in_flat_map. exists m. split; [|exact Hx']. rewrite !in_app_iff.
          destruct Hm as [Hm|[Hm|Hm]]; auto. destruct (remaining v (v_constructors v)); [destruct Hm|discriminate B].
        * destruct (custom_alone v m _ _ _ _ Hv E). rewrite !in_app_iff.
          destruct Hm as [Hm|[Hm|Hm]]; auto. apply filter_In in Hm. intuition.
      + intros x Hx. cbn [pl_typ y_item] in Hx. apply (declared_type v x Hv). unfold pl_type_symbols.
        destruct (v_item v) eqn:E; try (destruct Hx; fail). rewrite (handles_eq v Hv o E) in Hx.
        apply in_or_app. right. apply in_or_app. left. exact Hx.
      + intros t Et. cbn [pl_typ y_table] in Et. apply (declared_type v _ Hv). unfold pl_type_symbols.
        rewrite Et. unfold pl_table in Et. destruct (v_item v); try discriminate Et.
        * apply in_or_app. right. right. right. left. reflexivity.
        * left. reflexivity.
    - intros x Hx. rewrite pl_b in Hx |- *. cbn [b_checked b_declared] in Hx |- *. apply in_or_app. left. exact Hx.
  Qed.

  Lemma checksum_eq v m x : In v (a_types a) -> In m (v_methods v ++ v_constructors v) ->
    In x (pl_checksum (g_crate g) (def_name (v_item v)) m) -> In x (checksum_of m).
  Proof.
    intros Hv Hm. destruct (member_in v m Hv) as (r & (Hi & R & W) & _); [rewrite !in_app_iff in *; intuition|].
    rewrite (view_crate v Hv) in W. destruct m; cbn in R; try discriminate R; cbn [pl_checksum checksum_of];
      try (intros []; fail);
      cbn [written_for] in W; injection W as Wc Wn; rewrite <- Wn, <- Wc;
      rewrite ?method_sum_crate, ?constructor_sum_crate; destruct (f_checksum f); auto; intros [].
  Qed.
  Lemma pl_links : eq_whole (g_items g) -> links (g_items g) b.
  Proof.
    intros EW x. rewrite pl_b. cbn [b_declared]. rewrite !in_app_iff, !in_flat_map.
    intros [[(m & Hm & Hx)|(v & Hv & Hx)]|[(m & Hm & Hx)|(v & Hv & Hx)]].
    - exists m. destruct (a_function g a SA m Hm) as (Hi & f & ->). apply ex_checksum; [exact Hi|].
      cbn [pl_checksum checksum_of] in *. rewrite <- (item_crate g _ _ OG Hi eq_refl), fn_sum_crate in Hx.
      destruct (f_checksum f); [exact Hx|destruct Hx].
    - unfold pl_type_checksums in Hx. destruct (v_item v) eqn:E; try (destruct Hx; fail).
      apply in_flat_map in Hx. destruct Hx as (m & Hm & Hx). exists m.
      assert (En : def_name (v_item v) = o_name o) by (rewrite E; reflexivity). rewrite <- En in Hx.
      apply ex_checksum; [|exact (checksum_eq v m x Hv Hm Hx)].
      destruct (member_in v m Hv) as (r & (Hi & _) & _); [rewrite !in_app_iff in *; intuition|exact Hi].
    - exists m. rewrite (function_symbols m Hm) in Hx. destruct (a_function g a SA m Hm) as (Hi & f & ->).
      apply ex_entry; [exact Hi|apply function_not_of_callback|exact Hx].
    - assert (M : forall m, ~ callback (v_item v) -> In m (v_constructors v ++ v_methods v ++ v_traits v) ->
        In x (pl_symbols (g_crate g) (def_name (v_item v)) m) -> exists m, exports (g_items g) m x).
      { intros m N Hm Hx'. rewrite (symbols_eq v m EW Hv Hm) in Hx'. destruct (member_in v m Hv Hm) as (r & Me & _).
        exists m. apply ex_entry; [exact (proj1 Me)|exact (not_of_callback g a SA v m r Hv N Me)|exact Hx']. }
      assert (J : In x (init_symbol (pl_table (g_crate g) v)) -> exists m, exports (g_items g) m x).
      { intros Hi. destruct (pl_table (g_crate g) v) as [t|] eqn:Et; [|destruct Hi]. destruct Hi as [<-|[]].
        destruct (pl_init v t Hv Et) as (F & I_ & _). exists (v_item v). apply ex_init; [exact (a_item g a SA v Hv)|exact F|exact I_]. }
      unfold pl_type_symbols in Hx. destruct (v_item v) eqn:E; try (destruct Hx; fail).
      + rewrite !in_app_iff in Hx. destruct Hx as [Hx|[Hx|Hx]].
        * apply in_flat_map in Hx. destruct Hx as (m & Hm & Hx).
          apply (M m); [intros []|rewrite !in_app_iff in *; intuition|exact Hx].
        * exists (MObject o). apply ex_handle; [rewrite <- E; exact (a_item g a SA v Hv)|].
          rewrite (handles_eq v Hv o E). exact Hx.
        * exact (J Hx).
      + exact (J Hx).
      + apply in_flat_map in Hx. destruct Hx as (m & Hm & Hx).
        apply (M m); [intros []|rewrite !in_app_iff in *; intuition|exact Hx].
      + apply in_flat_map in Hx. destruct Hx as (m & Hm & Hx).
        apply (M m); [intros []|rewrite !in_app_iff in *; intuition|exact Hx].
  Qed.

  (** ** Tables *)

  Lemma pl_tables : tables (g_items g) b.
  Proof.
    exists a. split; [exact SA|]. intros y Hy. destruct (typ_from y Hy) as (v & Hv & -> & _).
    exists v. refine (conj Hv (conj eq_refl (conj _ _))).
    - cbn [pl_typ y_table]. unfold pl_table. destruct (v_item v); try (intros []; fail).
      + intros F. apply foreign_imp in F. rewrite F. discriminate.
      + discriminate.
    - intros t Et. cbn [pl_typ y_table] in Et. destruct (pl_init v t Hv Et) as (_ & I_ & S_). exact (conj I_ S_).
  Qed.

  (** ** Everything is there *)

  Lemma pl_there d n : In d (g_items g) -> defines d = Some (g_crate g, n) -> ~ In n (excluded c) -> there b (g_crate g, n).
  Proof.
    intros Hd D N. destruct (a_defined g a SA d Hd ltac:(congruence)) as (v & Hv & E).
    assert (L : ~ left_out c (v_item v)).
    { rewrite (left_out_definition c _ (proj1 (a_view g a SA v Hv))). rewrite D in E. now rewrite (defines_name _ _ _ E). }
    exists (pl_typ c (g_crate g) v). split; [exact (typ_of v Hv L)|]. cbn. now rewrite <- D.
  Qed.
  Lemma shown_stays m : shown_item b m -> stays c (g_items g) m.
  Proof.
    intros [H|(y & Hy & H)].
    - rewrite pl_b in H. cbn [b_functions] in H. rewrite call_items in H. apply filter_In in H. destruct H as [H K].
      apply (stays_function c g a SA m H). rewrite <- (left_function c g a SA m H).
      apply Bool.negb_true_iff in K. unfold should_exclude_toplevel_item in K. congruence.
    - destruct (typ_from y Hy) as (v & Hv & -> & L). destruct H as [->|[H|H]].
      + exact (stays_view c g a SA v Hv L).
      + cbn [pl_typ y_constructors y_methods y_traits] in H. rewrite <- !map_app, call_items, !in_app_iff in H.
        fold (remaining v (v_constructors v)) in H. fold (remaining v (v_methods v)) in H.
        assert (X : exists r, member (g_items g) (v_item v) r m /\ ~ left_out c m).
        { destruct H as [H|[H|H]].
          - destruct (remaining_in v (v_constructors v) m Hv) as [Hm Lm]; [intros; apply in_or_app; auto|exact H|].
            eexists. split; [exact (a_constructor g a SA v m Hv Hm)|exact Lm].
          - destruct (remaining_in v (v_methods v) m Hv) as [Hm Lm]; [intros; apply in_or_app; auto|exact H|].
            destruct (a_method g a SA v m Hv Hm) as [M|M]; eexists; (split; [exact M|exact Lm]).
          - pose proof (a_trait g a SA v m Hv H) as M. eexists. split; [exact M|].
            exact (not_left_trait c m ATrait (proj1 (proj2 M)) (or_introl eq_refl)). }
        destruct X as (r & M & Lm). exact (stays_member c g a SA v m r Hv L M Lm).
      + cbn in H. pose proof (a_impl g a SA v m Hv H) as M.
        apply (stays_member c g a SA v m AnImpl Hv L M).
        exact (not_left_trait c m AnImpl (proj1 (proj2 M)) (or_intror eq_refl)).
  Qed.
  Lemma excluded_dec n : {In n (excluded c)} + {~ In n (excluded c)}.
  Proof. apply in_dec. apply Meta_Eq.str_eq_dec. Qed.
  Lemma view_item_in v m : In v (a_types a) -> In m (view_items v) -> In m (g_items g).
  Proof.
    intros Hv [<-|H]; [exact (a_item g a SA v Hv)|]. rewrite !in_app_iff in H. destruct H as [H|[H|[H|H]]].
    - exact (proj1 (a_constructor g a SA v m Hv H)).
    - destruct (a_method g a SA v m Hv H) as [M|M]; exact (proj1 M).
    - exact (proj1 (a_trait g a SA v m Hv H)).
    - exact (proj1 (a_impl g a SA v m Hv H)).
  Qed.
  Lemma named_local t n : refers_to t = Some (g_crate g, n) -> gets_definition (g_crate g) t = false.
  Proof.
    destruct t; cbn; intros E; try discriminate E; try reflexivity; injection E as E _; unfold path_crate;
      change (Names_Model.crate_name mp) with (crate_of mp); rewrite E, Api_Iface.beq_refl; reflexivity.
  Qed.

  Lemma pl_closed : items_closed (g_crate g) (g_items g) ->
    unused c (g_crate g) (g_items g) -> never_nested c (g_crate g) (g_items g) -> closed (g_crate g) b.
  Proof.
    intros IC UN NN t u n [Ht|(m & Sm & Ht)] Hu R.
    - rewrite pl_b in Ht. cbn [b_converters] in Ht. apply filter_In in Ht. destruct Ht as [Ht G].
      destruct Ht as [<-|Ht]; [inversion Hu; subst; discriminate R|].
      apply in_flat_map in Ht. destruct Ht as (w & Hw & Ht). apply visit_inside in Ht.
      apply in_flat_map in Hw. destruct Hw as (m & Hm & Hw). rewrite Api_Agree.types_written in Hw.
      assert (Hi : In m (g_items g)).
      { apply in_app_or in Hm. destruct Hm as [Hm|Hm]; [exact (proj1 (a_function g a SA m Hm))|].
        apply in_flat_map in Hm. destruct Hm as (v & Hv & Hm). exact (view_item_in v m Hv Hm). }
      assert (Hw' : In w (types_of m)) by (apply in_or_app; now right).
      destruct (IC m w u n Hi Hw' (inside_trans _ _ _ Ht Hu) R) as (d & Hd & D).
      destruct (excluded_dec n) as [X|X]; [|exact (pl_there d n Hd D X)]. exfalso.
      destruct (NN m w t Hi Hw' Ht) as (n' & Rt & _); [exists u, n; auto|].
      rewrite (named_local t n' Rt) in G. discriminate G.
    - pose proof (shown_stays m Sm) as St.
      destruct (IC m t u n (proj1 St) Ht Hu R) as (d & Hd & D).
      destruct (excluded_dec n) as [X|X]; [|exact (pl_there d n Hd D X)].
      destruct (UN m t St Ht). exists u, n. auto.
  Qed.
End Pl.
