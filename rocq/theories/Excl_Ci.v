(** Bindings from the component interface. *)
From Verif Require Import Base Meta_Types Group_Model Api_Types Api_Spec Api_Model.
From Verif Require Import Reach_Spec Univ_Spec Names_Model Excl_Types Excl_Spec Excl_Model Excl_Claims Excl_Basics.
From Verif Require Univ_Model Univ_Proofs Api_Ready.

(** Only custom types are among the custom types. *)
Definition custom (m : metadata) : Prop := exists mp n b doc, m = MCustom mp n b doc.
Lemma merge_customs mp n b doc l : Forall custom l -> Forall custom (merge_custom mp n b doc l).
Proof.
  induction l as [|m l IH]; intros H; cbn [merge_custom].
  - constructor; [|constructor]. now exists mp, n, b, doc.
  - inversion H as [|? ? (mp' & n' & b' & doc' & ->) Hl]; subst.
    destruct (bytes_eqb n' n); constructor; auto; repeat eexists.
Qed.
Lemma attach_customs n f s : s_customs (attach n f s) = s_customs s.
Proof. unfold attach. repeat (destruct (on_first _ _ _); [reflexivity|]). reflexivity. Qed.
Lemma attach_trait_customs n f s : s_customs (attach_trait n f s) = s_customs s.
Proof. unfold attach_trait. repeat (destruct (on_first _ _ _); [reflexivity|]). reflexivity. Qed.
Lemma item_customs m s : Forall custom (s_customs s) -> Forall custom (s_customs (store_item m s)).
Proof.
  intros H. destruct m; cbn [store_item]; try rewrite attach_customs; try rewrite attach_trait_customs; try exact H.
  - destruct (on_first _ _ _); [exact H|]. now rewrite attach_customs.
  - cbn. now apply merge_customs.
  - destruct (Univ_Model.type_name _); [|exact H]. destruct (on_first _ _ _); exact H.
Qed.
Lemma store_customs items : Forall custom (s_customs (store_all items)).
Proof.
  unfold store_all. assert (G : forall s, Forall custom (s_customs s) ->
    Forall custom (s_customs (fold_left (fun s m => store_item m s) items s))).
  { induction items as [|m items IH]; intros s H; cbn [fold_left]; [exact H|]. apply IH. now apply item_customs. }
  apply G. constructor.
Qed.

(** And nowhere else. *)
Lemma on_first_keeps n f l l' : (forall v, v_item (f v) = v_item v) -> on_first n f l = Some l' ->
  map v_item l' = map v_item l.
Proof.
  intros F. revert l'. induction l as [|v l IH]; intros l' E; cbn [on_first] in E; [discriminate E|].
  destruct (bytes_eqb _ n).
  - injection E as <-. cbn [map]. now rewrite F.
  - destruct (on_first n f l) as [k|]; [|discriminate E]. injection E as <-. cbn [map]. now rewrite (IH k eq_refl).
Qed.
Definition all_items_of (s : store) : list metadata :=
  map v_item (s_objects s ++ s_records s ++ s_enums s ++ s_callbacks s).
Lemma attach_items n f s : (forall v, v_item (f v) = v_item v) -> all_items_of (attach n f s) = all_items_of s.
Proof.
  intros F. unfold attach, all_items_of.
  destruct (on_first n f (s_objects s)) eqn:E1;
    [cbn; rewrite !map_app; now rewrite (on_first_keeps _ _ _ _ F E1)|].
  destruct (on_first n f (s_records s)) eqn:E2;
    [cbn; rewrite !map_app; now rewrite (on_first_keeps _ _ _ _ F E2)|].
  destruct (on_first n f (s_enums s)) eqn:E3;
    [cbn; rewrite !map_app; now rewrite (on_first_keeps _ _ _ _ F E3)|]. reflexivity.
Qed.
Lemma attach_trait_items n f s : (forall v, v_item (f v) = v_item v) -> all_items_of (attach_trait n f s) = all_items_of s.
Proof.
  intros F. unfold attach_trait, all_items_of.
  destruct (on_first n f (s_objects s)) eqn:E1;
    [cbn; rewrite !map_app; now rewrite (on_first_keeps _ _ _ _ F E1)|].
  destruct (on_first n f (s_enums s)) eqn:E3;
    [cbn; rewrite !map_app; now rewrite (on_first_keeps _ _ _ _ F E3)|].
  destruct (on_first n f (s_records s)) eqn:E2;
    [cbn; rewrite !map_app; now rewrite (on_first_keeps _ _ _ _ F E2)|]. reflexivity.
Qed.
Lemma item_no_custom m s x : In x (all_items_of (store_item m s)) -> In x (all_items_of s) \/ (x = m /\ ~ custom m).
Proof.
  assert (P : forall m v, v_item (push_method m v) = v_item v) by reflexivity.
  assert (N : forall m, match m with MCustom _ _ _ _ => False | _ => True end -> ~ custom m)
    by (intros m' Hm (? & ? & ? & ? & ->); exact Hm).
  destruct m; cbn [store_item]; try (rewrite attach_items by reflexivity); try (rewrite attach_trait_items by reflexivity);
    auto;
    try (unfold all_items_of; cbn [s_objects s_records s_enums s_callbacks with_objects with_records with_enums with_callbacks];
         rewrite !map_app, !in_app_iff; cbn [map In bare v_item]; intuition; subst; right; split; [reflexivity|];
         apply N; exact I).
  - destruct (on_first _ _ _) eqn:E; [|rewrite attach_items by reflexivity; auto].
    unfold all_items_of. cbn [s_objects s_records s_enums s_callbacks with_callbacks].
    rewrite !map_app. rewrite (on_first_keeps _ _ _ _ (P _) E). auto.
  - destruct (Univ_Model.type_name _); [|auto]. destruct (on_first _ _ _) eqn:E; [|auto].
    unfold all_items_of. cbn [s_objects s_records s_enums s_callbacks with_objects].
    rewrite !map_app. rewrite (on_first_keeps _ (push_impl (MTraitImpl t trait_ty)) _ _ (fun _ => eq_refl) E). auto.
Qed.
Lemma store_no_customs items x : In x (all_items_of (store_all items)) -> ~ custom x.
Proof.
  unfold store_all. assert (G : forall s, (forall x, In x (all_items_of s) -> ~ custom x) ->
    forall x, In x (all_items_of (fold_left (fun s m => store_item m s) items s)) -> ~ custom x).
  { induction items as [|m items IH]; intros s H; cbn [fold_left]; [exact H|]. apply IH.
    intros y Hy. destruct (item_no_custom m s y Hy) as [K|[-> K]]; auto. }
  apply G. intros y [].
Qed.

(** ** After leaving out *)

Definition keeps (ex : list str) (v : view metadata) : bool := negb (contains ex (def_name (v_item v))).
Definition noncustoms (s : store) : list (view metadata) :=
  s_objects s ++ s_records s ++ s_enums s ++ s_callbacks s.
Definition survives (ex : list str) (l : list (view metadata)) (t : ty) : bool :=
  match Univ_Model.type_name t with
  | None => true
  | Some n => negb (contains (map (fun v => def_name (v_item v))
                               (filter (fun v => contains ex (def_name (v_item v))) l)) n)
  end.
Lemma exclusions_api ex s k : store_api (fst (apply_exclusions ex s k)) =
  Api (remove_functions ex (s_functions s))
      (map (remove_in ex) (filter (keeps ex) (noncustoms s)) ++ map bare (s_customs s)).
Proof.
  unfold apply_exclusions, remove_type_definitions, store_api, noncustoms. cbn [fst s_functions s_objects s_records s_enums s_callbacks s_customs].
  change (fun v => negb (contains ex (def_name (v_item v)))) with (keeps ex).
  rewrite !filter_app, !map_app, !app_assoc. reflexivity.
Qed.
Lemma exclusions_known ex s k t : In t (snd (apply_exclusions ex s k)) ->
  In t k /\ survives ex (s_records s) t = true /\ survives ex (s_enums s) t = true /\
  survives ex (s_objects s) t = true /\ survives ex (s_callbacks s) t = true.
Proof.
  unfold apply_exclusions, remove_type_definitions. cbn [snd]. rewrite !filter_In. unfold survives.
  intros [[[[A B] C] D] E]. auto.
Qed.
Lemma survives_not ex l t v : survives ex l t = true -> In v l -> contains ex (def_name (v_item v)) = true ->
  Univ_Model.type_name t <> Some (def_name (v_item v)).
Proof.
  unfold survives. intros S Hv X E. rewrite E in S. apply Bool.negb_true_iff, contains_not in S. apply S.
  apply in_map_iff. exists v. split; [reflexivity|]. apply filter_In. now split.
Qed.

Lemma remove_bare ex m : remove_in ex (bare m) = bare m.
Proof. reflexivity. Qed.

(** ** One interface *)

Section Ci.
  Variables (c : conf) (g : group) (b : bindings).
  Hypotheses (OG : of_group g) (PC : plain_constructors (g_items g)) (OD : objects_differ (g_items g))
             (NU : numbered (g_items g)) (EB : ci_bindings c (g_items g) = Ok b).

  Let s := store_all (g_items g).
  Let a := store_api s.
  Let ex := excluded c.

  Lemma ci_parts : exists i, Univ_Model.add_metadata (g_items g) = Ok i /\ says (g_items g) a /\
    b = ci_generate c (store_api (fst (apply_exclusions ex s (Univ_Model.known (Univ_Model.types i)))))
          (snd (apply_exclusions ex s (Univ_Model.known (Univ_Model.types i)))).
  Proof.
    unfold ci_bindings in EB. destruct (Univ_Model.add_metadata (g_items g)) as [i| | |] eqn:E; try discriminate EB.
    exists i. split; [reflexivity|]. split.
    - apply (Api_Ready.interface_true_proof g a OG PC (conj OD NU)). unfold interface. rewrite E. reflexivity.
    - cbn [bind] in EB. fold s in EB. fold ex in EB. destruct (apply_exclusions ex s _) as [s' k]. now injection EB as <-.
  Qed.
  Lemma ci_says : says (g_items g) a.
  Proof. destruct ci_parts as (_ & _ & H & _). exact H. Qed.

  Lemma ci_functions : b_functions b = map call_of (remove_functions ex (a_functions a)).
  Proof. destruct ci_parts as (i & _ & _ & ->). rewrite exclusions_api. reflexivity. Qed.
  Lemma ci_types : b_types b = map (ci_typ c) (map (remove_in ex) (filter (keeps ex) (noncustoms s)) ++ map bare (s_customs s)).
  Proof. destruct ci_parts as (i & _ & _ & ->). rewrite exclusions_api. reflexivity. Qed.
  Lemma a_types_store : a_types a = noncustoms s ++ map bare (s_customs s).
  Proof. unfold a, store_api, noncustoms. cbn [a_types]. now rewrite <- !app_assoc. Qed.

  Lemma ci_typ_from y : In y (b_types b) -> exists v, In v (a_types a) /\ y = ci_typ c (remove_in ex v) /\
    (~ left_out c (v_item v) \/ custom (v_item v)).
  Proof.
    rewrite ci_types, map_app, in_app_iff. intros [H|H].
    - apply in_map_iff in H. destruct H as (w & <- & H). apply in_map_iff in H. destruct H as (v & <- & H).
      apply filter_In in H. destruct H as [H K]. exists v.
      assert (Hv : In v (a_types a)) by (rewrite a_types_store; apply in_or_app; left; exact H).
      refine (conj Hv (conj eq_refl (or_introl _))).
      rewrite <- (left_view c g a ci_says v Hv). unfold keeps in K. apply Bool.negb_true_iff in K. unfold ex in K. congruence.
    - apply in_map_iff in H. destruct H as (w & <- & H). apply in_map_iff in H. destruct H as (m & <- & H).
      exists (bare m). refine (conj _ (conj eq_refl (or_intror _))).
      + rewrite a_types_store. apply in_or_app. right. now apply in_map.
      + pose proof (store_customs (g_items g)) as F. rewrite Forall_forall in F. exact (F m H).
  Qed.
  Lemma ci_typ_of v : In v (a_types a) -> ~ left_out c (v_item v) -> In (ci_typ c (remove_in ex v)) (b_types b).
  Proof.
    intros Hv L. rewrite <- (left_view c g a ci_says v Hv) in L. rewrite ci_types, map_app, in_app_iff.
    rewrite a_types_store in Hv. apply in_app_or in Hv. destruct Hv as [Hv|Hv].
    - left. apply in_map. apply in_map. apply filter_In. split; [exact Hv|]. unfold keeps. fold ex in L.
      now destruct (contains ex (def_name (v_item v))).
    - right. apply in_map_iff in Hv. destruct Hv as (m & <- & Hm). rewrite remove_bare. now apply in_map, in_map.
  Qed.
  Lemma noncustom_in v : In v (a_types a) -> ~ custom (v_item v) -> In v (noncustoms s).
  Proof.
    rewrite a_types_store. intros H N. apply in_app_or in H. destruct H as [H|H]; [exact H|].
    apply in_map_iff in H. destruct H as (m & <- & H). destruct N.
    pose proof (store_customs (g_items g)) as F. rewrite Forall_forall in F. exact (F m H).
  Qed.

  Lemma custom_bare v : In v (a_types a) -> custom (v_item v) -> v = bare (v_item v).
  Proof.
    rewrite a_types_store. intros H C. apply in_app_or in H. destruct H as [H|H].
    - destruct (store_no_customs (g_items g) (v_item v)); [|exact C]. apply in_map. exact H.
    - apply in_map_iff in H. destruct H as (m & <- & _). reflexivity.
  Qed.

  (** Members that remain. *)
  Lemma removed_member v m : In v (a_types a) -> In m (v_constructors v ++ v_methods v) ->
    (In m (remove_members ex (def_name (v_item v)) (v_constructors v ++ v_methods v)) <-> ~ left_out c m).
  Proof.
    intros Hv Hm. unfold remove_members. rewrite filter_In. rewrite <- (left_member c g a ci_says v m Hv Hm). fold ex.
    destruct (contains ex _); cbn [negb]; split.
    - intros [_ X]. discriminate X.
    - intros X. destruct (X eq_refl).
    - intros _ X. discriminate X.
    - intros _. split; [exact Hm|reflexivity].
  Qed.
  Lemma member_remains v m : In v (a_types a) -> In m (v_constructors (remove_in ex v) ++ v_methods (remove_in ex v)) ->
    In m (v_constructors v ++ v_methods v) /\ ~ left_out c m.
  Proof.
    intros Hv. cbn [remove_in v_constructors v_methods]. unfold remove_members. rewrite <- filter_app. intros H.
    pose proof (proj1 (proj1 (filter_In _ _ _) H)) as Hm. split; [exact Hm|].
    now apply (removed_member v m Hv Hm).
  Qed.
  Lemma member_of v m : In v (a_types a) ->
    In m (v_constructors (remove_in ex v) ++ v_methods (remove_in ex v) ++ v_traits (remove_in ex v)) ->
    exists r, member (g_items g) (v_item v) r m /\ ~ left_out c m.
  Proof.
    intros Hv H. rewrite app_assoc in H. apply in_app_or in H. destruct H as [H|H].
    - destruct (member_remains v m Hv H) as [Hm L]. apply in_app_or in Hm. destruct Hm as [Hm|Hm].
      + exists AConstructor. split; [exact (a_constructor g a ci_says v m Hv Hm)|exact L].
      + destruct (a_method g a ci_says v m Hv Hm) as [M|M]; eexists; split; eauto.
    - cbn [remove_in v_traits] in H. pose proof (a_trait g a ci_says v m Hv H) as M. exists ATrait. split; [exact M|].
      exact (not_left_trait c m ATrait (proj1 (proj2 M)) (or_introl eq_refl)).
  Qed.

  Lemma ci_calls : calls b.
  Proof.
    split.
    - rewrite ci_functions, Forall_map. apply Forall_forall. intros m _. unfold calls_own. cbn. apply entry_symbols.
    - apply Forall_forall. intros y Hy. destruct (ci_typ_from y Hy) as (v & _ & -> & _). cbn [ci_typ y_constructors y_methods y_traits].
      rewrite <- !map_app, Forall_map. apply Forall_forall. intros m _. unfold calls_own. cbn. apply entry_symbols.
  Qed.

  Lemma ci_checked_eq : b_checked b = flat_map checksum_symbol_names (map c_item (b_functions b)) ++ flat_map ci_checksums (b_types b).
  Proof.
    destruct ci_parts as (i & _ & _ & ->). cbn [b_checked ci_generate b_functions b_types]. f_equal.
    rewrite map_map. cbn [call_of c_item]. now rewrite map_id.
  Qed.
  Lemma ci_declared_eq : b_declared b = flat_map ci_symbols (b_types b) ++ flat_map c_symbols (b_functions b) ++ b_checked b.
  Proof. destruct ci_parts as (i & _ & _ & ->). reflexivity. Qed.

  Lemma members_symbols v : flat_map c_symbols (y_constructors (ci_typ c v) ++ y_methods (ci_typ c v) ++ y_traits (ci_typ c v)) =
    flat_map entry (v_constructors v ++ v_methods v ++ v_traits v).
  Proof.
    cbn [ci_typ y_constructors y_methods y_traits]. rewrite <- !map_app.
    induction (v_constructors v ++ v_methods v ++ v_traits v) as [|m l IH]; [reflexivity|].
    cbn [map flat_map]. rewrite IH. cbn [call_of c_symbols]. now rewrite entry_symbols.
  Qed.

  Lemma ci_declares : declares b.
  Proof.
    refine (conj _ (conj _ _)).
    - intros k x Hk Hx. rewrite ci_declared_eq. apply in_or_app. right. apply in_or_app. left. apply in_flat_map. eauto.
    - intros y Hy. pose proof Hy as Hy'. destruct (ci_typ_from y Hy) as (v & Hv & E & _).
      assert (D : forall x, In x (ci_symbols y) -> In x (b_declared b)).
      { intros x Hx. rewrite ci_declared_eq. apply in_or_app. left. apply in_flat_map. eauto. }
      refine (conj _ (conj _ _)).
      + intros k x Hk N Hx. apply D. unfold ci_symbols.
        assert (M : In x (flat_map c_symbols (y_constructors y ++ y_methods y ++ y_traits y))) by (apply in_flat_map; eauto).
        assert (EI : y_item y = v_item v) by (rewrite E; reflexivity).
        destruct (a_view g a ci_says v Hv) as [Dv _]. rewrite <- EI in Dv.
        destruct (y_item y) eqn:Ei; try (destruct (Dv eq_refl)); try exact M.
        * apply in_or_app. right. apply in_or_app. right. exact M.
        * destruct (N I).
        * exfalso. rewrite E, (custom_bare v Hv) in Hk; [destruct Hk|]. rewrite <- EI. repeat eexists.
      + intros x Hx. apply D. unfold ci_symbols. destruct (y_item y); try (destruct Hx; fail).
        apply in_or_app. left. exact Hx.
      + intros t Et. apply D. unfold ci_symbols. rewrite E in Et. cbn [ci_typ y_table] in Et. unfold ci_table in Et.
        rewrite E. cbn [ci_typ y_item y_table remove_in v_item] in Et |- *. unfold ci_table.
        cbn [remove_in v_item v_methods] in Et |- *. destruct (v_item v); try discriminate Et.
        * destruct (has_callback_interface _); [|discriminate Et]. injection Et as <-. right. right. left. reflexivity.
        * injection Et as <-. left. reflexivity.
    - intros x Hx. rewrite ci_declared_eq. apply in_or_app. right. apply in_or_app. right. exact Hx.
  Qed.

  (** ** What is shown *)

  Lemma keep_false v : In v (a_types a) -> (keeps ex v = false <-> left_out c (v_item v)).
  Proof. intros Hv. rewrite <- (left_view c g a ci_says v Hv). unfold keeps. fold ex. apply Bool.negb_false_iff. Qed.
  Lemma call_items l : map c_item (map call_of l) = l.
  Proof. rewrite map_map. apply map_id. Qed.
  Lemma removed_without v l : In v (a_types a) -> (forall m, In m l -> In m (v_constructors v ++ v_methods v)) ->
    without (left_out c) l (remove_members ex (def_name (v_item v)) l).
  Proof.
    intros Hv Hl. unfold remove_members. apply filter_without. intros m Hm.
    rewrite <- (left_member c g a ci_says v m Hv (Hl m Hm)). fold ex. apply Bool.negb_false_iff.
  Qed.
  Lemma ci_shows_type v : In v (a_types a) -> shows_type c v (ci_typ c (remove_in ex v)).
  Proof.
    intros Hv. unfold shows_type. cbn [ci_typ y_item y_constructors y_methods y_traits y_impls].
    rewrite !call_items. cbn [remove_in v_item v_constructors v_methods v_traits v_impls].
    refine (conj eq_refl (conj _ (conj _ (conj eq_refl eq_refl)))).
    - apply (removed_without v _ Hv). intros m Hm. apply in_or_app. now left.
    - apply (removed_without v _ Hv). intros m Hm. apply in_or_app. now right.
  Qed.

  Lemma ci_shows : no_custom c (g_items g) -> shows c (g_items g) b.
  Proof.
    intros NC. exists a. refine (conj ci_says (conj _ _)).
    - rewrite ci_functions, call_items. unfold remove_functions. apply filter_without. intros m Hm.
      rewrite <- (left_function c g a ci_says m Hm). fold ex. apply Bool.negb_false_iff.
    - exists (filter (keeps ex) (a_types a)). split.
      + apply filter_without. intros v Hv. exact (keep_false v Hv).
      + assert (T : b_types b = map (fun v => ci_typ c (remove_in ex v)) (filter (keeps ex) (a_types a))).
        { rewrite ci_types, a_types_store, filter_app, !map_app, map_map. f_equal.
          rewrite map_map. symmetry.
          assert (K : filter (keeps ex) (map bare (s_customs s)) = map bare (s_customs s)).
          { assert (F : forall v, In v (map bare (s_customs s)) -> keeps ex v = true).
            { intros v H. assert (Hv : In v (a_types a)) by (rewrite a_types_store; apply in_or_app; now right).
              destruct (keeps ex v) eqn:E; [reflexivity|]. apply (keep_false v Hv) in E.
              apply in_map_iff in H. destruct H as (m & <- & H).
              pose proof (store_customs (g_items g)) as F. rewrite Forall_forall in F.
              destruct (F m H) as (mp & n & t & doc & ->). destruct E as (k & Ek & Hk). injection Ek as <-.
              destruct (NC mp n t doc); [|exact Hk]. exact (a_item g a ci_says _ Hv). }
            clear -F. induction (map bare (s_customs s)) as [|v l IH]; [reflexivity|]. cbn [filter].
            rewrite (F v (or_introl eq_refl)). f_equal. apply IH. intros w Hw. apply F. now right. }
          rewrite K, map_map. reflexivity. }
        rewrite T. assert (G : forall l, (forall v, In v l -> In v (a_types a)) ->
          Forall2 (shows_type c) l (map (fun v => ci_typ c (remove_in ex v)) l)).
        { induction l as [|v l IH]; intros H; [constructor|]. cbn [map]. constructor.
          - apply ci_shows_type. apply H. now left.
          - apply IH. intros w Hw. apply H. now right. }
        apply G. intros v Hv. apply filter_In in Hv. exact (proj1 Hv).
  Qed.

  (** ** Symbols *)

  Lemma get_in n l x : get n l = Some x -> In (n, x) l.
  Proof.
    induction l as [|[k y] l IH]; cbn [get]; [discriminate|].
    destruct (bytes_eqb k n) eqn:E; intros H.
    - injection H as ->. apply Api_Iface.beq_true in E. subst k. now left.
    - right. auto.
  Qed.
  Lemma new_name_lower m mp n : keeps_traits c (g_items g) -> In m (g_items g) -> foreign m -> defined_at m = Some (mp, n) ->
    init_callback_vtable_fn_symbol_name mp (new_name c n) = init_callback_vtable_fn_symbol_name mp n.
  Proof.
    intros KT Hm F D. unfold new_name. destruct (get n (renames c)) as [x|] eqn:E; [|reflexivity].
    unfold init_callback_vtable_fn_symbol_name. rewrite (KT m mp n x Hm F D (get_in _ _ _ E)). reflexivity.
  Qed.
  Lemma foreign_imp o : has_callback_interface (o_imp o) = true <-> foreign (MObject o).
  Proof.
    cbn [foreign]. destruct (o_imp o) as [|[| |]]; cbn; split; try discriminate; auto; intros [X|X]; discriminate X.
  Qed.
  Lemma ci_init v t : keeps_traits c (g_items g) -> In v (a_types a) -> ci_table c (remove_in ex v) = Some t ->
    foreign (v_item v) /\ init_of (v_item v) = Some (t_init t) /\ t_slots t = v_methods (remove_in ex v).
  Proof.
    intros KT Hv. unfold ci_table. cbn [remove_in v_item v_methods]. pose proof (a_item g a ci_says v Hv) as Hi.
    destruct (v_item v) eqn:E; try discriminate.
    - destruct (has_callback_interface (o_imp o)) eqn:F; [|discriminate]. intros X. injection X as <-.
      apply foreign_imp in F. refine (conj F (conj _ eq_refl)). unfold init_of. cbn [defined_at t_init].
      now rewrite (new_name_lower _ _ _ KT Hi F eq_refl).
    - intros X. injection X as <-. refine (conj I (conj _ eq_refl)). unfold init_of. cbn [defined_at t_init].
      now rewrite (new_name_lower _ _ _ KT Hi I eq_refl).
  Qed.

  Definition needed (x : str) : Prop := exists m, stays c (g_items g) m /\ exports (g_items g) m x.
  Lemma needed_member v m x : In v (a_types a) -> ~ left_out c (v_item v) -> ~ callback (v_item v) ->
    In m (v_constructors (remove_in ex v) ++ v_methods (remove_in ex v) ++ v_traits (remove_in ex v)) ->
    In x (entry m) -> needed x.
  Proof.
    intros Hv L N Hm Hx. destruct (member_of v m Hv Hm) as (r & M & Lm). exists m. split.
    - exact (stays_member c g a ci_says v m r Hv L M Lm).
    - apply ex_entry; [exact (proj1 M)|exact (not_of_callback g a ci_says v m r Hv N M)|exact Hx].
  Qed.
  Lemma needed_checksum v m x : In v (a_types a) -> ~ left_out c (v_item v) ->
    In m (v_constructors (remove_in ex v) ++ v_methods (remove_in ex v)) -> In x (checksum_of m) -> needed x.
  Proof.
    intros Hv L Hm Hx. destruct (member_of v m Hv) as (r & M & Lm); [rewrite app_assoc; apply in_or_app; now left|].
    exists m. split; [exact (stays_member c g a ci_says v m r Hv L M Lm)|]. apply ex_checksum; [exact (proj1 M)|exact Hx].
  Qed.
  Lemma function_stays k : In k (b_functions b) -> exists m, k = call_of m /\ In m (a_functions a) /\ stays c (g_items g) m.
  Proof.
    rewrite ci_functions, in_map_iff. intros (m & <- & H). apply filter_In in H. destruct H as [H K].
    exists m. refine (conj eq_refl (conj H _)). apply (stays_function c g a ci_says m H).
    rewrite <- (left_function c g a ci_says m H). fold ex. apply Bool.negb_true_iff in K. congruence.
  Qed.

  Lemma ci_needs : keeps_traits c (g_items g) -> needs_only c (g_items g) b.
  Proof.
    intros KT x. rewrite ci_declared_eq, !in_app_iff. intros [H|[H|H]].
    - apply in_flat_map in H. destruct H as (y & Hy & Hx). destruct (ci_typ_from y Hy) as (v & Hv & -> & L).
      unfold ci_symbols in Hx. rewrite members_symbols in Hx. cbn [ci_typ y_item remove_in v_item y_table] in Hx.
      change (View (v_item v) _ _ _ _) with (remove_in ex v) in Hx.
      pose proof (a_item g a ci_says v Hv) as Hi.
      destruct (v_item v) eqn:E; try (destruct Hx; fail).
      + destruct L as [L|(? & ? & ? & ? & L)]; [|discriminate L].
        pose proof (stays_view c g a ci_says v Hv) as SV. rewrite E in SV. specialize (SV L).
        rewrite !in_app_iff in Hx. destruct Hx as [Hx|[Hx|Hx]].
        * exists (MObject o). split; [exact SV|]. apply ex_handle; [exact Hi|exact Hx].
        * destruct (ci_table c (remove_in ex v)) as [t|] eqn:Et; [|destruct Hx].
          destruct Hx as [<-|[]]. destruct (ci_init v t KT Hv Et) as (F & In_ & _). rewrite E in F, In_.
          exists (MObject o). split; [exact SV|]. apply ex_init; assumption.
        * apply in_flat_map in Hx. destruct Hx as (m & Hm & Hx).
          apply (needed_member v m x Hv); [rewrite E; exact L|rewrite E; intros []|exact Hm|exact Hx].
      + destruct L as [L|(? & ? & ? & ? & L)]; [|discriminate L].
        pose proof (stays_view c g a ci_says v Hv) as SV. rewrite E in SV. specialize (SV L).
        destruct (ci_table c (remove_in ex v)) as [t|] eqn:Et; [|destruct Hx].
        destruct Hx as [<-|[]]. destruct (ci_init v t KT Hv Et) as (F & In_ & _). rewrite E in F, In_.
        eexists. split; [exact SV|]. apply ex_init; assumption.
      + destruct L as [L|(? & ? & ? & ? & L)]; [|discriminate L].
        apply in_flat_map in Hx. destruct Hx as (m & Hm & Hx).
        apply (needed_member v m x Hv); [rewrite E; exact L|rewrite E; intros []|exact Hm|exact Hx].
      + destruct L as [L|(? & ? & ? & ? & L)]; [|discriminate L].
        apply in_flat_map in Hx. destruct Hx as (m & Hm & Hx).
        apply (needed_member v m x Hv); [rewrite E; exact L|rewrite E; intros []|exact Hm|exact Hx].
    - apply in_flat_map in H. destruct H as (k & Hk & Hx). destruct (function_stays k Hk) as (m & -> & Hm & St).
      exists m. split; [exact St|]. destruct (a_function g a ci_says m Hm) as (Hi & f & ->).
      apply ex_entry; [exact Hi|apply function_not_of_callback|exact Hx].
    - rewrite ci_checked_eq in H. apply in_app_or in H. destruct H as [H|H].
      + apply in_flat_map in H. destruct H as (m & Hm & Hx). apply in_map_iff in Hm. destruct Hm as (k & <- & Hk).
        destruct (function_stays k Hk) as (m & -> & Hm & St). exists m. split; [exact St|].
        apply ex_checksum; [exact (proj1 St)|]. rewrite <- checksum_symbols. exact Hx.
      + apply in_flat_map in H. destruct H as (y & Hy & Hx). destruct (ci_typ_from y Hy) as (v & Hv & -> & L).
        assert (Hx' : exists m, In m (v_constructors (remove_in ex v) ++ v_methods (remove_in ex v)) /\ In x (checksum_of m) /\ ~ custom (v_item v)).
        { unfold ci_checksums in Hx. cbn [ci_typ y_item y_methods y_constructors] in Hx. cbn [remove_in v_item] in Hx.
          destruct (v_item v); try (destruct Hx; fail).
          - rewrite <- map_app, call_items in Hx. apply in_flat_map in Hx. destruct Hx as (m & Hm & Hx). exists m.
            refine (conj _ (conj _ _)); [|now rewrite <- checksum_symbols|intros (? & ? & ? & ? & X); discriminate X].
            apply in_or_app. apply in_app_or in Hm. destruct Hm; [right|left]; assumption.
          - rewrite call_items in Hx. apply in_flat_map in Hx. destruct Hx as (m & Hm & Hx). exists m.
            refine (conj _ (conj _ _)); [|now rewrite <- checksum_symbols|intros (? & ? & ? & ? & X); discriminate X].
            apply in_or_app. now right. }
        destruct Hx' as (m & Hm & Hx' & NC). destruct L as [L|L]; [|destruct (NC L)].
        exact (needed_checksum v m x Hv L Hm Hx').
  Qed.

  (** ** Tables *)

  Lemma whole_methods v : whole_traits c (g_items g) -> In v (a_types a) -> foreign (v_item v) ->
    v_methods (remove_in ex v) = v_methods v.
  Proof.
    intros WT Hv F. cbn [remove_in v_methods]. unfold remove_members.
    assert (K : forall m, In m (v_methods v) -> negb (contains ex (def_name (v_item v) ++ S_ "." ++ name_of m)) = true).
    { intros m Hm. apply Bool.negb_true_iff.
      destruct (contains ex (def_name (v_item v) ++ S_ "." ++ name_of m)) eqn:E; [|reflexivity].
      apply (left_member c g a ci_says v m Hv) in E; [|apply in_or_app; now right].
      exfalso. revert E. destruct (a_method g a ci_says v m Hv Hm) as [(Hi & R & W)|(Hi & R & W)];
        apply (WT m (v_item v) Hi (a_item g a ci_says v Hv) F W); auto. }
    revert K. generalize (v_methods v). intros l K. induction l as [|m l IH]; [reflexivity|]. cbn [filter].
    rewrite (K m (or_introl eq_refl)). f_equal. apply IH. intros x Hx. apply K. now right.
  Qed.
  Lemma ci_tables : keeps_traits c (g_items g) -> whole_traits c (g_items g) -> tables (g_items g) b.
  Proof.
    intros KT WT. exists a. split; [exact ci_says|]. intros y Hy. destruct (ci_typ_from y Hy) as (v & Hv & -> & _).
    exists v. refine (conj Hv (conj eq_refl (conj _ _))).
    - cbn [ci_typ y_table]. unfold ci_table. cbn [remove_in v_item]. destruct (v_item v); try (intros []; fail).
      + intros F. apply foreign_imp in F. rewrite F. discriminate.
      + discriminate.
    - intros t Et. cbn [ci_typ y_table] in Et. destruct (ci_init v t KT Hv Et) as (F & I_ & S_).
      split; [exact I_|]. rewrite S_. exact (whole_methods v WT Hv F).
  Qed.

  (** ** Everything is there *)

  Lemma ci_there d n : In d (g_items g) -> defines d = Some (g_crate g, n) -> ~ In n ex -> there b (g_crate g, n).
  Proof.
    intros Hd D N. destruct (a_defined g a ci_says d Hd ltac:(congruence)) as (v & Hv & E).
    assert (L : ~ left_out c (v_item v)).
    { rewrite (left_out_definition c _ (proj1 (a_view g a ci_says v Hv))). rewrite D in E. now rewrite (defines_name _ _ _ E). }
    exists (ci_typ c (remove_in ex v)). split; [exact (ci_typ_of v Hv L)|]. cbn. now rewrite <- D.
  Qed.
  Lemma shown_stays m : no_custom c (g_items g) -> shown_item b m -> stays c (g_items g) m.
  Proof.
    intros NC [H|(y & Hy & H)].
    - apply in_map_iff in H. destruct H as (k & <- & Hk). destruct (function_stays k Hk) as (m & -> & _ & St). exact St.
    - destruct (ci_typ_from y Hy) as (v & Hv & -> & L).
      assert (L' : ~ left_out c (v_item v)).
      { destruct L as [L|(mp & n & t & doc & E)]; [exact L|]. rewrite E. intros (k & Ek & Hk). injection Ek as <-.
        apply (NC mp n t doc); [|exact Hk]. rewrite <- E. exact (a_item g a ci_says v Hv). }
      destruct H as [->|[H|H]].
      + exact (stays_view c g a ci_says v Hv L').
      + cbn [ci_typ y_constructors y_methods y_traits] in H. rewrite <- !map_app, call_items in H.
        destruct (member_of v m Hv H) as (r & M & Lm). exact (stays_member c g a ci_says v m r Hv L' M Lm).
      + cbn in H. pose proof (a_impl g a ci_says v m Hv H) as M.
        apply (stays_member c g a ci_says v m AnImpl Hv L' M).
        exact (not_left_trait c m AnImpl (proj1 (proj2 M)) (or_intror eq_refl)).
  Qed.
  Lemma excluded_dec n : {In n ex} + {~ In n ex}.
  Proof. apply in_dec. apply Meta_Eq.str_eq_dec. Qed.

  Lemma ci_closed : no_custom c (g_items g) -> items_closed (g_crate g) (g_items g) ->
    unused c (g_crate g) (g_items g) -> never_nested c (g_crate g) (g_items g) -> closed (g_crate g) b.
  Proof.
    intros NC IC UN NN t u n [Ht|(m & Sm & Ht)] Hu R.
    - destruct ci_parts as (i & Ei & _ & Eb). rewrite Eb in Ht. cbn [ci_generate b_converters] in Ht.
      destruct (exclusions_known _ _ _ _ Ht) as (K & S1 & S2 & S3 & S4).
      destruct (Univ_Proofs.nothing_else_spec _ _ _ Ei K) as [->|(w & (m & t0 & Hm & Ht0 & Hw) & ST)];
        [inversion Hu; subst; discriminate R|].
      assert (Ht0' : In t0 (types_of m)) by (apply in_or_app; now left).
      destruct (same_type_inside _ _ ST u _ Hu R) as (u' & Hu' & R').
      destruct (IC m t0 u' n Hm Ht0' (inside_trans _ _ _ Hw Hu') R') as (d & Hd & D).
      destruct (excluded_dec n) as [X|X]; [|exact (ci_there d n Hd D X)]. exfalso.
      assert (T : tainted c (g_crate g) w) by (exists u', n; auto).
      destruct (NN m t0 w Hm Ht0' Hw T) as (n' & Rw & X').
      destruct (IC m t0 w n' Hm Ht0' Hw Rw) as (d' & Hd' & D').
      destruct (a_defined g a ci_says d' Hd' ltac:(congruence)) as (v & Hv & Ev). rewrite D' in Ev.
      pose proof (defines_name _ _ _ Ev) as Nv.
      assert (Ncu : ~ custom (v_item v)).
      { intros (mp & k & t1 & doc & E). apply (NC mp k t1 doc).
        - rewrite <- E. exact (a_item g a ci_says v Hv).
        - rewrite E in Nv. cbn in Nv. now subst k. }
      pose proof (noncustom_in v Hv Ncu) as Hn. unfold noncustoms in Hn. rewrite !in_app_iff in Hn.
      assert (Cx : contains ex (def_name (v_item v)) = true) by (apply contains_In; now rewrite Nv).
      pose proof (same_type_name _ _ _ _ ST Rw) as TN.
      destruct Hn as [Hn|[Hn|[Hn|Hn]]].
      + apply (survives_not _ _ _ v S3 Hn Cx). now rewrite Nv.
      + apply (survives_not _ _ _ v S1 Hn Cx). now rewrite Nv.
      + apply (survives_not _ _ _ v S2 Hn Cx). now rewrite Nv.
      + apply (survives_not _ _ _ v S4 Hn Cx). now rewrite Nv.
    - pose proof (shown_stays m NC Sm) as St.
      destruct (IC m t u n (proj1 St) Ht Hu R) as (d & Hd & D).
      destruct (excluded_dec n) as [X|X]; [|exact (ci_there d n Hd D X)].
      destruct (UN m t St Ht). exists u, n. auto.
  Qed.
End Ci.
