(** The pipeline's tree holds what the items say. *)
From Verif Require Import Base Meta_Types Meta_Eq Group_Model Api_Types Api_Spec Api_Model Api_Accept Api_Iface Api_Said Api_Pipe.
From Coq Require Import Permutation Sorted.
From Verif Require Univ_Model Univ_Proofs Names_Model.

(** ** Sorting *)

Definition before_or_same (a b : metadata) : Prop := (index_of a <= index_of b)%Z.

Lemma insert_perm m l : Permutation (insert_by_index m l) (m :: l).
Proof.
  induction l as [|x l IH]; cbn [insert_by_index]; [reflexivity|]. destruct (_ <=? _)%Z; [reflexivity|].
  rewrite IH. apply perm_swap.
Qed.
Lemma sort_perm l : Permutation (sort_by_index l) l.
Proof.
  unfold sort_by_index. induction l as [|m l IH]; cbn [fold_right]; [reflexivity|]. rewrite insert_perm, IH. reflexivity.
Qed.
Lemma insert_sorted m l : StronglySorted before_or_same l -> StronglySorted before_or_same (insert_by_index m l).
Proof.
  induction l as [|x l IH]; intros S; cbn [insert_by_index]; [repeat constructor|].
  apply StronglySorted_inv in S. destruct S as [S F]. destruct (index_of m <=? index_of x)%Z eqn:E.
  - apply Z.leb_le in E. constructor; [constructor; assumption|]. constructor; [exact E|].
    apply Forall_forall. intros y I. rewrite Forall_forall in F. unfold before_or_same in *. specialize (F y I). lia.
  - apply Z.leb_gt in E. constructor; [exact (IH S)|]. apply Forall_forall. intros y I.
    apply (Permutation_in _ (insert_perm m l)) in I. rewrite Forall_forall in F. unfold before_or_same in *.
    destruct I as [<- | I]; [lia | exact (F y I)].
Qed.
Lemma sort_sorted l : StronglySorted before_or_same (sort_by_index l).
Proof. unfold sort_by_index. induction l as [|m l IH]; cbn [fold_right]; [constructor | apply insert_sorted, IH]. Qed.

Lemma sorted_strictly l : NoDup l -> Forall (fun m => is_trait_method m = true) l ->
  (forall a b, In a l -> In b l -> index_of a = index_of b -> a = b) ->
  StronglySorted before_or_same l -> StronglySorted before l.
Proof.
  induction l as [|m l IH]; intros N T D S; [constructor|]. apply StronglySorted_inv in S. destruct S as [S F].
  apply NoDup_cons_iff in N as [N0 N]. inversion T as [|? ? TM TL]; subst.
  constructor.
  - apply IH; auto. intros a b I J. apply D; right; assumption.
  - apply Forall_forall. intros x I. rewrite Forall_forall in F, TL. specialize (F x I). specialize (TL x I).
    destruct m, x; try discriminate. cbn [before]. unfold before_or_same in F. cbn [index_of] in F.
    assert (X : index <> index0); [|lia]. intros X.
    assert (Q := D _ _ (or_introl eq_refl) (or_intror I) X). rewrite <- Q in I. contradiction.
Qed.

(** ** Entries *)

Lemma filter_same {A} (p : A -> bool) l : (forall a, In a l -> p a = true) -> filter p l = l.
Proof.
  induction l as [|a l IH]; intros H; [reflexivity|]. cbn [filter]. rewrite (H a (or_introl eq_refl)), IH; [reflexivity|].
  intros b J. apply H. right. exact J.
Qed.
Lemma filter_none {A} (p : A -> bool) l : (forall a, In a l -> p a = false) -> filter p l = [].
Proof.
  induction l as [|a l IH]; intros H; [reflexivity|]. cbn [filter]. rewrite (H a (or_introl eq_refl)), IH; [reflexivity|].
  intros b J. apply H. right. exact J.
Qed.

Lemma map_all_forall {A B} (f : A -> res B) l r : map_all f l = Ok r -> Forall2 (fun a b => f a = Ok b) l r.
Proof.
  revert r. induction l as [|a l IH]; intros r H; cbn [map_all] in H.
  - injection H as <-. constructor.
  - apply bind_ok in H. destruct H as (b & E & H). apply bind_ok in H. destruct H as (bs & E' & H).
    injection H as <-. constructor; auto.
Qed.

Lemma map_node_item st m s : map_node st m = Ok s -> fst s = m.
Proof. unfold map_node. intros H. apply bind_ok in H. destruct H as (ts & _ & H). injection H as <-. reflexivity. Qed.

Lemma map_nodes_items st l r : map_all (map_node st) l = Ok r -> map fst r = l.
Proof.
  intros H. apply map_all_forall in H. induction H as [|m s l r E _ IH]; [reflexivity|].
  cbn [map]. rewrite IH, (map_node_item _ _ _ E). reflexivity.
Qed.

Lemma no_dash_same c : no_dash c -> replace_dashes c = c.
Proof.
  unfold no_dash, replace_dashes. induction c as [|b c IH]; intros N; [reflexivity|]. cbn [map].
  destruct (byte_eqb_spec b Byte.x2d) as [-> | X].
  - exfalso. apply N. left. reflexivity.
  - rewrite IH; [reflexivity|]. intros I. apply N. right. exact I.
Qed.

Section Tree.
  Variables (gs : list group) (st : converter).
  Hypothesis GR : grouped gs.
  Hypothesis ND : forall g, In g gs -> no_dash (g_crate g).
  Hypothesis I : inv (stream gs) st.

  Lemma in_stream m : is_namespace m = false -> (In m (stream gs) <-> In m (all_items gs)).
  Proof.
    intros N. unfold stream, all_items, group_stream. rewrite !in_flat_map. split; intros (g & J & K); exists g; (split; [exact J|]).
    - destruct K as [<- | K]; [discriminate | exact K].
    - right. exact K.
  Qed.
  Lemma namespace_in_stream c n : In (MNamespace c n) (stream gs) <-> exists g, In g gs /\ g_crate g = c /\ g_namespace g = n.
  Proof.
    unfold stream, group_stream. rewrite in_flat_map. split; intros (g & J & K).
    - exists g. split; [exact J|]. destruct K as [K | K]; [injection K as <- <-; auto|].
      destruct GR as [_ F]. rewrite Forall_forall in F. destruct (F g J) as [_ X]. destruct (X _ K) as [_ X']. discriminate.
    - destruct K as [<- <-]. exists g. split; [exact J | left; reflexivity].
  Qed.

  Lemma same_group g g' : In g gs -> In g' gs -> g_crate g = g_crate g' -> g = g'.
  Proof.
    intros J J' E. destruct GR as [N _]. clear -N J J' E. induction gs as [|x l IH]; [destruct J|].
    cbn [map] in N. apply NoDup_cons_iff in N as [N0 N]. destruct J as [-> | J], J' as [-> | J']; auto.
    - exfalso. apply N0. rewrite E. apply in_map. exact J'.
    - exfalso. apply N0. rewrite <- E. apply in_map. exact J.
  Qed.

  Lemma group_of g : In g gs -> of_group g.
  Proof. intros J. destruct GR as [_ F]. rewrite Forall_forall in F. exact (F g J). Qed.

  (** An item is in the group of its crate. *)
  Lemma item_group g m mp : In g gs -> In m (all_items gs) -> module_path m = Ok mp -> crate_of mp = g_crate g ->
    In m (g_items g).
  Proof.
    intros J K M C. unfold all_items in K. apply in_flat_map in K. destruct K as (g' & J' & K).
    rewrite (of_group_crate g' m mp (group_of g' J') K M) in C.
    rewrite <- (same_group g' g J' J C). exact K.
  Qed.

  Lemma in_all g m : In g gs -> In m (g_items g) -> In m (all_items gs).
  Proof. intros J K. apply in_flat_map. eauto. Qed.

  Lemma paths_of g : In g gs -> find_str (g_crate g) (c_paths st) = Some (g_namespace g).
  Proof.
    intros J. assert (K : In (g_crate g, g_namespace g) (c_paths st)).
    { apply (i_paths _ _ I). apply namespace_in_stream. eauto. }
    destruct (in_find_str _ _ _ K) as (ns & F). rewrite F. f_equal.
    apply find_str_in in F. apply (i_paths _ _ I) in F. apply namespace_in_stream in F.
    destruct F as (g' & J' & C & <-). rewrite (same_group g g' J J' (eq_sym C)). reflexivity.
  Qed.

  Lemma crate_prefix_none mp : path_crate mp = crate_of mp.
  Proof. reflexivity. Qed.

  Lemma namespace_group g mp : In g gs -> crate_of mp = g_crate g -> namespace_of st mp = Ok (g_namespace g).
  Proof.
    intros J C. unfold namespace_of. rewrite crate_prefix_none, C, (no_dash_same _ (ND g J)), (paths_of g J). reflexivity.
  Qed.

  Lemma spaces_differ g g' : In g gs -> In g' gs -> g_namespace g = g_namespace g' -> g = g'.
  Proof.
    intros J J' E. apply same_group; auto.
    assert (K : forall x, In x gs -> In (g_namespace x, g_crate x) (c_spaces st)).
    { intros x X. apply (i_space _ _ I). apply namespace_in_stream. eauto. }
    pose proof (K g J) as K1. pose proof (K g' J') as K2. rewrite <- E in K2.
    pose proof (i_spaces _ _ I) as N. clear -N K1 K2. revert K1 K2. generalize (g_namespace g) (g_crate g) (g_crate g').
    intros n c c' K1 K2. induction (c_spaces st) as [|[x y] l IH]; [destruct K1|]. cbn [map fst] in N.
    apply NoDup_cons_iff in N as [N0 N]. destruct K1 as [K1 | K1], K2 as [K2 | K2]; auto.
    - congruence.
    - injection K1 as -> ->. exfalso. apply N0. apply in_map_iff. exists (n, c'). auto.
    - injection K2 as -> ->. exfalso. apply N0. apply in_map_iff. exists (n, c). auto.
  Qed.

  (** ** Members *)

  Lemma entries_exactly p (Q : metadata -> Prop) :
    (forall m k, key_of m = Some k -> In m (all_items gs) -> (p k = true <-> Q m)) ->
    (forall m, Q m -> In m (all_items gs) /\ key_of m <> None /\ is_custom m = false) ->
    exactly Q (entries_where p st).
  Proof.
    intros A B. unfold entries_where. split.
    - assert (N := i_keys _ _ I). assert (E := i_entry _ _ I).
      apply NoDup_map_on.
      + apply NoDup_filter. exact (NoDup_map_inv _ _ N).
      + intros [k m] [k' m'] J J' X. cbn [snd] in X. subst m'. apply filter_In in J, J'.
        destruct (E k m (proj1 J)) as [_ E1]. destruct (E k' m (proj1 J')) as [_ E2]. congruence.
    - intros m. rewrite in_map_iff. split.
      + intros ([k x] & <- & J). apply filter_In in J. destruct J as [J P]. cbn [fst snd] in *.
        destruct (i_entry _ _ I k x J) as [J1 J2]. apply (A x k J2); [|exact P].
        apply in_stream; [destruct x; try reflexivity; discriminate | exact J1].
      + intros X. destruct (B m X) as (J & K & C). destruct (key_of m) as [k|] eqn:KM; [|contradiction].
        assert (NN : is_namespace m = false) by (destruct m; try reflexivity; discriminate).
        destruct (i_all _ _ I m k (proj2 (in_stream m NN) J) KM) as (m' & J' & S).
        destruct S as [-> | (q1 & q2 & q3 & q4 & q5 & -> & _)]; [|discriminate].
        exists (k, m). split; [reflexivity|]. apply filter_In. split; [exact J'|]. cbn [fst]. apply (A m k KM J). exact X.
  Qed.

  Lemma eqb2_spec c n c' n' : eqb2 c n c' n' = true <-> c = c' /\ n = n'.
  Proof.
    unfold eqb2. destruct (bytes_eqb_spec c c') as [-> | X], (bytes_eqb_spec n n') as [-> | Y]; cbn; split; auto; try discriminate;
      intros []; contradiction.
  Qed.

  Lemma utrait_written u : written_for (MUniffiTrait u) = Some (path_crate (utrait_path u), Univ_Model.utrait_self u).
  Proof. destruct u; reflexivity. Qed.
  Lemma impl_written t u mp n : type_module_path t = Some mp -> Univ_Model.type_name t = Some n ->
    written_for (MTraitImpl t u) = Some (path_crate mp, n).
  Proof. destruct t; cbn; try discriminate; intros X Y; injection X as <-; injection Y as <-; reflexivity. Qed.

  (** The members of a type, as the converter finds them. *)
  Definition child_of (r : role) (c n : str) (k : key) : bool :=
    match r, k with
    | AConstructor, KConstructor c' o _ => eqb2 c n c' o
    | AMethod, KMethod c' o _ => eqb2 c n c' o
    | ATraitMethod, KTraitMethod c' o _ => eqb2 c n c' o
    | ATrait, KTrait c' o _ => eqb2 c n c' o
    | AnImpl, KImpl c' o _ => eqb2 c n c' o
    | _, _ => false
    end.

  Lemma child_spec r c n m k : key_of m = Some k -> In m (all_items gs) ->
    (child_of r c n k = true <-> In m (all_items gs) /\ role_of m = Some r /\ written_for m = Some (c, n)).
  Proof.
    intros K J.
    assert (G : forall r' c' n', role_of m = Some r' -> written_for m = Some (c', n') ->
                child_of r c n k = (match r, r' with
                                    | AConstructor, AConstructor | AMethod, AMethod | ATraitMethod, ATraitMethod
                                    | ATrait, ATrait | AnImpl, AnImpl => eqb2 c n c' n' | _, _ => false end) ->
                (child_of r c n k = true <-> In m (all_items gs) /\ role_of m = Some r /\ written_for m = Some (c, n))).
    { intros r' c' n' R W ->. rewrite R, W. destruct r, r'; rewrite ?eqb2_spec; split;
        try (intros (_ & X & _); discriminate); try discriminate.
      all: try (intros [-> ->]; auto). all: intros (_ & _ & X); injection X as <- <-; auto. }
    destruct m as [ | | | | | | |self f|self f|self idx f| |u|t tt]; cbn [key_of] in K; try discriminate;
      try (injection K as <-; split; [destruct r; discriminate | intros (_ & X & _); discriminate]).
    - injection K as <-. apply (G AConstructor _ _ eq_refl eq_refl). destruct r; reflexivity.
    - injection K as <-. apply (G AMethod _ _ eq_refl eq_refl). destruct r; reflexivity.
    - injection K as <-. apply (G ATraitMethod _ _ eq_refl eq_refl). destruct r; reflexivity.
    - injection K as <-. apply (G ATrait _ _ eq_refl (utrait_written u)). destruct r; reflexivity.
    - destruct (type_module_path t) as [mp|] eqn:T1; [|discriminate].
      destruct (Univ_Model.type_name t) as [nm|] eqn:T2; [|discriminate]. injection K as <-.
      apply (G AnImpl _ _ eq_refl (impl_written t tt mp nm T1 T2)). destruct r; reflexivity.
  Qed.

  Lemma role_key m r : role_of m = Some r -> In m (all_items gs) -> key_of m <> None /\ is_custom m = false.
  Proof.
    intros R J. destruct m as [ | | | | | | |self f|self f|self idx f| |u|t tt]; cbn in R; try discriminate;
      cbn [key_of is_custom]; split; try discriminate; try reflexivity.
    unfold all_items in J. apply in_flat_map in J. destruct J as (g & J & K).
    destruct (group_of g J) as [_ X]. destruct (X _ K) as [(mp & M & _) _].
    destruct t; cbn in M; try discriminate; cbn; discriminate.
  Qed.

  Lemma children r c n :
    exactly (fun m => In m (all_items gs) /\ role_of m = Some r /\ written_for m = Some (c, n))
            (entries_where (child_of r c n) st).
  Proof.
    apply entries_exactly.
    - intros m k K J. exact (child_spec r c n m k K J).
    - intros m (J & R & _). split; [exact J | exact (role_key m r R J)].
  Qed.

  (** All about one group. *)
  Lemma member_all g d r m : In g gs -> In d (g_items g) -> defines d <> None ->
    (member (g_items g) d r m <-> In m (all_items gs) /\ role_of m = Some r /\ written_for m = Some (g_crate g, def_name d)).
  Proof.
    intros J K D. unfold member. rewrite (defines_group g d (group_of g J) K D). split.
    - intros (A & B & C). split; [exact (in_all g m J A) | auto].
    - intros (A & B & C). refine (conj _ (conj B C)).
      unfold all_items in A. apply in_flat_map in A. destruct A as (g' & J' & A).
      assert (W := written_for_group g' m (group_of g' J') A ltac:(congruence)). rewrite C in W. injection W as W _.
      rewrite (same_group g g' J J' W). exact A.
  Qed.

  Lemma exactly_ext P Q l : (forall m, P m <-> Q m) -> exactly P l -> exactly Q l.
  Proof. intros E [N A]. split; [exact N|]. intros m. rewrite A. apply E. Qed.

  Lemma group_children g d r : In g gs -> In d (g_items g) -> defines d <> None ->
    exactly (member (g_items g) d r) (entries_where (child_of r (g_crate g) (def_name d)) st).
  Proof.
    intros J K D. apply (exactly_ext _ _ _ (fun m => iff_sym (member_all g d r m J K D))). apply children.
  Qed.

  Lemma exactly_or P Q l l' : exactly P l -> exactly Q l' -> (forall m, P m -> Q m -> False) ->
    exactly (fun m => P m \/ Q m) (l ++ l').
  Proof.
    intros [N A] [N' B] D. split.
    - apply NoDup_app2; auto. intros m X Y. apply A in X. apply B in Y. exact (D m X Y).
    - intros m. rewrite in_app_iff, A, B. reflexivity.
  Qed.
  Lemma exactly_permuted P l l' : exactly P l -> Permutation l l' -> exactly P l'.
  Proof.
    intros [N A] X. split; [exact (Permutation_NoDup X N)|]. intros m. rewrite <- A.
    split; apply Permutation_in; [symmetry|]; exact X.
  Qed.

  Lemma entries_where_ext p q : (forall k, p k = q k) -> entries_where p st = entries_where q st.
  Proof.
    intros E. unfold entries_where. f_equal. apply filter_ext. intros [k m]. apply E.
  Qed.

  Lemma methods_said g d ms mp : In g gs -> In d (g_items g) -> defines d <> None -> numbered (g_items g) ->
    crate_of mp = g_crate g -> methods_for_type st mp (def_name d) = Ok ms ->
    exactly (fun m => member (g_items g) d AMethod m \/ member (g_items g) d ATraitMethod m) (map fst ms) /\
    StronglySorted before (filter is_trait_method (map fst ms)).
  Proof.
    intros J K D NU C H. unfold methods_for_type in H. rewrite crate_prefix_none, C in H.
    rewrite (entries_where_ext (fun k => match k with KMethod c' o _ => eqb2 (g_crate g) (def_name d) c' o | _ => false end)
              (child_of AMethod (g_crate g) (def_name d))) in H by (intros k; destruct k; reflexivity).
    rewrite (entries_where_ext (fun k => match k with KTraitMethod c' o _ => eqb2 (g_crate g) (def_name d) c' o | _ => false end)
              (child_of ATraitMethod (g_crate g) (def_name d))) in H by (intros k; destruct k; reflexivity).
    pose proof (group_children g d AMethod J K D) as EM. pose proof (group_children g d ATraitMethod J K D) as ET.
    set (lm := entries_where (child_of AMethod (g_crate g) (def_name d)) st) in *.
    set (lt := entries_where (child_of ATraitMethod (g_crate g) (def_name d)) st) in *.
    assert (DJ : forall m, member (g_items g) d AMethod m -> member (g_items g) d ATraitMethod m -> False).
    { intros m (_ & R1 & _) (_ & R2 & _). congruence. }
    assert (BOTH := exactly_or _ _ _ _ EM ET DJ).
    destruct lm as [|m0 lm'].
    - apply map_nodes_items in H. rewrite H. cbn [app] in BOTH. split.
      + apply (exactly_permuted _ _ _ BOTH). symmetry. apply sort_perm.
      + assert (TM : forall m, In m lt -> exists idx f, m = MTraitMethod (def_name d) idx f /\ In m (g_items g)).
        { intros m X. apply (proj2 ET) in X. destruct X as (X & R & W). destruct m; try discriminate.
          rewrite (defines_group g d (group_of g J) K D) in W. cbn [written_for] in W. injection W as _ ->. eauto. }
        assert (F : filter is_trait_method (sort_by_index lt) = sort_by_index lt).
        { apply filter_same. intros m X.
          apply (Permutation_in _ (sort_perm lt)) in X. destruct (TM m X) as (idx & f & -> & _). reflexivity. }
        rewrite F. apply sorted_strictly.
        * apply (Permutation_NoDup (Permutation_sym (sort_perm lt))). apply ET.
        * apply Forall_forall. intros m X. apply (Permutation_in _ (sort_perm lt)) in X.
          destruct (TM m X) as (idx & f & -> & _). reflexivity.
        * intros a b XA XB E. apply (Permutation_in _ (sort_perm lt)) in XA, XB.
          destruct (TM a XA) as (ia & fa & -> & IA), (TM b XB) as (ib & fb & -> & IB). cbn [index_of] in E. subst ib.
          assert (SN : NoDup (numbers (def_name d) (g_items g))).
          { specialize (NU (def_name d)). clear -NU. induction NU as [|z l _ IH F]; constructor; auto.
            intros X. rewrite Forall_forall in F. specialize (F z X). lia. }
          unfold numbers in SN.
          apply (flat_map_once _ _ SN _ _ ia IA IB); cbn; destruct (str_eq_dec (def_name d) (def_name d)); try contradiction; left; reflexivity.
        * apply sort_sorted.
    - destruct lt as [|t0 lt']; [|discriminate]. apply map_nodes_items in H. rewrite H.
      rewrite app_nil_r in BOTH. split; [exact BOTH|].
      assert (F : filter is_trait_method (m0 :: lm') = []).
      { assert (X : forall m, In m (m0 :: lm') -> is_trait_method m = false).
        { intros m X. apply (proj2 EM) in X. destruct X as (_ & R & _). destruct m; try discriminate; reflexivity. }
        clear -X. induction (m0 :: lm') as [|y l IH]; [reflexivity|]. cbn [filter].
        rewrite (X y (or_introl eq_refl)). apply IH. intros x J. apply X. right. exact J. }
      rewrite F. constructor.
  Qed.

  Lemma constructors_said g d cs mp : In g gs -> In d (g_items g) -> defines d <> None -> crate_of mp = g_crate g ->
    constructors_for_type st mp (def_name d) = Ok cs -> exactly (member (g_items g) d AConstructor) (map fst cs).
  Proof.
    intros J K D C H. unfold constructors_for_type in H. apply map_nodes_items in H. rewrite H.
    rewrite crate_prefix_none, C.
    rewrite (entries_where_ext _ (child_of AConstructor (g_crate g) (def_name d))) by (intros k; destruct k; reflexivity).
    apply group_children; assumption.
  Qed.
  Lemma traits_said g d cs mp : In g gs -> In d (g_items g) -> defines d <> None -> crate_of mp = g_crate g ->
    uniffi_traits_for_type st mp (def_name d) = Ok cs -> exactly (member (g_items g) d ATrait) (map fst cs).
  Proof.
    intros J K D C H. unfold uniffi_traits_for_type in H. apply map_nodes_items in H. rewrite H.
    rewrite crate_prefix_none, C.
    rewrite (entries_where_ext _ (child_of ATrait (g_crate g) (def_name d))) by (intros k; destruct k; reflexivity).
    apply group_children; assumption.
  Qed.
  Lemma impls_said g d cs mp : In g gs -> In d (g_items g) -> defines d <> None -> crate_of mp = g_crate g ->
    trait_impls_for_type st mp (def_name d) = Ok cs -> exactly (member (g_items g) d AnImpl) (map fst cs).
  Proof.
    intros J K D C H. unfold trait_impls_for_type in H. apply map_nodes_items in H. rewrite H.
    rewrite crate_prefix_none, C.
    rewrite (entries_where_ext _ (child_of AnImpl (g_crate g) (def_name d))) by (intros k; destruct k; reflexivity).
    apply group_children; assumption.
  Qed.

  (** A definition has no members it cannot take. *)
  Lemma none_taken g d r : In g gs -> In d (g_items g) -> defines d <> None -> owned (g_items g) -> types_differ (g_items g) ->
    ~ takes d r -> exactly (member (g_items g) d r) [].
  Proof.
    intros J K D OW TD NT. split; [constructor|]. intros m. split; [intros []|]. intros (A & R & W).
    destruct (OW m r A R) as (d' & K' & D' & W' & T). rewrite W in W'.
    destruct (TD d d' K K' D W') as [<- | (mp & n & b & doc & doc' & _ & ->)]; [exact (NT T)|].
    destruct r; exact T.
  Qed.

  (** ** Where entries go *)

  Definition is_function_key (c : str) (k : key) : bool :=
    match k with KFunction c' _ => bytes_eqb c' c | _ => false end.
  Definition is_type_key (c : str) (k : key) : bool :=
    match k with
    | KRecord c' _ | KEnum c' _ | KObject c' _ | KCallback c' _ | KCustom c' _ => bytes_eqb c' c
    | _ => false
    end.

  Lemma put_ok (ns : str) (r : res node) x :
    bind (Ok ns) (fun ns => bind r (fun y => Ok [(ns, y)])) = Ok x -> exists y, r = Ok y /\ x = [(ns, y)].
  Proof.
    cbn [bind]. intros H. apply bind_ok in H. destruct H as (y & E & H). injection H as <-. eauto.
  Qed.

  (** The view of a definition. *)
  Lemma describes_intro g d w : In g gs -> In d (g_items g) -> defines d <> None -> owned (g_items g) -> types_differ (g_items g) ->
    v_item w = d ->
    (takes d AConstructor /\ exactly (member (g_items g) d AConstructor) (v_constructors w) \/
     ~ takes d AConstructor /\ v_constructors w = []) ->
    ((exactly (fun m => member (g_items g) d AMethod m \/ member (g_items g) d ATraitMethod m) (v_methods w) /\
      StronglySorted before (filter is_trait_method (v_methods w))) \/
     (~ takes d AMethod /\ ~ takes d ATraitMethod) /\ v_methods w = []) ->
    (takes d ATrait /\ exactly (member (g_items g) d ATrait) (v_traits w) \/
     ~ takes d ATrait /\ v_traits w = []) ->
    (takes d AnImpl /\ exactly (member (g_items g) d AnImpl) (v_impls w) \/
     ~ takes d AnImpl /\ v_impls w = []) ->
    describes (g_items g) w.
  Proof.
    intros J K D OW TD V A B C E. unfold describes. rewrite V. cbv zeta.
    assert (NT := fun r => none_taken g d r J K D OW TD).
    assert (G : forall r l, (takes d r /\ exactly (member (g_items g) d r) l \/ ~ takes d r /\ l = []) ->
                exactly (member (g_items g) d r) l).
    { intros r l [[_ X] | [X ->]]; [exact X | exact (NT r X)]. }
    refine (conj K (conj (G _ _ A) (conj _ (conj (G _ _ C) (conj (G _ _ E) _))))).
    - destruct B as [[B _] | [[B1 B2] ->]]; [exact B|].
      apply (exactly_or _ _ [] [] (NT _ B1) (NT _ B2)). intros m (_ & R1 & _) (_ & R2 & _). congruence.
    - destruct B as [[_ B] | [_ ->]]; [exact B | constructor].
  Qed.

  Lemma place_def g k d x : In g gs -> In d (g_items g) -> defines d <> None -> owned (g_items g) -> types_differ (g_items g) ->
    numbered (g_items g) -> place st (k, d) = Ok x ->
    exists v, x = [(g_namespace g, NType v)] /\ fst (v_item v) = d /\ describes (g_items g) (view_map fst v).
  Proof.
    intros J K D OW TD NU H.
    assert (CR : forall mp, module_path d = Ok mp -> path_crate mp = g_crate g).
    { intros mp M. exact (of_group_crate g d mp (group_of g J) K M). }
    assert (NS : forall mp, module_path d = Ok mp -> namespace_of st (path_crate mp) = Ok (g_namespace g)).
    { intros mp M. apply (namespace_group g _ J). rewrite <- (CR mp M). apply crate_twice. }
    assert (CS := fun mp cs C => constructors_said g d cs mp J K D C).
    assert (MS := fun mp cs C => methods_said g d cs mp J K D NU C).
    assert (TS := fun mp cs C => traits_said g d cs mp J K D C).
    assert (IS := fun mp cs C => impls_said g d cs mp J K D C).
    assert (W := fun w => describes_intro g d w J K D OW TD).
    destruct d as [ | | |o|mp n doc|r|e| | | |mp n b doc| | ]; try (exfalso; apply D; reflexivity);
      cbn [place snd] in H; rewrite (NS _ eq_refl) in H; apply put_ok in H; destruct H as (y & H & ->);
      apply bind_ok in H; destruct H as (v & H & Y); injection Y as <-; exists v;
      [ unfold map_interface in H | unfold map_callback_interface in H | unfold map_data in H | unfold map_data in H
      | unfold map_custom_type in H ].
    - apply bind_ok in H. destruct H as (cs & HC & H). apply bind_ok in H. destruct H as (ms & HM & H).
      apply bind_ok in H. destruct H as (ts & HT & H). apply bind_ok in H. destruct H as (is & HI & H).
      apply bind_ok in H. destruct H as (s & HS & H). injection H as <-. apply map_node_item in HS.
      refine (conj eq_refl (conj HS _)). apply W; [exact HS| | | |]; left;
        [split; [exact Logic.I | exact (CS _ _ (CR _ eq_refl) HC)] | exact (MS _ _ (CR _ eq_refl) HM)
        | split; [exact Logic.I | exact (TS _ _ (CR _ eq_refl) HT)] | split; [exact Logic.I | exact (IS _ _ (CR _ eq_refl) HI)]].
    - apply bind_ok in H. destruct H as (ms & HM & H).
      apply bind_ok in H. destruct H as (s & HS & H). injection H as <-. apply map_node_item in HS.
      refine (conj eq_refl (conj HS _)). apply W; [exact HS| | | |];
        [right; split; [intros [] | reflexivity] | left; exact (MS _ _ (CR _ eq_refl) HM)
        | right; split; [intros [] | reflexivity] | right; split; [intros [] | reflexivity]].
    - apply bind_ok in H. destruct H as (cs & HC & H). apply bind_ok in H. destruct H as (ms & HM & H).
      apply bind_ok in H. destruct H as (ts & HT & H).
      apply bind_ok in H. destruct H as (s & HS & H). injection H as <-. apply map_node_item in HS.
      refine (conj eq_refl (conj HS _)). apply W; [exact HS| | | |];
        [left; split; [exact Logic.I | exact (CS _ _ (CR _ eq_refl) HC)] | left; exact (MS _ _ (CR _ eq_refl) HM)
        | left; split; [exact Logic.I | exact (TS _ _ (CR _ eq_refl) HT)] | right; split; [intros [] | reflexivity]].
    - apply bind_ok in H. destruct H as (cs & HC & H). apply bind_ok in H. destruct H as (ms & HM & H).
      apply bind_ok in H. destruct H as (ts & HT & H).
      apply bind_ok in H. destruct H as (s & HS & H). injection H as <-. apply map_node_item in HS.
      refine (conj eq_refl (conj HS _)). apply W; [exact HS| | | |];
        [left; split; [exact Logic.I | exact (CS _ _ (CR _ eq_refl) HC)] | left; exact (MS _ _ (CR _ eq_refl) HM)
        | left; split; [exact Logic.I | exact (TS _ _ (CR _ eq_refl) HT)] | right; split; [intros [] | reflexivity]].
    - apply bind_ok in H. destruct H as (s & HS & H). injection H as <-. apply map_node_item in HS.
      refine (conj eq_refl (conj HS _)). apply W; [exact HS| | | |]; right;
        [split; [intros [] | reflexivity] | split; [split; intros [] | reflexivity]
        | split; [intros [] | reflexivity] | split; [intros [] | reflexivity]].
  Qed.

  Lemma place_function g k f x : In g gs -> In (MFunc f) (g_items g) -> place st (k, MFunc f) = Ok x ->
    exists s, x = [(g_namespace g, NFunction s)] /\ fst s = MFunc f.
  Proof.
    intros J K H. cbn [place snd] in H.
    rewrite (namespace_group g _ J) in H.
    2: { rewrite <- (of_group_crate g _ (f_mp f) (group_of g J) K eq_refl). apply crate_twice. }
    apply put_ok in H. destruct H as (y & H & ->). apply bind_ok in H. destruct H as (s & H & Y). injection Y as <-.
    exists s. split; [reflexivity|]. exact (map_node_item _ _ _ H).
  Qed.

  Lemma place_member k m x : role_of m <> None -> place st (k, m) = Ok x -> x = [].
  Proof. intros R H. destruct m; try (exfalso; apply R; reflexivity); cbn [place snd] in H; injection H as <-; reflexivity. Qed.

  Lemma kinds_of_items m : key_of m <> None -> (exists f, m = MFunc f) \/ defines m <> None \/ role_of m <> None.
  Proof. destruct m; intros K; try (exfalso; apply K; reflexivity); [left; eauto | right ..]; try (left; discriminate); right; discriminate. Qed.

  Lemma def_key g d k : In g gs -> In d (all_items gs) -> key_of d = Some k ->
    (is_type_key (g_crate g) k = true <-> In d (g_items g) /\ defines d <> None).
  Proof.
    intros J K KD.
    assert (GO : forall mp, module_path d = Ok mp -> (path_crate mp = g_crate g <-> In d (g_items g))).
    { intros mp M. split; [exact (item_group g d mp J K M) | intros X; exact (of_group_crate g d mp (group_of g J) X M)]. }
    assert (E : forall mp, module_path d = Ok mp -> defines d <> None ->
                (bytes_eqb (path_crate mp) (g_crate g) = true <-> In d (g_items g) /\ defines d <> None)).
    { intros mp M DD. rewrite <- (GO mp M). destruct (bytes_eqb_spec (path_crate mp) (g_crate g)); split; auto; try discriminate.
      intros []; contradiction. }
    destruct d; cbn [key_of] in KD; try discriminate;
      try (injection KD as <-; apply E; [reflexivity | discriminate]);
      try (injection KD as <-; split; [discriminate | intros [_ X]; exfalso; apply X; reflexivity]).
    destruct (type_module_path t); [|discriminate]. destruct (Univ_Model.type_name t); [|discriminate].
    injection KD as <-. split; [discriminate | intros [_ X]; exfalso; apply X; reflexivity].
  Qed.
  Lemma function_key g m k : In g gs -> In m (all_items gs) -> key_of m = Some k ->
    (is_function_key (g_crate g) k = true <-> In m (g_items g) /\ exists f, m = MFunc f).
  Proof.
    intros J K KD. destruct m; cbn [key_of] in KD; try discriminate;
      try (injection KD as <-; split; [discriminate | intros [_ [f' X]]; discriminate]).
    - injection KD as <-. cbn [is_function_key].
      destruct (bytes_eqb_spec (path_crate (f_mp f)) (g_crate g)) as [E | E].
      + split; auto. intros _. split; [exact (item_group g _ _ J K eq_refl E) | eauto].
      + split; [discriminate|]. intros [X _]. exfalso. apply E. exact (of_group_crate g _ (f_mp f) (group_of g J) X eq_refl).
    - destruct (type_module_path t); [|discriminate]. destruct (Univ_Model.type_name t); [|discriminate].
      injection KD as <-. split; [discriminate | intros [_ [f X]]; discriminate].
  Qed.

  Lemma entry_all k m : In (k, m) (c_entries st) -> In m (all_items gs) /\ key_of m = Some k.
  Proof.
    intros J. destruct (i_entry _ _ I k m J) as [J1 J2]. split; [|exact J2].
    apply in_stream; [destruct m; try reflexivity; discriminate | exact J1].
  Qed.

  Hypothesis OW : forall g, In g gs -> owned (g_items g).
  Hypothesis TD : forall g, In g gs -> types_differ (g_items g).
  Hypothesis NU : forall g, In g gs -> numbered (g_items g).

  Lemma placed g l nodes : In g gs -> (forall e, In e l -> In e (c_entries st)) ->
    Forall2 (fun e x => place st e = Ok x) l nodes ->
    map fst (functions_in (g_namespace g) (concat nodes)) = map snd (filter (fun e => is_function_key (g_crate g) (fst e)) l) /\
    map (fun v => fst (v_item v)) (types_in (g_namespace g) (concat nodes)) = map snd (filter (fun e => is_type_key (g_crate g) (fst e)) l) /\
    Forall (fun v => describes (g_items g) (view_map fst v)) (types_in (g_namespace g) (concat nodes)).
  Proof.
    intros J SUB F. induction F as [|[k m] x l nodes P F IH]; [repeat split; constructor|].
    assert (IH' := IH (fun e X => SUB e (or_intror X))). clear IH. destruct IH' as (A & B & C).
    destruct (entry_all k m (SUB _ (or_introl eq_refl))) as [K KM].
    destruct (proj1 (in_flat_map _ _ _) K) as (g' & J' & K').
    assert (FK := function_key g m k J K KM). assert (TK := def_key g m k J K KM).
    cbn [concat filter fst]. unfold functions_in, types_in in *. rewrite !flat_map_app.
    destruct (kinds_of_items m ltac:(congruence)) as [(f & ->) | [DM | RM]].
    - destruct (place_function g' k f x J' K' P) as (s & -> & S). cbn [flat_map app].
      assert (T : is_type_key (g_crate g) k = false).
      { destruct (is_type_key (g_crate g) k) eqn:E; [|reflexivity]. destruct (proj1 TK eq_refl) as [_ X]. exfalso. apply X. reflexivity. }
      rewrite T. destruct (bytes_eqb_spec (g_namespace g') (g_namespace g)) as [E | E].
      + rewrite (spaces_differ g' g J' J E) in K'. rewrite (proj2 FK (conj K' (ex_intro _ f eq_refl))).
        cbn [app map snd]. rewrite S, A. repeat split; assumption.
      + assert (X : is_function_key (g_crate g) k = false).
        { destruct (is_function_key (g_crate g) k) eqn:Y; [|reflexivity]. destruct (proj1 FK eq_refl) as [X _]. exfalso. apply E. f_equal.
          apply (same_group g' g J' J). rewrite <- (of_group_crate g' _ (f_mp f) (group_of g' J') K' eq_refl).
          exact (of_group_crate g _ (f_mp f) (group_of g J) X eq_refl). }
        rewrite X. cbn [app]. repeat split; assumption.
    - destruct (place_def g' k m x J' K' DM (OW g' J') (TD g' J') (NU g' J') P) as (v & -> & V & D). cbn [flat_map app].
      assert (T : is_function_key (g_crate g) k = false).
      { destruct (is_function_key (g_crate g) k) eqn:E; [|reflexivity]. destruct (proj1 FK eq_refl) as [_ [f ->]]. exfalso. apply DM. reflexivity. }
      rewrite T. destruct (bytes_eqb_spec (g_namespace g') (g_namespace g)) as [E | E].
      + rewrite (spaces_differ g' g J' J E) in K', D. rewrite (proj2 TK (conj K' DM)).
        cbn [app map snd]. refine (conj A (conj _ _)); [f_equal; [exact V | exact B] | constructor; [exact D | exact C]].
      + assert (X : is_type_key (g_crate g) k = false).
        { destruct (is_type_key (g_crate g) k) eqn:Y; [|reflexivity]. destruct (proj1 TK eq_refl) as [X _]. exfalso. apply E. f_equal.
          apply (same_group g' g J' J).
          pose proof (defines_group g' m (group_of g' J') K' DM) as Q1. pose proof (defines_group g m (group_of g J) X DM) as Q2. congruence. }
        rewrite X. cbn [app]. repeat split; assumption.
    - rewrite (place_member k m x RM P). cbn [flat_map app].
      assert (T : is_function_key (g_crate g) k = false).
      { destruct (is_function_key (g_crate g) k) eqn:E; [|reflexivity]. destruct (proj1 FK eq_refl) as [_ [f ->]]. exfalso. apply RM. reflexivity. }
      assert (T' : is_type_key (g_crate g) k = false).
      { destruct (is_type_key (g_crate g) k) eqn:E; [|reflexivity]. destruct (proj1 TK eq_refl) as [_ X]. exfalso.
        destruct m; try (apply X; reflexivity); apply RM; reflexivity. }
      rewrite T, T'. repeat split; assumption.
  Qed.

  Definition in_group (g : group) (m : metadata) : bool :=
    match module_path m with Ok mp => bytes_eqb (crate_of mp) (g_crate g) && negb (is_namespace m) | _ => false end.

  Lemma own_stream g : In g gs -> filter (in_group g) (stream gs) = g_items g.
  Proof.
    intros J.
    assert (OWN : filter (in_group g) (g_items g) = g_items g).
    { apply filter_same. intros m K. unfold in_group. destruct (group_of g J) as [_ X]. destruct (X m K) as [(mp & M & C) N].
      rewrite M, C, beq_refl, N. reflexivity. }
    assert (OTHER : forall g', In g' gs -> g_crate g' <> g_crate g -> filter (in_group g) (g_items g') = []).
    { intros g' J' NE. apply filter_none. intros m K. unfold in_group. destruct (group_of g' J') as [_ X]. destruct (X m K) as [(mp & M & C) N].
      rewrite M, C. destruct (bytes_eqb_spec (g_crate g') (g_crate g)); [contradiction | reflexivity]. }
    destruct GR as [N _]. unfold stream. clear -J N OWN OTHER.
    assert (H : forall l, (forall x, In x l -> In x gs) -> NoDup (map g_crate l) ->
      filter (in_group g) (flat_map group_stream l) = if existsb (fun x => bytes_eqb (g_crate x) (g_crate g)) l then g_items g else []).
    { induction l as [|x l IH]; intros SUB NL; [reflexivity|]. cbn [flat_map existsb]. cbn [map] in NL. apply NoDup_cons_iff in NL as [N0 NL].
      rewrite filter_app, (IH (fun y Y => SUB y (or_intror Y)) NL). unfold group_stream. cbn [filter].
      replace (in_group g (MNamespace (g_crate x) (g_namespace x))) with false
        by (unfold in_group; destruct (module_path _); [rewrite andb_comm|..]; reflexivity).
      destruct (bytes_eqb_spec (g_crate x) (g_crate g)) as [E | NE]; cbn [orb].
      - assert (XG : x = g).
        { assert (XI := SUB x (or_introl eq_refl)). clear -N XI J E. induction gs as [|y ys IH]; [destruct J|]. cbn [map] in N.
          apply NoDup_cons_iff in N as [Y0 N]. destruct XI as [-> | XI], J as [-> | J]; auto.
          - exfalso. apply Y0. rewrite E. apply in_map. exact J.
          - exfalso. apply Y0. rewrite <- E. apply in_map. exact XI. }
        subst x. rewrite OWN.
        assert (Z : existsb (fun y => bytes_eqb (g_crate y) (g_crate g)) l = false).
        { destruct (existsb _ l) eqn:X; [|reflexivity]. apply existsb_exists in X. destruct X as (y & Y & B). apply beq_true in B.
          exfalso. apply N0. rewrite <- B. apply in_map. exact Y. }
        rewrite Z. apply app_nil_r.
      - rewrite (OTHER x (SUB x (or_introl eq_refl)) NE). reflexivity. }
    rewrite (H gs (fun _ X => X) N).
    replace (existsb _ gs) with true; [reflexivity|]. symmetry. apply existsb_exists. exists g. split; [exact J | apply beq_refl].
  Qed.

  Lemma docs_first g k d : In g gs -> In d (g_items g) -> In (k, d) (c_entries st) -> first_docs (g_items g) d.
  Proof.
    intros J K E. pose proof (i_first _ _ I k d E) as F. unfold first_of_key in F.
    destruct d as [ | | | | | | | | | |mp n b doc| | ]; cbn [first_docs]; auto.
    assert (SAME : forall mp' b' doc', In (MCustom mp' n b' doc') (g_items g) ->
                   key_of (MCustom mp' n b' doc') = key_of (MCustom mp n b doc)).
    { intros mp' b' doc' X. cbn [key_of]. do 2 f_equal.
      pose proof (of_group_crate g _ mp (group_of g J) K eq_refl). pose proof (of_group_crate g _ mp' (group_of g J) X eq_refl).
      unfold crate_of, path_crate in *. congruence. }
    assert (INS : forall m, In m (g_items g) -> In m (stream gs)).
    { intros m X. unfold stream, group_stream. apply in_flat_map. exists g. split; [exact J | right; exact X]. }
    destruct doc as [doc|]; cbn [documented] in F.
    - destruct F as (pre & post & S & F). exists (filter (in_group g) pre), (filter (in_group g) post). split.
      + rewrite <- (own_stream g J), S, filter_app. cbn [filter].
        assert (T : in_group g (MCustom mp n b (Some doc)) = true).
        { assert (X := K). rewrite <- (own_stream g J) in X. apply filter_In in X. apply X. }
        rewrite T. reflexivity.
      + intros mp' b' doc' X. assert (X' := X). apply filter_In in X. destruct X as [X _].
        assert (Y : In (MCustom mp' n b' (Some doc')) (g_items g)).
        { rewrite <- (own_stream g J), S, filter_app. apply in_or_app. left. exact X'. }
        specialize (F _ X (SAME _ _ _ Y)). discriminate.
    - intros mp' b' doc' X. specialize (F _ (INS _ X) (SAME _ _ _ X)). discriminate.
  Qed.

  Lemma tree_says g nodes : In g gs -> map_all (place st) (c_entries st) = Ok nodes ->
    says (g_items g) (api_map fst (Api (functions_in (g_namespace g) (concat nodes)) (types_in (g_namespace g) (concat nodes)))).
  Proof.
    intros J H. apply map_all_forall in H.
    destruct (placed g _ nodes J (fun e X => X) H) as (A & B & C).
    assert (FE : exactly (fun m => In m (g_items g) /\ exists f, m = MFunc f) (entries_where (is_function_key (g_crate g)) st)).
    { apply entries_exactly.
      - intros m k KM K. exact (function_key g m k J K KM).
      - intros m [K [f ->]]. split; [exact (in_all g _ J K) | split; [discriminate | reflexivity]]. }
    assert (TI : forall d, In d (entries_where (is_type_key (g_crate g)) st) -> exists k, In (k, d) (c_entries st) /\ In d (g_items g) /\ defines d <> None).
    { intros d X. unfold entries_where in X. apply in_map_iff in X. destruct X as ([k m] & <- & X). apply filter_In in X.
      destruct X as [X Y]. cbn [fst snd] in *. exists k. split; [exact X|].
      destruct (entry_all k m X) as [K KM]. exact (proj1 (def_key g m k J K KM) Y). }
    assert (VI : map (fun v => v_item v) (map (view_map fst) (types_in (g_namespace g) (concat nodes))) = entries_where (is_type_key (g_crate g)) st).
    { rewrite map_map. exact B. }
    assert (STANDS : forall m, In m (g_items g) -> defines m <> None ->
              exists v, In v (map (view_map fst) (types_in (g_namespace g) (concat nodes))) /\ stands_for (v_item v) m).
    { intros m K D. assert (KM : exists k, key_of m = Some k) by (destruct m; try (exfalso; apply D; reflexivity); cbn; eauto).
      destruct KM as (k & KM). assert (NN : is_namespace m = false) by (destruct m; try reflexivity; discriminate).
      destruct (i_all _ _ I m k (proj2 (in_stream m NN) (in_all g m J K)) KM) as (m' & E & SF).
      assert (K' : In m' (entries_where (is_type_key (g_crate g)) st)).
      { unfold entries_where. apply in_map_iff. exists (k, m'). split; [reflexivity|]. apply filter_In. split; [exact E|]. cbn [fst].
        apply (def_key g m k J (in_all g m J K) KM). auto. }
      rewrite <- VI in K'. apply in_map_iff in K'. destruct K' as (v & V & X). exists v. split; [exact X | rewrite V; exact SF]. }
    assert (DESC : forall v, In v (map (view_map fst) (types_in (g_namespace g) (concat nodes))) -> describes (g_items g) v).
    { intros v X. apply in_map_iff in X. destruct X as (w & <- & X). rewrite Forall_forall in C. exact (C w X). }
    unfold says. cbn [a_functions a_types api_map].
    refine (conj _ (conj _ (conj _ (conj STANDS _)))).
    - change (map fst (functions_in (g_namespace g) (concat nodes)) = entries_where (is_function_key (g_crate g)) st) in A.
      rewrite A. exact FE.
    - rewrite <- (map_map (fun v => v_item v) defines). rewrite VI. unfold entries_where. rewrite map_map.
      apply NoDup_map_on.
      + apply NoDup_filter. exact (NoDup_map_inv _ _ (i_keys _ _ I)).
      + intros [k d] [k' d'] X Y E. cbn [snd] in E. apply filter_In in X, Y. destruct X as [X PX], Y as [Y PY]. cbn [fst] in *.
        destruct (entry_all k d X) as [K KM], (entry_all k' d' Y) as [K' KM'].
        destruct (proj1 (def_key g d k J K KM) PX) as [G D]. destruct (proj1 (def_key g d' k' J K' KM') PY) as [G' D'].
        assert (KK : k = k').
        { destruct (TD g J d d' G G' D E) as [<- | (mp & n & b & doc & doc' & -> & ->)]; [congruence|].
          cbn [key_of] in KM, KM'. congruence. }
        subst k'. assert (F1 := in_find_key _ _ _ (i_keys _ _ I) X). assert (F2 := in_find_key _ _ _ (i_keys _ _ I) Y). congruence.
    - apply Forall_forall. intros v X.
      assert (V : In (v_item v) (entries_where (is_type_key (g_crate g)) st)) by (rewrite <- VI; apply in_map_iff; eauto).
      destruct (TI _ V) as (k & E & G & D). refine (conj D (conj (DESC v X) (docs_first g k _ J G E))).
    - intros m K R. destruct (role_of m) as [r|] eqn:RM; [|contradiction].
      destruct (OW g J m r K RM) as (d & G & D & W & T).
      destruct (STANDS d G D) as (v & X & SF).
      destruct SF as [SF | (mp & n & b & doc & doc' & -> & _)]; [|destruct r; destruct T].
      exists v. split; [exact X|]. destruct (DESC v X) as (_ & M1 & M2 & M3 & M4 & _). rewrite SF in *.
      assert (MM : member (g_items g) d r m) by (refine (conj K (conj RM W))).
      rewrite !in_app_iff. destruct r; [left; apply M1; exact MM | right; left; apply M2; left; exact MM
        | right; left; apply M2; right; exact MM | right; right; left; apply M3; exact MM | right; right; right; apply M4; exact MM].
  Qed.
End Tree.
