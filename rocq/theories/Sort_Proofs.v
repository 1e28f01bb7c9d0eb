(** Proofs for C35. *)
From Coq Require Import Permutation Relation_Operators Operators_Properties.
From Verif Require Import Base Meta_Types Canon_Model Sort_Model Sort_Spec.

Section sorter.
  Context {A : Type}.
  Variable item_name : A -> str.
  Variable deps : A -> list str.

  Definition seach (f : str -> list (str * A) -> list A -> res (list (str * A) * list A)) :=
    fix each (names : list str) (unsorted : list (str * A)) (sorted : list A)
      : res (list (str * A) * list A) :=
      match names with
      | [] => Ok (unsorted, sorted)
      | n :: names => bind (f n unsorted sorted) (fun s => each names (fst s) (snd s))
      end.

  Lemma recurse_S fuel name u s :
    recurse deps (S fuel) name u s =
    match shift_remove name u with
    | None => Ok (u, s)
    | Some (item, u) =>
        bind (seach (recurse deps fuel) (deps item) u s) (fun r => Ok (fst r, snd r ++ [item]))
    end.
  Proof. reflexivity. Qed.

  Definition keyed (u : list (str * A)) : Prop := Forall (fun e => fst e = item_name (snd e)) u.

  Lemma shift_remove_some k (u : list (str * A)) x u' : shift_remove k u = Some (x, u') ->
    exists a b, u = a ++ (k, x) :: b /\ u' = a ++ b.
  Proof.
    revert u'. induction u as [|[k' v] u IH]; intros u' H; cbn in H; [discriminate|].
    destruct (bytes_eqb_spec k k') as [->|N].
    - injection H as <- <-. exists [], u. split; reflexivity.
    - destruct (shift_remove k u) as [[y m]|]; [|discriminate]. injection H as <- <-.
      destruct (IH m eq_refl) as [a [b [-> ->]]]. exists ((k', v) :: a), b. split; reflexivity.
  Qed.

  Lemma shift_remove_none k (u : list (str * A)) : shift_remove k u = None -> ~ In k (map fst u).
  Proof.
    induction u as [|[k' v] u IH]; cbn; [tauto|].
    destruct (bytes_eqb_spec k k') as [->|N]; [discriminate|].
    destruct (shift_remove k u) as [[y m]|]; [discriminate|].
    intros _ [E|I]; [congruence|]. exact (IH eq_refl I).
  Qed.

  (** ** Termination *)

  Lemma recurse_total : forall fuel n u s, (length u < fuel)%nat ->
    exists u' s', recurse deps fuel n u s = Ok (u', s') /\ (length u' <= length u)%nat /\
      (In n (map fst u) -> (length u' < length u)%nat).
  Proof.
    induction fuel as [|fuel IH]; intros n u s L; [lia|].
    rewrite recurse_S. destruct (shift_remove n u) as [[x u1]|] eqn:R.
    - destruct (shift_remove_some _ _ _ _ R) as [a [b [Eu Eu1]]].
      assert (L1 : length u = S (length u1)).
      { subst. rewrite !app_length. cbn. lia. }
      assert (E : forall ns v t, (length v <= length u1)%nat ->
                exists v' t', seach (recurse deps fuel) ns v t = Ok (v', t') /\
                  (length v' <= length v)%nat).
      { induction ns as [|m ns IHn]; intros v t Lv; cbn; [eauto|].
        destruct (IH m v t) as [v1 [t1 [-> [L2 _]]]]; [lia|]. cbn.
        destruct (IHn v1 t1) as [v2 [t2 [-> L3]]]; [lia|].
        exists v2, t2. split; [reflexivity|lia]. }
      destruct (E (deps x) u1 s) as [u' [s' [-> L2]]]; [lia|]. cbn.
      exists u', (s' ++ [x]). split; [reflexivity|]. split; [lia|]. intros _. lia.
    - exists u, s. split; [reflexivity|]. split; [lia|].
      intros I. exfalso. exact (shift_remove_none _ _ R I).
  Qed.

  Lemma sort_loop_total depth : forall rounds u s,
    (length u <= rounds)%nat -> (length u < depth)%nat ->
    exists r, sort_loop deps rounds depth u s = Ok r.
  Proof.
    induction rounds as [|rounds IH]; intros u s L D.
    - destruct u; [|cbn in L; lia]. cbn. eauto.
    - destruct u as [|[n x] u]; [cbn; eauto|]. cbn [sort_loop].
      destruct (recurse_total depth n ((n, x) :: u) s D) as [u' [s' [-> [L1 L2]]]].
      cbn [bind fst snd]. specialize (L2 (or_introl eq_refl)). cbn [length] in *.
      apply IH; lia.
  Qed.

  Lemma im_insert_length k v (m : list (str * A)) :
    (length (im_insert k v m) <= S (length m))%nat.
  Proof.
    induction m as [|[k' v'] m IH]; cbn; [lia|]. destruct (bytes_eqb k k'); cbn; lia.
  Qed.

  Lemma new_length items : (length (new item_name items) <= length items)%nat.
  Proof.
    unfold new.
    assert (H : forall m, (length (fold_left (fun m i => im_insert (item_name i) i m) items m)
                           <= length m + length items)%nat).
    { induction items as [|i items IH]; intros m; cbn; [lia|].
      pose proof (im_insert_length (item_name i) i m). specialize (IH (im_insert (item_name i) i m)).
      lia. }
    specialize (H []). cbn in H. exact H.
  Qed.

  Lemma sort_total items : exists r, sort item_name deps items = Ok r.
  Proof. pose proof (new_length items). apply sort_loop_total; lia. Qed.

  (** ** Nothing is lost or duplicated *)

  Lemma recurse_perm : forall fuel n u s u' s', recurse deps fuel n u s = Ok (u', s') ->
    Permutation (map snd u ++ s) (map snd u' ++ s') /\ incl u' u.
  Proof.
    induction fuel as [|fuel IH]; intros n u s u' s' H; [discriminate|].
    rewrite recurse_S in H. destruct (shift_remove n u) as [[x u1]|] eqn:R.
    - destruct (shift_remove_some _ _ _ _ R) as [a [b [Eu Eu1]]].
      assert (E : forall ns v t v' t', seach (recurse deps fuel) ns v t = Ok (v', t') ->
                Permutation (map snd v ++ t) (map snd v' ++ t') /\ incl v' v).
      { induction ns as [|m ns IHn]; intros v t v' t' Q; cbn in Q.
        - injection Q as <- <-. split; [reflexivity | apply incl_refl].
        - destruct (recurse deps fuel m v t) as [[v1 t1]| | |] eqn:D; cbn in Q; try discriminate.
          destruct (IH _ _ _ _ _ D) as [P1 I1]. destruct (IHn _ _ _ _ Q) as [P2 I2].
          split; [etransitivity; eassumption | eapply incl_tran; eassumption]. }
      destruct (seach (recurse deps fuel) (deps x) u1 s) as [[v t]| | |] eqn:Q; cbn in H;
        try discriminate. injection H as <- <-.
      destruct (E _ _ _ _ _ Q) as [P I]. split.
      + subst u u1. rewrite app_assoc. rewrite map_app in *. cbn [map snd].
        rewrite <- Permutation_middle, <- map_app, <- app_comm_cons.
        rewrite <- map_app in P. rewrite P. rewrite <- Permutation_cons_append. reflexivity.
      + subst u u1. intros z Z. apply I in Z. apply in_app_or in Z. apply in_or_app.
        destruct Z; [left; assumption | right; right; assumption].
    - injection H as <- <-. split; [reflexivity | apply incl_refl].
  Qed.

  Lemma sort_loop_perm depth : forall rounds u s r,
    sort_loop deps rounds depth u s = Ok r -> Permutation (map snd u ++ s) r.
  Proof.
    induction rounds as [|rounds IH]; intros u s r H; cbn in H.
    - destruct u as [|[n x] u]; [|discriminate]. injection H as <-. reflexivity.
    - destruct u as [|[n x] u]; [injection H as <-; reflexivity|].
      destruct (recurse deps depth n ((n, x) :: u) s) as [[u1 s1]| | |] eqn:R; cbn [bind] in H;
        try discriminate.
      destruct (recurse_perm _ _ _ _ _ _ R) as [P _]. rewrite P. exact (IH _ _ _ H).
  Qed.

  Lemma im_insert_new k v (m : list (str * A)) : ~ In k (map fst m) ->
    im_insert k v m = m ++ [(k, v)].
  Proof.
    induction m as [|[k' v'] m IH]; cbn; intros N; [reflexivity|].
    destruct (bytes_eqb_spec k k') as [->|_]; [exfalso; apply N; left; reflexivity|].
    rewrite IH; [reflexivity|]. intros I. apply N. right. exact I.
  Qed.

  Lemma new_distinct items : NoDup (map item_name items) ->
    new item_name items = map (fun i => (item_name i, i)) items.
  Proof.
    intros ND. unfold new.
    assert (H : forall m, NoDup (map fst m ++ map item_name items) ->
              fold_left (fun m i => im_insert (item_name i) i m) items m =
              m ++ map (fun i => (item_name i, i)) items).
    { clear ND. induction items as [|i items IH]; intros m ND; cbn; [rewrite app_nil_r; reflexivity|].
      rewrite im_insert_new.
      - rewrite IH; [rewrite <- app_assoc; reflexivity|].
        rewrite map_app, <- app_assoc. exact ND.
      - intros I. apply NoDup_remove_2 in ND. apply ND. apply in_or_app. left. exact I. }
    rewrite H; [reflexivity | exact ND].
  Qed.

  Lemma sort_perm items r : NoDup (map item_name items) ->
    sort item_name deps items = Ok r -> Permutation items r.
  Proof.
    intros ND H. apply sort_loop_perm in H. rewrite app_nil_r, (new_distinct _ ND), map_map in H.
    cbn in H. rewrite map_id in H. exact H.
  Qed.

  (** The entries always have distinct keys, that of their item. *)
  Lemma im_insert_keys k v (m : list (str * A)) :
    forall x, In x (map fst (im_insert k v m)) <-> x = k \/ In x (map fst m).
  Proof.
    induction m as [|[k' v'] m IH]; intros x; cbn; [intuition congruence|].
    destruct (bytes_eqb_spec k k') as [->|N]; cbn; [intuition congruence|].
    rewrite IH. intuition congruence.
  Qed.

  Lemma new_inv items : NoDup (map fst (new item_name items)) /\ keyed (new item_name items) /\
    incl (map snd (new item_name items)) items /\
    (forall i, In i items -> In (item_name i) (map fst (new item_name items))).
  Proof.
    unfold new.
    assert (H : forall m, NoDup (map fst m) -> keyed m ->
              let r := fold_left (fun m i => im_insert (item_name i) i m) items m in
              NoDup (map fst r) /\ keyed r /\ incl (map snd r) (map snd m ++ items) /\
              (forall x, In x (map fst m) \/ In x (map item_name items) -> In x (map fst r))).
    { induction items as [|i items IH]; intros m ND K; cbn.
      - rewrite app_nil_r. refine (conj ND (conj K (conj (incl_refl _) _))). intros x [X|[]]. exact X.
      - assert (ND' : NoDup (map fst (im_insert (item_name i) i m))).
        { clear -ND deps. induction m as [|[k' v'] m IH]; cbn; [repeat constructor; intros []|].
          cbn in ND. inversion ND as [|? ? N ND']; subst.
          destruct (bytes_eqb_spec (item_name i) k') as [E|NE]; cbn; constructor; auto.
          rewrite im_insert_keys. intros [E|I]; [congruence | exact (N I)]. }
        assert (K' : keyed (im_insert (item_name i) i m)).
        { clear -K. unfold keyed in *. induction m as [|[k' v'] m IH]; cbn.
          - repeat constructor.
          - inversion K as [|? ? E K']; subst. cbn in E.
            destruct (bytes_eqb_spec (item_name i) k') as [<-|NE]; constructor; auto. }
        assert (I' : incl (map snd (im_insert (item_name i) i m)) (i :: map snd m)).
        { clear. induction m as [|[k' v'] m IH]; cbn; [apply incl_refl|].
          destruct (bytes_eqb (item_name i) k'); cbn.
          - intros x [<-|X]; [left; reflexivity | right; right; exact X].
          - intros x [<-|X]; [right; left; reflexivity|]. destruct (IH x X) as [<-|X'].
            + left. reflexivity.
            + right. right. exact X'. }
        destruct (IH _ ND' K') as [H1 [H2 [H3 H4]]].
        refine (conj H1 (conj H2 (conj _ _))).
        + intros x X. apply H3 in X. apply in_app_or in X. apply in_or_app. destruct X as [X|X].
          * apply I' in X. destruct X as [<-|X]; [right; left; reflexivity | left; exact X].
          * right. right. exact X.
        + intros x X. apply H4. rewrite im_insert_keys.
          destruct X as [X|[X|X]]; [left; right; exact X | left; left; congruence | right; exact X]. }
    destruct (H [] (NoDup_nil _) (Forall_nil _)) as [H1 [H2 [H3 H4]]].
    refine (conj H1 (conj H2 (conj H3 _))). intros i I. apply H4. right. apply in_map. exact I.
  Qed.

  (** ** Order *)

  (** Items depend on items of [u0], by name. *)
  Variable u0 : list (str * A).
  Hypothesis u0_keyed : keyed u0.
  Hypothesis u0_nodup : NoDup (map fst u0).

  Definition dep (x y : A) : Prop :=
    In x (map snd u0) /\ In y (map snd u0) /\ In (item_name y) (deps x).
  Notation reaches := (clos_trans A dep).

  (** In the output every item is preceded by what it depends on, unless that depends on it. *)
  Definition ordered (s : list A) : Prop :=
    forall l1 x l2 y, s = l1 ++ x :: l2 -> dep x y -> In y l1 \/ reaches y x \/ y = x.

  Lemma ordered_snoc s x :
    ordered s -> (forall y, dep x y -> In y s \/ reaches y x \/ y = x) -> ordered (s ++ [x]).
  Proof.
    intros O H l1 z l2 y E D. destruct (exists_last (l := z :: l2)) as [l3 [w E2]]; [discriminate|].
    rewrite E2, app_assoc in E. apply app_inj_tail in E. destruct E as [E <-].
    destruct l3 as [|z' l3].
    - cbn in E2. injection E2 as -> ->. rewrite app_nil_r in E. subst s. exact (H y D).
    - cbn in E2. injection E2 as <- ->. exact (O l1 z l3 y E D).
  Qed.

  Lemma key_unique x y : In x (map snd u0) -> In y (map snd u0) -> item_name x = item_name y ->
    x = y.
  Proof.
    intros X Y E. apply in_map_iff in X, Y.
    destruct X as [[kx x'] [<- X]], Y as [[ky y'] [<- Y]]. cbn in *.
    unfold keyed in u0_keyed. rewrite Forall_forall in u0_keyed.
    pose proof (u0_keyed _ X) as KX. pose proof (u0_keyed _ Y) as KY. cbn in KX, KY.
    assert (kx = ky) by congruence. clear KX KY E. subst ky.
    revert X Y. clear -u0_nodup. induction u0 as [|[k v] u IH]; intros X Y; [destruct X|].
    cbn in u0_nodup. inversion u0_nodup as [|? ? N ND]; subst.
    destruct X as [E|X], Y as [E'|Y].
    - congruence.
    - injection E as -> ->. exfalso. apply N. exact (in_map fst _ _ Y).
    - injection E' as -> ->. exfalso. apply N. exact (in_map fst _ _ X).
    - exact (IH ND X Y).
  Qed.

  (** [k]: the items being worked on, all of which reach the one asked for. *)
  Lemma recurse_ordered : forall fuel n u s u' s' k,
    recurse deps fuel n u s = Ok (u', s') ->
    incl u u0 -> (forall x, In x (map snd u0) -> In x (map snd u) \/ In x s \/ In x k) ->
    (forall x y, In x k -> In y (map snd u0) -> item_name y = n -> reaches x y) ->
    ordered s ->
    ordered s' /\ incl u' u /\ incl s s' /\
    (forall x, In x (map snd u0) -> In x (map snd u') \/ In x s' \/ In x k) /\
    (forall y, In y (map snd u0) -> item_name y = n -> In y s' \/ In y k).
  Proof.
    induction fuel as [|fuel IH]; intros n u s u' s' k H IU COV RK O; [discriminate|].
    rewrite recurse_S in H. destruct (shift_remove n u) as [[x u1]|] eqn:R.
    - destruct (shift_remove_some _ _ _ _ R) as [a [b [Eu Eu1]]].
      assert (X0 : In (n, x) u0).
      { apply IU. subst u. apply in_or_app. right. left. reflexivity. }
      assert (XM : In x (map snd u0)) by exact (in_map snd _ _ X0).
      assert (NX : item_name x = n).
      { unfold keyed in u0_keyed. rewrite Forall_forall in u0_keyed. symmetry. exact (u0_keyed _ X0). }
      assert (IU1 : incl u1 u).
      { subst u u1. intros z Z. apply in_app_or in Z. apply in_or_app.
        destruct Z; [left; assumption | right; right; assumption]. }
      assert (E : forall ns, incl ns (deps x) -> forall v t v' t',
                seach (recurse deps fuel) ns v t = Ok (v', t') ->
                incl v u0 ->
                (forall z, In z (map snd u0) -> In z (map snd v) \/ In z t \/ In z (x :: k)) ->
                ordered t ->
                ordered t' /\ incl v' v /\ incl t t' /\
                (forall z, In z (map snd u0) -> In z (map snd v') \/ In z t' \/ In z (x :: k)) /\
                (forall y, In y (map snd u0) -> In (item_name y) ns -> In y t' \/ In y (x :: k))).
      { induction ns as [|m ns IHn]; intros IN v t v' t' Q IV CV OT; cbn in Q.
        - injection Q as <- <-.
          refine (conj OT (conj (incl_refl _) (conj (incl_refl _) (conj CV _)))). intros y _ [].
        - destruct (recurse deps fuel m v t) as [[v1 t1]| | |] eqn:D; cbn in Q; try discriminate.
          destruct (IH m v t v1 t1 (x :: k) D IV CV) as [O1 [I1 [S1 [C1 D1]]]].
          + intros z y Z Y NY. assert (DX : dep x y).
            { unfold dep. rewrite NY. refine (conj XM (conj Y _)). apply IN. left. reflexivity. }
            destruct Z as [<-|Z]; [apply t_step; exact DX|].
            eapply t_trans; [exact (RK z x Z XM NX) | apply t_step; exact DX].
          + exact OT.
          + destruct (IHn (fun z Z => IN z (or_intror Z)) v1 t1 v' t' Q
                        (incl_tran I1 IV) C1 O1) as [O2 [I2 [S2 [C2 D2]]]].
            refine (conj O2 (conj (incl_tran I2 I1) (conj (incl_tran S1 S2) (conj C2 _)))).
            intros y Y [NY|NY]; [|exact (D2 y Y NY)].
            destruct (D1 y Y (eq_sym NY)) as [Z|Z]; [left; apply S2; exact Z | right; exact Z]. }
      destruct (seach (recurse deps fuel) (deps x) u1 s) as [[v t]| | |] eqn:Q; cbn in H;
        try discriminate. injection H as <- <-.
      assert (CV : forall z, In z (map snd u0) -> In z (map snd u1) \/ In z s \/ In z (x :: k)).
      { intros z Z. destruct (COV z Z) as [C|[C|C]].
        - subst u u1. rewrite map_app in *. cbn in C. apply in_app_or in C.
          destruct C as [C|[C|C]].
          + left. apply in_or_app. left. exact C.
          + right. right. left. exact C.
          + left. apply in_or_app. right. exact C.
        - right. left. exact C.
        - right. right. right. exact C. }
      destruct (E (deps x) (incl_refl _) u1 s v t Q (incl_tran IU1 IU) CV O)
        as [O1 [I1 [S1 [C1 D1]]]].
      refine (conj _ (conj (incl_tran I1 IU1) (conj _ (conj _ _)))).
      + apply ordered_snoc; [exact O1|]. intros y DY.
        destruct (D1 y (proj1 (proj2 DY)) (proj2 (proj2 DY))) as [Z|[Z|Z]].
        * left. exact Z.
        * right. right. symmetry. exact Z.
        * right. left. exact (RK y x Z XM NX).
      + intros z Z. apply in_or_app. left. apply S1. exact Z.
      + intros z Z. destruct (C1 z Z) as [C|[C|[C|C]]].
        * left. exact C.
        * right. left. apply in_or_app. left. exact C.
        * right. left. apply in_or_app. right. left. exact C.
        * right. right. exact C.
      + intros y Y NY. left. apply in_or_app. right. left.
        apply key_unique; [exact XM | exact Y | congruence].
    - injection H as <- <-.
      refine (conj O (conj (incl_refl _) (conj (incl_refl _) (conj COV _)))).
      intros y Y NY. destruct (COV y Y) as [C|C]; [|exact C]. exfalso.
      apply (shift_remove_none _ _ R). apply in_map_iff in C. destruct C as [[ky y'] [<- C]].
      cbn in NY. unfold keyed in u0_keyed. rewrite Forall_forall in u0_keyed.
      pose proof (u0_keyed _ (IU _ C)) as KY. cbn in KY. rewrite <- NY, <- KY.
      exact (in_map fst _ _ C).
  Qed.

  Lemma sort_loop_ordered depth : forall rounds u s r,
    sort_loop deps rounds depth u s = Ok r ->
    incl u u0 -> (forall x, In x (map snd u0) -> In x (map snd u) \/ In x s) -> ordered s ->
    ordered r.
  Proof.
    induction rounds as [|rounds IH]; intros u s r H IU COV O; cbn in H.
    - destruct u as [|[n x] u]; [|discriminate]. injection H as <-. exact O.
    - destruct u as [|[n x] u]; [injection H as <-; exact O|].
      destruct (recurse deps depth n ((n, x) :: u) s) as [[u1 s1]| | |] eqn:R; cbn [bind] in H;
        try discriminate.
      destruct (recurse_ordered _ _ _ _ _ _ [] R IU) as [O1 [I1 [_ [C1 _]]]].
      + intros z Z. destruct (COV z Z); auto.
      + intros z y [].
      + exact O.
      + apply (IH _ _ _ H (incl_tran I1 IU)); [|exact O1].
        intros z Z. destruct (C1 z Z) as [C|[C|[]]]; auto.
  Qed.
End sorter.

(** ** With distinct names *)

Lemma sort_spec {A} (nm : A -> str) (deps : A -> list str) items r :
  NoDup (map nm items) -> sort nm deps items = Ok r ->
  forall x y, In x items -> In y items -> In (nm y) (deps x) ->
  before r y x \/
  clos_trans A (fun a b => In a items /\ In b items /\ In (nm b) (deps a)) y x \/ y = x.
Proof.
  intros ND H x y X Y D.
  pose proof (sort_perm nm deps items r ND H) as P.
  destruct (new_inv nm deps items) as [N1 [N2 _]]. pose proof (new_distinct nm items ND) as NE.
  assert (S0 : map snd (new nm items) = items).
  { rewrite NE, map_map. cbn. apply map_id. }
  unfold sort in H.
  assert (O : ordered nm deps (new nm items) r).
  { refine (sort_loop_ordered nm deps (new nm items) N2 N1 _ _ _ _ _ H (incl_refl _) _ _).
    - intros z Z. left. exact Z.
    - intros l1 z l2 w E. destruct l1; discriminate E. }
  assert (XR : In x r) by exact (Permutation_in _ P X).
  apply in_split in XR. destruct XR as [l1 [l2 E]].
  assert (DE : dep nm deps (new nm items) x y).
  { unfold dep. rewrite S0. auto. }
  destruct (O l1 x l2 y E DE) as [I|[R|Q]].
  - left. apply in_split in I. destruct I as [a [b ->]]. exists a, b, l2.
    rewrite E, <- app_assoc. reflexivity.
  - right. left. clear -R S0. induction R as [a b C|a b c R1 IH1 R2 IH2].
    + apply t_step. unfold dep in C. rewrite S0 in C. exact C.
    + eapply t_trans; eassumption.
  - right. right. exact Q.
Qed.

(** ** The two instances *)

Lemma callable_types_in c t : In t (callable_types c) <-> in_callable c t.
Proof.
  unfold callable_types, in_callable. rewrite !in_app_iff.
  destruct (c_ret c), (c_throws c); cbn; intuition congruence.
Qed.

Lemma deps_mentions d n : In n (type_dependency_names d) <->
  exists t, mentions d t /\ canonical_name t = n.
Proof.
  destruct d; cbn.
  - split; [intros [] | intros [t [[] _]]].
  - split; [intros [<-|[]]; eauto | intros [t [-> E]]; auto].
  - split; [intros [<-|[]]; eauto | intros [t [-> E]]; auto].
  - split; [intros [<-|[]]; eauto | intros [t [-> E]]; auto].
  - split; [intros [<-|[<-|[]]]; eauto | intros [t [[-> | ->] E]]; auto].
  - split; [intros [<-|[]]; eauto | intros [t [-> E]]; auto].
  - rewrite in_map_iff. split; intros [t [X Y]]; exists t; auto.
  - rewrite in_flat_map. split.
    + intros [v [V I]]. apply in_map_iff in I. destruct I as [t [E I]]. exists t. eauto.
    + intros [t [[v [V I]] E]]. exists v. split; [exact V|]. apply in_map_iff. exists t. auto.
  - rewrite in_app_iff, in_map_iff, in_flat_map. split.
    + intros [[t [E I]]|[c [C I]]]; [exists t; auto|].
      apply in_map_iff in I. destruct I as [t [E I]]. apply callable_types_in in I.
      apply in_app_or in C. exists t. split; [|exact E]. right. destruct C as [C|C].
      * left. eauto.
      * right. destruct vtable as [vms|]; [|destruct C]. eauto.
    + intros [t [[I|[[c [C I]]|[vms [c [EV [C I]]]]]] E]]; [| |subst vtable].
      * left. eauto.
      * right. exists c. split; [apply in_or_app; left; exact C|]. apply in_map_iff. exists t.
        split; [exact E | apply callable_types_in; exact I].
      * right. exists c. split; [apply in_or_app; right; exact C|]. apply in_map_iff. exists t.
        split; [exact E | apply callable_types_in; exact I].
  - rewrite in_flat_map. split.
    + intros [c [C I]]. apply in_map_iff in I. destruct I as [t [E I]].
      apply callable_types_in in I. exists t. eauto.
    + intros [t [[c [C I]] E]]. exists c. split; [exact C|]. apply in_map_iff. exists t.
      split; [exact E | apply callable_types_in; exact I].
  - split; [intros [<-|[]]; eauto | intros [t [-> E]]; auto].
  - split; [intros [] | intros [t [[] _]]].
Qed.

Lemma types_sorted defs r : NoDup (map type_item_name defs) ->
  (forall x y t, In x defs -> In y defs -> mentions x t ->
     canonical_name t = type_item_name y -> t = self_type y) ->
  sort_type_definitions defs = Ok r ->
  forall x y, In x defs -> In y defs -> needs x y ->
  before r y x \/ needs_within defs y x \/ y = x.
Proof.
  intros ND SEP H x y X Y N.
  assert (D : In (type_item_name y) (type_dependency_names x)).
  { apply deps_mentions. exists (self_type y). split; [exact N | reflexivity]. }
  destruct (sort_spec _ _ _ _ ND H x y X Y D) as [B|[R|E]]; auto.
  right. left. unfold needs_within. clear -R SEP.
  induction R as [a b [IA [IB D]]|a b c R1 IH1 R2 IH2].
  - apply t_step. refine (conj IA (conj IB _)). apply deps_mentions in D.
    destruct D as [t [M E]]. unfold needs. rewrite <- (SEP a b t IA IB M E). exact M.
  - eapply t_trans; eassumption.
Qed.

Lemma type_dependency_name_in t n : In n (type_dependency_name t) <-> points_to t n.
Proof.
  induction t; cbn.
  - split; [intros [<-|[]]; constructor | intros P; inversion P; auto].
  - split; [intros [<-|[]]; constructor | intros P; inversion P; auto].
  - rewrite IHt. split; [intros P; constructor; exact P | intros P; inversion P; assumption].
  - rewrite IHt. split; [intros P; constructor; exact P | intros P; inversion P; assumption].
  - split; [intros [] | intros P; inversion P].
Qed.

Lemma ffi_deps_needs x y : In (ffi_item_name y) (ffi_dependency_names x) <-> ffi_needs x y.
Proof.
  assert (O : forall (ret : option ffi_type) args t,
            In t (args ++ opt_list ret) <-> In t args \/ ret = Some t).
  { intros ret args t. rewrite in_app_iff. destruct ret; cbn; intuition congruence. }
  destruct x; cbn; rewrite in_flat_map.
  - split; intros [t [I P]]; exists t; rewrite type_dependency_name_in, O in *; auto.
  - split; intros [t [I P]]; exists t; rewrite type_dependency_name_in, O in *; auto.
  - split; intros [t [I P]]; exists t; rewrite type_dependency_name_in in *; auto.
Qed.

Lemma ffi_sorted defs r : NoDup (map ffi_item_name defs) ->
  sort_ffi_definitions defs = Ok r ->
  forall x y, In x defs -> In y defs -> ffi_needs x y ->
  before r y x \/ ffi_needs_within defs y x \/ y = x.
Proof.
  intros ND H x y X Y N. apply ffi_deps_needs in N.
  destruct (sort_spec _ _ _ _ ND H x y X Y N) as [B|[R|E]]; auto.
  right. left. unfold ffi_needs_within. clear -R.
  induction R as [a b [IA [IB D]]|a b c R1 IH1 R2 IH2].
  - apply t_step. refine (conj IA (conj IB _)). apply ffi_deps_needs. exact D.
  - eapply t_trans; eassumption.
Qed.

(** Without assuming distinct names: one definition for each name. *)
Lemma sort_one_per_name {A} (nm : A -> str) deps (items : list A) r :
  sort nm deps items = Ok r ->
  incl r items /\ NoDup (map nm r) /\ (forall i, In i items -> In (nm i) (map nm r)).
Proof.
  intros H. apply sort_loop_perm in H. rewrite app_nil_r in H.
  destruct (new_inv nm deps items) as [N1 [N2 [N3 N4]]].
  assert (K : map fst (new nm items) = map nm (map snd (new nm items))).
  { revert N2. generalize (new nm items) as u. clear. induction 1 as [|[k x] u E _ IH]; [reflexivity|].
    cbn in *. congruence. }
  refine (conj _ (conj _ _)).
  - intros x X. apply N3. exact (Permutation_in _ (Permutation_sym H) X).
  - eapply Permutation_NoDup; [apply Permutation_map; exact H|]. rewrite <- K. exact N1.
  - intros i I. apply N4 in I. rewrite K in I.
    exact (Permutation_in _ (Permutation_map nm H) I).
Qed.

(** ** The statements *)

Lemma self_nodup defs : NoDup (map self_type defs) -> names_distinct defs ->
  NoDup (map type_item_name defs).
Proof.
  intros ND U.
  assert (S1 : forall d, In d defs -> in_defs defs (self_type d)).
  { intros d D. exists d. auto. }
  assert (U' : forall d d', In d defs -> In d' defs ->
             type_item_name d = type_item_name d' -> self_type d = self_type d').
  { intros d d' D D' E. apply U; auto. }
  clear U S1. induction defs as [|d defs IH]; cbn; [constructor|].
  cbn in ND. inversion ND as [|? ? N ND']; subst. constructor.
  - intros I. apply in_map_iff in I. destruct I as [d' [E I]]. apply N.
    rewrite (U' d d' (or_introl eq_refl) (or_intror I) (eq_sym E)). apply in_map. exact I.
  - apply IH; [exact ND'|]. intros a b A B. apply U'; right; assumption.
Qed.

Lemma types_once defs r : NoDup (map self_type defs) -> names_distinct defs ->
  sort_type_definitions defs = Ok r -> Permutation defs r.
Proof. intros ND U H. exact (sort_perm _ _ _ _ (self_nodup _ ND U) H). Qed.

Lemma types_in_order defs r : NoDup (map self_type defs) -> names_distinct defs ->
  sort_type_definitions defs = Ok r ->
  forall x y, In x defs -> In y defs -> needs x y -> before r y x \/ needs_within defs y x.
Proof.
  intros ND U H x y X Y N.
  destruct (types_sorted defs r (self_nodup _ ND U)) with (x := x) (y := y) as [B|[R|E]]; auto.
  - intros a b t A B M E. apply U; [exists a; auto | exists b; auto | exact E].
  - right. subst y. apply t_step. auto.
Qed.

Lemma ffi_in_order defs r : NoDup (map ffi_item_name defs) ->
  sort_ffi_definitions defs = Ok r ->
  forall x y, In x defs -> In y defs -> ffi_needs x y -> before r y x \/ ffi_needs_within defs y x.
Proof.
  intros ND H x y X Y N. destruct (ffi_sorted _ _ ND H x y X Y N) as [B|[R|E]]; auto.
  right. subst y. apply t_step. auto.
Qed.
