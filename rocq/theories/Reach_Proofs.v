(** Proofs for C43. *)
From Verif Require Import Base Meta_Types Reach_Model Reach_Spec.

Lemma in_iter_inside : forall t u, In u (iter_types t) -> inside u t.
Proof.
  induction t; cbn [iter_types]; intros u [<-|H]; try apply in_self; try contradiction.
  - apply in_option. auto.
  - apply in_seq. auto.
  - apply in_set. auto.
  - apply in_app_or in H as [H|H]; [apply in_key | apply in_value]; auto.
  - apply in_custom. auto.
Qed.

(** Without a box on the way. *)
Lemma inside_in_iter u t :
  (forall b, inside (TBox b) t -> False) -> inside u t -> In u (iter_types t).
Proof.
  intros NB I. revert NB. induction I; intros NB; cbn [iter_types].
  - destruct u; left; reflexivity.
  - right. apply IHI. intros b B. apply (NB b). constructor. exact B.
  - right. apply IHI. intros b B. apply (NB b). constructor. exact B.
  - right. apply IHI. intros b B. apply (NB b). constructor. exact B.
  - right. apply in_or_app. left. apply IHI. intros b B. apply (NB b). apply in_key. exact B.
  - right. apply in_or_app. right. apply IHI. intros b B. apply (NB b). apply in_value. exact B.
  - right. apply IHI. intros b B. apply (NB b). constructor. exact B.
  - exfalso. exact (NB t (in_self _)).
Qed.

Lemma inside_trans u v t : inside u v -> inside v t -> inside u t.
Proof.
  intros A B. induction B; auto; [apply in_option | apply in_seq | apply in_set | apply in_key
  | apply in_value | apply in_custom | apply in_box]; assumption.
Qed.

Lemma kind_eqb_spec a b : reflect (a = b) (kind_eqb a b).
Proof. destruct a, b; constructor; congruence. Qed.

Lemma key_eqb_spec a b : reflect (a = b) (key_eqb a b).
Proof.
  destruct a as [a1 a2], b as [b1 b2]. unfold key_eqb. cbn [fst snd].
  destruct (bytes_eqb_spec a1 b1), (bytes_eqb_spec a2 b2); constructor; congruence.
Qed.

Lemma existsb_key k l : existsb (key_eqb k) l = true <-> In k l.
Proof.
  rewrite existsb_exists. split.
  - intros [x [I E]]. destruct (key_eqb_spec k x); [subst; exact I|discriminate].
  - intros I. exists k. split; [exact I|]. destruct (key_eqb_spec k k); congruence.
Qed.

Lemma get_definition_some c k n d : get_definition c k n = Some d ->
  In d (defs c) /\ d_kind d = k /\ d_name d = n.
Proof.
  unfold get_definition. intros F. apply find_some in F as [I E].
  apply andb_true_iff in E as [E1 E2].
  destruct (kind_eqb_spec (d_kind d) k); [|discriminate].
  destruct (bytes_eqb_spec (d_name d) n); [|discriminate]. auto.
Qed.

Lemma get_definition_none c k n d : get_definition c k n = None ->
  In d (defs c) -> d_kind d = k -> d_name d = n -> False.
Proof.
  intros F I E1 E2. assert (X := find_none _ _ F _ I). cbn beta in X.
  destruct (kind_eqb_spec (d_kind d) k); [|congruence].
  destruct (bytes_eqb_spec (d_name d) n); [|congruence]. discriminate.
Qed.

Section world.
  Variables (self : ci) (all : list ci).
  Let world := self :: all.

  Lemma find_ci_in mp : In (find_ci_for self all mp) world.
  Proof.
    unfold find_ci_for. destruct (find _ all) eqn:F; [|left; reflexivity].
    apply find_some in F as [I _]. right. exact I.
  Qed.

  Lemma find_ci_crate mp : (exists c, In c world /\ crate_name c = mp) ->
    crate_name (find_ci_for self all mp) = mp.
  Proof.
    intros [c [I E]]. unfold find_ci_for. destruct (find _ all) as [c'|] eqn:F.
    - apply find_some in F as [_ F]. destruct (bytes_eqb_spec (crate_name c') mp); congruence.
    - destruct I as [<-|I]; [exact E|]. assert (X := find_none _ _ F _ I). cbn beta in X.
      destruct (bytes_eqb_spec (crate_name c) mp); congruence.
  Qed.

  (** The lookup finds the definition. *)
  Lemma definition_some t d k mp n : named t = Some (k, mp, n) ->
    (exists c, In c world /\ crate_name c = mp) ->
    definition_for self all t = Some d -> describes world t d.
  Proof.
    intros N X. unfold definition_for. rewrite N. intros G.
    apply get_definition_some in G as [I [E1 E2]].
    exists k, mp, n, (find_ci_for self all mp). repeat split; auto using find_ci_in, find_ci_crate.
  Qed.

  Lemma definition_complete t d :
    (forall c c', In c world -> In c' world -> crate_name c = crate_name c' -> c = c') ->
    (forall c d d', In c world -> In d (defs c) -> In d' (defs c) -> d_name d = d_name d' -> d = d') ->
    describes world t d -> definition_for self all t = Some d.
  Proof.
    intros UC UD [k [mp [n [c [N [IC [CN [ID [K DN]]]]]]]]]. unfold definition_for. rewrite N.
    assert (FC : find_ci_for self all mp = c).
    { apply UC; auto using find_ci_in. rewrite find_ci_crate; [auto|]. exists c. auto. }
    rewrite FC. destruct (get_definition c k n) as [d'|] eqn:G.
    - apply get_definition_some in G as [I [E1 E2]]. f_equal. apply (UD c); auto. congruence.
    - exfalso. exact (get_definition_none _ _ _ _ G ID K DN).
  Qed.

  Lemma definition_in t d : definition_for self all t = Some d ->
    exists c, In c world /\ In d (defs c).
  Proof.
    unfold definition_for. destruct (named t) as [[[k mp] n]|]; [|discriminate].
    intros G. apply get_definition_some in G as [I _]. exists (find_ci_for self all mp).
    auto using find_ci_in.
  Qed.

  (** ** Soundness: what is found is there *)

  Section sound.
    Variables (p : ty -> bool) (item : ty).
    Hypothesis KN : forall t k mp n, written world item t -> named t = Some (k, mp, n) ->
      exists c, In c world /\ crate_name c = mp.

    Lemma contains_written t : contains world everything item t -> written world item t.
    Proof.
      induction 1 as [u I|u d f v C IH D F I]; [left; exact I|].
      destruct D as [k [mp [n [c [_ [IC [_ [ID _]]]]]]]]. right. exists c, d, f. auto.
    Qed.

    Lemma any_sound : forall fuel i,
      Forall (contains world everything item) (current i ++ pending i) ->
      any fuel self all p i = Some true ->
      exists t, contains world everything item t /\ p t = true.
    Proof.
      induction fuel as [|fuel IH]; intros [cur sn pend] F H; [discriminate|].
      cbn [any current pending seen] in *.
      destruct cur as [|t cur].
      - destruct pend as [|t pend]; [discriminate|]. cbn [app] in F. inversion F as [|? ? T F']; subst.
        destruct (definition_for self all t) as [d|] eqn:D.
        + apply (IH _) in H; [exact H|]. cbn [current pending]. apply Forall_app. split; [|exact F'].
          apply Forall_forall. intros u I. unfold iter_def in I. apply in_flat_map in I as [f [If Iu]].
          destruct (named t) as [[[k mp] n]|] eqn:N.
          * apply (c_define world everything item t d f u T); auto using in_iter_inside.
            apply (definition_some t d k mp n N); [|exact D].
            apply (KN t k mp n); [apply contains_written; exact T | exact N].
          * unfold definition_for in D. rewrite N in D. discriminate.
        + apply (IH _) in H; [exact H|]. exact F'.
      - cbn [app] in F. inversion F as [|? ? T F']; subst.
        destruct (p t) eqn:P; [exists t; auto|].
        apply (IH _) in H; [exact H|]. unfold add_pending.
        destruct (named t) as [[[k mp] n]|]; [|exact F']. cbn [seen].
        destruct (existsb _ sn); [exact F'|]. cbn [current pending].
        apply Forall_app in F' as [F1 F2]. apply Forall_app. split; [exact F1|].
        constructor; assumption.
    Qed.
  End sound.

  (** ** Completeness: what is there is found *)

  Section complete.
    Variables (p : ty -> bool) (item : ty).
    Hypothesis WF : well_formed world item.
    Hypothesis NB : no_box world item.

    Definition key (t : ty) : option (str * str) :=
      match named t with Some (_, mp, n) => Some (mp, n) | None => None end.

    (** Everything of [t]'s definition is among [l]. *)
    Definition expanded (t : ty) (l : list ty) : Prop :=
      forall d u, definition_for self all t = Some d -> In u (iter_def d) -> In u l.

    Record inv (i : iter) (Y : list ty) : Prop := {
      i_false : forall y, In y Y -> p y = false;
      i_seen : forall y k, In y Y -> key y = Some k -> In k (seen i);
      i_back : forall k, In k (seen i) -> exists y, In y Y /\ key y = Some k /\
                 (In y (pending i) \/ expanded y (Y ++ current i));
      i_item : forall u, In u (iter_types item) -> In u (Y ++ current i);
      i_written : forall u, In u (Y ++ current i) -> written world item u }.

    Lemma any_complete : forall fuel i Y, inv i Y -> any fuel self all p i = Some false ->
      exists Y' sn', inv (Iter [] sn' []) Y'.
    Proof.
      induction fuel as [|fuel IH]; intros [cur sn pend] Y IV H; [discriminate|].
      cbn [any current pending seen] in H. destruct cur as [|t cur].
      - destruct pend as [|t pend]; [exists Y, sn; exact IV|].
        destruct (definition_for self all t) as [d|] eqn:D.
        + apply (IH _ Y) in H; [exact H|]. destruct IV as [A B C I W]. split; cbn [current seen pending] in *; auto.
          * intros k K. destruct (C k K) as [y [Iy [Ky [Pe | Ex]]]]; exists y; (split; [exact Iy|]); (split; [exact Ky|]).
            -- destruct Pe as [<-|Pe]; [|left; exact Pe]. right. intros d' u D' Iu.
               rewrite D in D'. injection D' as <-. apply in_or_app. right. exact Iu.
            -- right. intros d' u D' Iu. apply in_or_app. left. specialize (Ex d' u D' Iu).
               rewrite app_nil_r in Ex. exact Ex.
          * intros u Iu. apply in_or_app. left. specialize (I u Iu). rewrite app_nil_r in I. exact I.
          * intros u Iu. apply in_app_or in Iu as [Iu|Iu].
            -- apply W. rewrite app_nil_r. exact Iu.
            -- unfold iter_def in Iu. apply in_flat_map in Iu as [f [If Iu]].
               apply definition_in in D as [c [Ic Id]]. right. exists c, d, f.
               split; [exact Ic|]. split; [exact Id|]. split; [exact If|].
               apply in_iter_inside. exact Iu.
        + apply (IH _ Y) in H; [exact H|]. destruct IV as [A B C I W]. split; cbn [current seen pending] in *; auto.
          intros k K. destruct (C k K) as [y [Iy [Ky [Pe | Ex]]]]; exists y; (split; [exact Iy|]); (split; [exact Ky|]).
          * destruct Pe as [<-|Pe]; [|left; exact Pe]. right. intros d' u D' Iu. congruence.
          * right. exact Ex.
      - destruct (p t) eqn:P; [discriminate|].
        apply (IH _ (Y ++ [t])) in H; [exact H|].
        destruct IV as [A B C I W]. cbn [current seen pending] in *.
        assert (AP : forall l, (Y ++ [t]) ++ l = Y ++ t :: l) by (intros; rewrite <- app_assoc; reflexivity).
        assert (A' : forall y, In y (Y ++ [t]) -> p y = false).
        { intros y Iy. apply in_app_or in Iy as [Iy|[<-|[]]]; auto. }
        unfold add_pending. destruct (named t) as [[[k mp] n]|] eqn:N.
        + cbn [seen current pending]. assert (KT : key t = Some (mp, n)) by (unfold key; rewrite N; reflexivity).
          destruct (existsb (key_eqb (mp, n)) sn) eqn:EX.
          * apply existsb_key in EX. split; cbn [current seen pending]; rewrite ?AP; auto.
            -- intros y k' Iy Ky. apply in_app_or in Iy as [Iy|[<-|[]]]; [exact (B y k' Iy Ky)|].
               rewrite KT in Ky. injection Ky as <-. exact EX.
            -- intros k' K'. destruct (C k' K') as [y [Iy [Ky O]]]. exists y.
               split; [apply in_or_app; left; exact Iy|]. split; [exact Ky|].
               destruct O as [O|O]; [left; exact O|right]. rewrite ?AP. exact O.
          * split; cbn [current seen pending]; rewrite ?AP; auto.
            -- intros y k' Iy Ky. apply in_app_or in Iy as [Iy|[<-|[]]].
               ++ right. exact (B y k' Iy Ky).
               ++ rewrite KT in Ky. injection Ky as <-. left. reflexivity.
            -- intros k' [<-|K'].
               ++ exists t. split; [apply in_or_app; right; left; reflexivity|].
                  split; [exact KT|]. left. left. reflexivity.
               ++ destruct (C k' K') as [y [Iy [Ky O]]]. exists y.
                  split; [apply in_or_app; left; exact Iy|]. split; [exact Ky|].
                  destruct O as [O|O]; [left; right; exact O|right]. rewrite ?AP. exact O.
        + assert (KT : key t = None) by (unfold key; rewrite N; reflexivity).
          split; cbn [current seen pending]; rewrite ?AP; auto.
          * intros y k' Iy Ky. apply in_app_or in Iy as [Iy|[<-|[]]]; [exact (B y k' Iy Ky)|congruence].
          * intros k' K'. destruct (C k' K') as [y [Iy [Ky O]]]. exists y.
            split; [apply in_or_app; left; exact Iy|]. split; [exact Ky|].
            destruct O as [O|O]; [left; exact O|right]. rewrite ?AP. exact O.
    Qed.

    Lemma same_key_same_definition y y' k :
      written world item y -> written world item y' -> key y = Some k -> key y' = Some k ->
      definition_for self all y = definition_for self all y'.
    Proof.
      destruct WF as [_ [_ [_ OK]]]. unfold key, definition_for. intros W W' K K'.
      destruct (named y) as [[[a mp] n]|] eqn:N; [|discriminate].
      destruct (named y') as [[[a' mp'] n']|] eqn:N'; [|discriminate].
      injection K as <-. injection K' as -> ->. rewrite (OK y y' a a' mp n W W' N N'). reflexivity.
    Qed.

    Lemma done_closed sn Y : inv (Iter [] sn []) Y ->
      forall t, contains world everything item t -> In t Y.
    Proof.
      intros [A B C I W]. cbn [current seen pending] in *. rewrite app_nil_r in *.
      destruct WF as [UC [UD [KN _]]].
      assert (BX : forall f b, written world item f -> inside (TBox b) f -> False).
      { intros f b Wf Ib. refine (NB (TBox b) _). destruct Wf as [Wf|[c [d [g [Ic [Id [Ig Wf]]]]]]].
        - left. exact (inside_trans _ _ _ Ib Wf).
        - right. exists c, d, g. repeat split; auto. exact (inside_trans _ _ _ Ib Wf). }
      induction 1 as [u In_|u d f v Cu IH D F Iv].
      - apply I. apply inside_in_iter; [|exact In_]. intros b. apply BX. left. constructor.
      - assert (DF := definition_complete u d UC UD D).
        destruct D as [k [mp [n [c [N [Ic [_ [Id _]]]]]]]].
        assert (K : key u = Some (mp, n)) by (unfold key; rewrite N; reflexivity).
        destruct (C _ (B u _ IH K)) as [y [Iy [Ky [[]|Ex]]]].
        rewrite ?app_nil_r in Ex. apply (Ex d).
        + rewrite (same_key_same_definition y u (mp, n)); auto.
        + unfold iter_def. apply in_flat_map. exists f. split; [exact F|].
          apply inside_in_iter; [|exact Iv]. intros b. apply BX. right. exists c, d, f.
          repeat split; auto. constructor.
    Qed.
  End complete.

  (** ** Termination *)

  Section terminates.
    Variables (p : ty -> bool) (item : ty).

    (** Every type the iterator can come across, and their names. *)
    Let universe := iter_types item ++ flat_map (fun c => flat_map iter_def (defs c)) world.
    Let names := flat_map (fun t => match key t with Some k => [k] | None => [] end) universe.

    Definition ok (i : iter) : Prop :=
      NoDup (seen i) /\ incl (seen i) names /\ incl (current i) universe.

    Definition left_names (i : iter) : nat := length names - length (seen i).

    Lemma one_step i : ok i ->
      (exists r, any 1 self all p i = Some r) \/
      exists i', (forall f, any (S f) self all p i = any f self all p i') /\ ok i' /\
        (left_names i' < left_names i \/
         (seen i' = seen i /\
          (length (pending i') < length (pending i) \/
           (pending i' = pending i /\ length (current i') < length (current i))))).
    Proof.
      unfold left_names. destruct i as [cur sn pend]. intros [ND [IN CU]].
      cbn [seen pending current] in *. destruct cur as [|t cur].
      - destruct pend as [|t pend]; [left; exists false; reflexivity|]. right.
        destruct (definition_for self all t) as [d|] eqn:D.
        + exists (Iter (iter_def d) sn pend). split; [|split].
          * intros f. cbn [any current pending seen]. rewrite D. reflexivity.
          * split; [exact ND|]. split; [exact IN|]. cbn [current]. intros u Iu.
            destruct (definition_in _ _ D) as [c [Ic Id]]. apply in_or_app. right.
            apply in_flat_map. exists c. split; [exact Ic|]. apply in_flat_map. exists d. auto.
          * right. split; [reflexivity|]. left. cbn. lia.
        + exists (Iter [] sn pend). split; [|split].
          * intros f. cbn [any current pending seen]. rewrite D. reflexivity.
          * split; [exact ND|]. split; [exact IN|]. intros u [].
          * right. split; [reflexivity|]. left. cbn. lia.
      - destruct (p t) eqn:P.
        { left. exists true. cbn [any current]. rewrite P. reflexivity. }
        right. exists (add_pending t (Iter cur sn pend)). split.
        { intros f. cbn [any current pending seen]. rewrite P. reflexivity. }
        assert (CQ : incl cur universe) by (intros u Iu; apply CU; right; exact Iu).
        unfold add_pending. destruct (named t) as [[[k mp] n]|] eqn:N.
        + cbn [seen]. destruct (existsb (key_eqb (mp, n)) sn) eqn:EX.
          * split; [split; [exact ND | split; [exact IN | exact CQ]]|].
            right. split; [reflexivity|]. right. split; [reflexivity|]. cbn. lia.
          * assert (NX : ~ In (mp, n) sn) by (intros Q; apply existsb_key in Q; congruence).
            assert (NT : In (mp, n) names).
            { apply in_flat_map. exists t. split; [apply CU; left; reflexivity|].
              unfold key. rewrite N. left. reflexivity. }
            assert (ND' : NoDup ((mp, n) :: sn)) by (constructor; assumption).
            assert (IN' : incl ((mp, n) :: sn) names) by (intros x [<-|Ix]; auto).
            split; [split; [exact ND' | split; [exact IN' | exact CQ]]|].
            left. cbn [seen]. assert (LE := NoDup_incl_length ND' IN'). cbn [List.length] in *. lia.
        + split; [split; [exact ND | split; [exact IN | exact CQ]]|].
          right. split; [reflexivity|]. right. split; [reflexivity|]. cbn. lia.
    Qed.

    Lemma terminates : forall a b c i, ok i ->
      left_names i < a -> length (pending i) < b -> length (current i) < c ->
      exists fuel r, any fuel self all p i = Some r.
    Proof.
      induction a as [|a IHa]; [intros; lia|].
      induction b as [|b IHb]; [intros; lia|].
      induction c as [|c IHc]; intros i OK La Lb Lc; [lia|].
      destruct (one_step i OK) as [[r H]|[i' [H [OK' D]]]]; [exists 1, r; exact H|].
      assert (X : exists fuel r, any fuel self all p i' = Some r).
      { destruct D as [D|[Es [D|[Ep D]]]].
        - refine (IHa _ _ i' OK' _ (Nat.lt_succ_diag_r _) (Nat.lt_succ_diag_r _)). lia.
        - refine (IHb _ i' OK' _ _ (Nat.lt_succ_diag_r _)); [|lia]. unfold left_names in *.
          rewrite Es. lia.
        - refine (IHc i' OK' _ _ _); [|rewrite Ep; lia | lia]. unfold left_names in *.
          rewrite Es. lia. }
      destruct X as [f [r X]]. exists (S f), r. rewrite H. exact X.
    Qed.
  End terminates.

  Lemma any_in_item_terminates p item : exists fuel r, any_in_item fuel self all p item = Some r.
  Proof.
    refine (terminates p item _ _ _ (Iter (iter_types item) [] []) _
      (Nat.lt_succ_diag_r _) (Nat.lt_succ_diag_r _) (Nat.lt_succ_diag_r _)).
    split; [constructor|]. split; [intros k []|].
    intros t I. apply in_or_app. left. exact I.
  Qed.

  Lemma any_in_item_sound p item fuel :
    well_formed world item -> any_in_item fuel self all p item = Some true ->
    exists t, contains world everything item t /\ p t = true.
  Proof.
    intros [_ [_ [KN _]]] H. refine (any_sound p item KN fuel _ _ H). cbn [current pending].
    rewrite app_nil_r. apply Forall_forall. intros u I. apply c_inside. apply in_iter_inside. exact I.
  Qed.

  Lemma any_in_item_complete p item fuel t :
    well_formed world item -> no_box world item ->
    any_in_item fuel self all p item = Some false -> contains world everything item t -> p t = false.
  Proof.
    intros WF NB H C.
    assert (IV : inv p item (Iter (iter_types item) [] []) []).
    { split; cbn [current seen pending app]; try (intros; contradiction); auto.
      intros u I. left. apply in_iter_inside. exact I. }
    destruct (any_complete p item fuel _ [] IV H) as [Y [sn IVd]].
    exact (i_false _ _ _ _ IVd t (done_closed p item WF NB _ Y IVd t C)).
  Qed.
End world.

(** More fuel gives the same answer. *)
Lemma any_mono self all p : forall fuel i r, any fuel self all p i = Some r ->
  forall fuel', fuel <= fuel' -> any fuel' self all p i = Some r.
Proof.
  induction fuel as [|fuel IH]; intros i r H fuel' L; [discriminate|].
  destruct fuel' as [|fuel']; [lia|]. cbn [any] in *.
  destruct (current i) as [|t ts].
  - destruct (pending i) as [|t pend]; [exact H|].
    destruct (definition_for self all t); apply IH; auto; lia.
  - destruct (p t); [exact H|]. apply IH; auto; lia.
Qed.

(** ** The two questions *)

Lemma is_object_spec t : is_object t = true <-> an_object t.
Proof.
  split.
  - destruct t; try discriminate. intros _. do 3 eexists. reflexivity.
  - intros [m [n [i ->]]]. reflexivity.
Qed.

Lemma is_unsigned_spec t : is_unsigned t = true <-> an_unsigned t.
Proof.
  unfold an_unsigned. split.
  - destruct t; try discriminate; auto.
  - intros [-> | [-> | [-> | ->]]]; reflexivity.
Qed.

Lemma objects_terminate self all item :
  exists fuel answer, item_contains_object_references fuel self all item = Some answer.
Proof. exact (any_in_item_terminates self all is_object item). Qed.

Lemma objects_one_answer self all item fuel fuel' a a' :
  item_contains_object_references fuel self all item = Some a ->
  item_contains_object_references fuel' self all item = Some a' -> a = a'.
Proof.
  intros A B. unfold item_contains_object_references, any_in_item in *.
  apply (any_mono _ _ _ _ _ _) with (fuel' := Nat.max fuel fuel') in A; [|apply Nat.le_max_l].
  apply (any_mono _ _ _ _ _ _) with (fuel' := Nat.max fuel fuel') in B; [|apply Nat.le_max_r].
  congruence.
Qed.

Lemma objects_sound self all item fuel :
  well_formed (self :: all) item ->
  item_contains_object_references fuel self all item = Some true ->
  exists o, an_object o /\ contains (self :: all) everything item o.
Proof.
  intros WF H. destruct (any_in_item_sound self all is_object item fuel WF H) as [t [C P]].
  exists t. split; [apply is_object_spec; exact P | exact C].
Qed.

Lemma objects_complete self all item fuel o :
  well_formed (self :: all) item -> no_box (self :: all) item ->
  item_contains_object_references fuel self all item = Some false ->
  contains (self :: all) everything item o -> ~ an_object o.
Proof.
  intros WF NB H C O. apply is_object_spec in O.
  rewrite (any_in_item_complete self all is_object item fuel o WF NB H C) in O. discriminate.
Qed.

Lemma unsigned_exact self all item :
  well_formed (self :: all) item -> no_box (self :: all) item ->
  exists fuel answer, item_contains_unsigned_types fuel self all item = Some answer /\
    (answer = true <-> exists u, an_unsigned u /\ contains (self :: all) everything item u).
Proof.
  intros WF NB. destruct (any_in_item_terminates self all is_unsigned item) as [fuel [r H]].
  exists fuel, r. split; [exact H|]. split.
  - intros ->. destruct (any_in_item_sound self all is_unsigned item fuel WF H) as [t [C P]].
    exists t. split; [apply is_unsigned_spec; exact P | exact C].
  - intros [u [U C]]. apply is_unsigned_spec in U. destruct r; [reflexivity|].
    rewrite (any_in_item_complete self all is_unsigned item fuel u WF NB H C) in U. discriminate.
Qed.
