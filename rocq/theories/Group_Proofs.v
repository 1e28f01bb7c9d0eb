(** Proofs for C40. *)
From Verif Require Import Base Meta_Types Meta_Eq Group_Model Group_Spec.
From Coq Require Import Permutation.

Lemma bytes_eqb_refl a : bytes_eqb a a = true.
Proof. destruct (bytes_eqb_spec a a); congruence. Qed.

Lemma get_put k g m k' : get k' (put k g m) = if bytes_eqb k' k then Some g else get k' m.
Proof.
  induction m as [|[a h] m IH]; cbn [put get]; [reflexivity|].
  destruct (bytes_eqb_spec k a) as [->|N]; cbn [get].
  - destruct (bytes_eqb_spec k' a); reflexivity.
  - destruct (bytes_eqb_spec k' a) as [->|N'].
    + destruct (bytes_eqb_spec a k); [congruence|reflexivity].
    + exact IH.
Qed.

Definition keys (m : groups) := map fst m.

Lemma keys_put k g m : keys (put k g m) = if existsb (bytes_eqb k) (keys m) then keys m else keys m ++ [k].
Proof.
  induction m as [|[a h] m IH]; cbn [put keys map existsb fst]; [reflexivity|].
  destruct (bytes_eqb_spec k a) as [->|N]; cbn [keys map fst orb].
  - reflexivity.
  - change (map fst (put k g m)) with (keys (put k g m)). rewrite IH. fold (keys m).
    destruct (existsb _ (keys m)); reflexivity.
Qed.

Lemma nodup_put k g m : NoDup (keys m) -> NoDup (keys (put k g m)).
Proof.
  intros H. rewrite keys_put. destruct (existsb (bytes_eqb k) (keys m)) eqn:E; [exact H|].
  rewrite <- (app_nil_r (keys m)) in H.
  apply NoDup_Add with (a := k) (l := keys m ++ []); [|split; [exact H|]].
  - apply Add_app.
  - rewrite app_nil_r. intros I. assert (X : existsb (bytes_eqb k) (keys m) = true).
    { apply existsb_exists. exists k. split; [exact I | apply bytes_eqb_refl]. }
    congruence.
Qed.

Lemma get_in k m g : get k m = Some g -> In (k, g) m.
Proof.
  induction m as [|[a h] m IH]; cbn [get]; [discriminate|].
  destruct (bytes_eqb_spec k a) as [->|N]; intros H.
  - injection H as <-. left. reflexivity.
  - right. auto.
Qed.

Lemma in_get k m g : NoDup (keys m) -> In (k, g) m -> get k m = Some g.
Proof.
  induction m as [|[a h] m IH]; [intros _ []|]. cbn [keys map fst get]. intros ND [E|I].
  - injection E as <- <-. rewrite bytes_eqb_refl. reflexivity.
  - inversion ND as [|? ? NI ND']; subst. destruct (bytes_eqb_spec k a) as [->|N]; [|auto].
    exfalso. apply NI. apply in_map_iff. exists (a, g). auto.
Qed.

(** ** The empty groups *)

Lemma create_keys items : forall m, NoDup (keys m) -> NoDup (keys (create_from m items)).
Proof.
  induction items as [|x items IH]; intros m H; [exact H|].
  destruct x; cbn [create_from]; apply IH; auto using nodup_put.
Qed.

(** A group is made for each declared crate and carries a declared name. *)
Lemma create_get items : forall m c,
  match get c (create_from m items) with
  | Some g => (get c m = Some g /\ (forall a n, In a items -> ~ declares a c n)) \/
              (g_crate g = c /\ g_items g = [] /\ exists a, In a items /\ declares a c (g_namespace g))
  | None => get c m = None /\ forall a n, In a items -> ~ declares a c n
  end.
Proof.
  induction items as [|x items IH]; intros m c.
  - cbn [create_from]. destruct (get c m); [left|]; split; auto; intros a n [].
  - assert (K : forall m', (forall n, ~ declares x c n) ->
       get c m' = get c m ->
       match get c (create_from m' items) with
       | Some g => (get c m = Some g /\ (forall a n, In a (x :: items) -> ~ declares a c n)) \/
              (g_crate g = c /\ g_items g = [] /\ exists a, In a (x :: items) /\ declares a c (g_namespace g))
       | None => get c m = None /\ forall a n, In a (x :: items) -> ~ declares a c n
       end).
    { intros m' N E. specialize (IH m' c). destruct (get c (create_from m' items)) as [g|].
      - destruct IH as [[E' ND]|[A [B [a [Ia Da]]]]].
        + left. split; [congruence|]. intros a n [<-|Ia]; auto.
        + right. repeat split; auto. exists a. split; [right; exact Ia | exact Da].
      - destruct IH as [E' ND]. split; [congruence|]. intros a n [<-|Ia]; auto. }
    assert (P : forall c' n', (forall n, declares x c n <-> c' = c /\ n' = n) ->
       match get c (create_from (put c' (Group c' n' []) m) items) with
       | Some g => (get c m = Some g /\ (forall a n, In a (x :: items) -> ~ declares a c n)) \/
              (g_crate g = c /\ g_items g = [] /\ exists a, In a (x :: items) /\ declares a c (g_namespace g))
       | None => get c m = None /\ forall a n, In a (x :: items) -> ~ declares a c n
       end).
    { intros c' n' D. destruct (bytes_eqb_spec c c') as [E|N].
      - subst c'. specialize (IH (put c (Group c n' []) m) c).
        rewrite get_put, bytes_eqb_refl in IH.
        destruct (get c (create_from _ items)) as [g|].
        + right. destruct IH as [[E' ND]|[A [B [a [Ia Da]]]]].
          * injection E' as <-. cbn. repeat split; auto. exists x. split; [left; reflexivity|].
            apply D. auto.
          * repeat split; auto. exists a. split; [right; exact Ia | exact Da].
        + destruct IH as [E' _]. discriminate.
      - apply K.
        + intros n Q. apply D in Q as [Q _]. congruence.
        + rewrite get_put. destruct (bytes_eqb_spec c c'); [congruence|reflexivity]. }
    destruct x; cbn [create_from]; try (apply K; [intros n Q; exact Q | reflexivity]).
    + apply P. intros n. cbn. tauto.
    + apply P. intros n. cbn. tauto.
Qed.

(** ** Filling them *)

(** Whether an item belongs to [c], as a boolean. *)
Definition belongs (c : str) (m : metadata) : bool :=
  negb (is_namespace m) &&
  match module_path m with Ok mp => bytes_eqb (crate_of_path mp) c | _ => false end.

Lemma belongs_spec c m : belongs c m = true <-> of_crate m c.
Proof.
  unfold belongs, of_crate. rewrite andb_true_iff. split.
  - intros [A B]. split; [destruct (is_namespace m); [discriminate|reflexivity]|].
    destruct (module_path m) as [mp| | |]; try discriminate. exists mp. split; [reflexivity|].
    destruct (bytes_eqb_spec (crate_of_path mp) c); congruence.
  - intros [-> [mp [-> <-]]]. split; [reflexivity | apply bytes_eqb_refl].
Qed.

Lemma group_ok items : forall m r, group_metadata m items = Ok r ->
  NoDup (keys m) ->
  NoDup (keys r) /\
  (forall c, match get c m, get c r with
             | Some g, Some h => g_crate h = g_crate g /\ g_namespace h = g_namespace g /\
                 g_items h = g_items g ++ filter (belongs c) items /\
                 (NoDup (g_items g) -> NoDup (g_items h))
             | None, None => forall x, In x items -> ~ of_crate x c
             | _, _ => False
             end) /\
  (forall x, In x items -> is_namespace x = false -> exists c, of_crate x c).
Proof.
  induction items as [|x items IH]; intros m r H ND.
  - injection H as <-. split; [exact ND|]. split; [|intros x []].
    intros c. destruct (get c m) as [g|]; [|intros x []]. cbn. rewrite app_nil_r. auto.
  - cbn [group_metadata] in H. destruct (is_namespace x) eqn:NS.
    + destruct (IH m r H ND) as [A [B C]]. split; [exact A|]. split.
      * intros c. specialize (B c). cbn [filter].
        assert (BX : belongs c x = false) by (unfold belongs; rewrite NS; reflexivity).
        rewrite BX. destruct (get c m), (get c r); auto.
        intros y [<-|I]; auto. intros [Q _]. congruence.
      * intros y [<-|I] Q; [congruence|auto].
    + destruct (module_path x) as [mp| | |] eqn:MP; try discriminate. cbn [bind] in H.
      set (k := crate_of_path mp) in *. destruct (get k m) as [g0|] eqn:G; [|discriminate].
      destruct (in_dec metadata_eq_dec x (g_items g0)) as [I|NI]; [discriminate|].
      destruct (IH _ r H (nodup_put _ _ _ ND)) as [A [B C]]. split; [exact A|]. split.
      * intros c. specialize (B c). rewrite get_put in B. cbn [filter].
        destruct (bytes_eqb_spec c k) as [E|N].
        -- subst c. rewrite G. destruct (get k r) as [h|]; [|exact B].
           assert (BX : belongs k x = true).
           { apply belongs_spec. split; [exact NS|]. exists mp. auto. }
           rewrite BX. cbn [g_crate g_namespace g_items] in B. destruct B as [B1 [B2 [B3 B4]]].
           repeat split; auto.
           ++ rewrite B3, <- app_assoc. reflexivity.
           ++ intros Q. apply B4. apply NoDup_rev in Q. rewrite <- (rev_involutive (_ ++ [x])).
              apply NoDup_rev. rewrite rev_app_distr. cbn. constructor; [|exact Q].
              rewrite <- in_rev. exact NI.
        -- assert (BX : belongs c x = false).
           { destruct (belongs c x) eqn:BX; [|reflexivity]. apply belongs_spec in BX.
             destruct BX as [_ [mp' [E' E'']]]. rewrite MP in E'. injection E' as <-. exfalso.
             apply N. symmetry. exact E''. }
           rewrite BX. destruct (get c m), (get c r); auto.
           intros y [<-|I]; auto. intros [_ [mp' [E' E'']]]. rewrite MP in E'. injection E' as <-.
           apply N. symmetry. exact E''.
      * intros y [<-|I] Q; [|auto]. exists k. split; [exact NS|]. exists mp. auto.
Qed.

(** When it succeeds. *)
Lemma group_succeeds items : forall m,
  (forall x, In x items -> is_namespace x = false ->
     exists c g, of_crate x c /\ get c m = Some g /\ ~ In x (g_items g)) ->
  NoDup (filter (fun x => negb (is_namespace x)) items) ->
  exists r, group_metadata m items = Ok r.
Proof.
  induction items as [|x items IH]; intros m H ND; [exists m; reflexivity|].
  cbn [group_metadata filter] in *. destruct (is_namespace x) eqn:NS; cbn [negb] in ND.
  - apply IH; auto. intros y I. apply H. right. exact I.
  - destruct (H x (or_introl eq_refl) NS) as [c [g [[_ [mp [MP CP]]] [G NI]]]].
    rewrite MP. cbn [bind]. rewrite CP, G.
    destruct (in_dec metadata_eq_dec x (g_items g)) as [I|_]; [contradiction|].
    inversion ND as [|? ? NX ND']; subst.
    apply IH; [|exact ND']. intros y I NSy.
    destruct (H y (or_intror I) NSy) as [c' [g' [OC [G' NI']]]]. exists c'.
    rewrite get_put. destruct (bytes_eqb_spec c' (crate_of_path mp)) as [->|N].
    + eexists. split; [exact OC|]. split; [reflexivity|]. cbn [g_items].
      rewrite G in G'. injection G' as <-. intros Q. apply in_app_or in Q as [Q|[<-|[]]]; [auto|].
      apply NX. apply filter_In. rewrite NSy. auto.
    + exists g'. auto.
Qed.

Lemma filter_belongs_namespace c items :
  filter (belongs c) items = filter (belongs c) (filter (fun x => negb (is_namespace x)) items).
Proof.
  induction items as [|x items IH]; [reflexivity|]. cbn [filter].
  destruct (is_namespace x) eqn:NS; cbn [negb].
  - assert (BX : belongs c x = false) by (unfold belongs; rewrite NS; reflexivity).
    rewrite BX. exact IH.
  - cbn [filter]. destruct (belongs c x); rewrite IH; reflexivity.
Qed.

Lemma of_crate_unique x c c' : of_crate x c -> of_crate x c' -> c = c'.
Proof. intros [_ [mp [E <-]]] [_ [mp' [E' <-]]]. congruence. Qed.

Lemma nodup_filter {A} (p : A -> bool) (q : A -> bool) l :
  (forall x, q x = true -> p x = true) -> NoDup (filter p l) -> NoDup (filter q l).
Proof.
  intros PQ. induction l as [|x l IH]; cbn [filter]; intros H; [constructor|].
  destruct (q x) eqn:Q.
  - rewrite (PQ x Q) in H. inversion H as [|? ? NI H']; subst. constructor; [|auto].
    intros I. apply NI. apply filter_In in I as [I Q']. apply filter_In. auto.
  - destruct (p x); [inversion H; auto | auto].
Qed.

(** Conversely a success has no duplicates. *)
Lemma nodup_by_crate items :
  (forall x, In x items -> is_namespace x = false -> exists c, of_crate x c) ->
  (forall c, NoDup (filter (belongs c) items)) ->
  NoDup (filter (fun x => negb (is_namespace x)) items).
Proof.
  induction items as [|x items IH]; intros H D; cbn [filter]; [constructor|].
  assert (T : NoDup (filter (fun x => negb (is_namespace x)) items)).
  { apply IH; [intros y I; apply H; right; exact I|]. intros c. specialize (D c). cbn [filter] in D.
    destruct (belongs c x); [inversion D; assumption | exact D]. }
  destruct (is_namespace x) eqn:NS; cbn [negb]; [exact T|]. constructor; [|exact T].
  intros I. apply filter_In in I as [I _].
  destruct (H x (or_introl eq_refl) NS) as [c OC]. specialize (D c). cbn [filter] in D.
  assert (B : belongs c x = true) by (apply belongs_spec; exact OC). rewrite B in D.
  inversion D as [|? ? NI _]; subst. apply NI. apply filter_In. auto.
Qed.

Definition all_known (items : list metadata) : Prop :=
  forall x, In x items -> is_namespace x = false ->
    exists c, of_crate x c /\ exists a n, In a items /\ declares a c n.

Lemma library_is items gs : group_library items = Ok gs ->
  NoDup (keys gs) /\
  (forall c, match get c gs with
             | Some g => g_crate g = c /\ g_items g = filter (belongs c) items /\ NoDup (g_items g) /\
                         exists a, In a items /\ declares a c (g_namespace g)
             | None => (forall a n, In a items -> ~ declares a c n) /\
                       forall x, In x items -> ~ of_crate x c
             end) /\
  (forall x, In x items -> is_namespace x = false -> exists c, of_crate x c).
Proof.
  intros H. assert (H' : group_metadata (create_metadata_groups items) items = Ok gs).
  { destruct items; [discriminate | exact H]. }
  destruct (group_ok items _ gs H') as [A [B C]].
  { apply create_keys. constructor. }
  split; [exact A|]. split; [|exact C].
  intros c. specialize (B c). assert (G := create_get items [] c).
  fold (create_metadata_groups items) in G.
  destruct (get c (create_metadata_groups items)) as [g|].
  - destruct G as [[G _]|[G1 [G2 [a [Ia Da]]]]]; [discriminate|].
    destruct (get c gs) as [h|]; [|contradiction]. destruct B as [B1 [B2 [B3 B4]]].
    rewrite G2 in B3, B4. cbn [app] in B3. repeat split; try congruence.
    + apply B4. constructor.
    + exists a. rewrite B2. auto.
  - destruct G as [_ G]. destruct (get c gs) as [h|]; [contradiction|]. auto.
Qed.

Lemma library_succeeds items :
  items <> [] -> all_known items -> NoDup (filter (fun x => negb (is_namespace x)) items) ->
  exists gs, group_library items = Ok gs.
Proof.
  intros NE K ND. unfold group_library. destruct items as [|x0 items0]; [congruence|].
  set (items := x0 :: items0) in *. apply group_succeeds; [|exact ND].
  intros x I NS. destruct (K x I NS) as [c [OC [a [n [Ia Da]]]]]. exists c.
  assert (G := create_get items [] c). fold (create_metadata_groups items) in G.
  destruct (get c (create_metadata_groups items)) as [g|].
  - exists g. split; [exact OC|]. split; [reflexivity|].
    destruct G as [[G _]|[_ [-> _]]]; [discriminate|]. intros [].
  - exfalso. destruct G as [_ G]. exact (G a n Ia Da).
Qed.

Lemma library_needs items gs : group_library items = Ok gs ->
  items <> [] /\ all_known items /\ NoDup (filter (fun x => negb (is_namespace x)) items).
Proof.
  intros H. destruct (library_is items gs H) as [_ [G C]]. split; [|split].
  - destruct items; [discriminate | congruence].
  - intros x I NS. destruct (C x I NS) as [c OC]. exists c. split; [exact OC|].
    specialize (G c). destruct (get c gs) as [g|].
    + destruct G as [_ [_ [_ [a [Ia Da]]]]]. exists a, (g_namespace g). auto.
    + destruct G as [_ G]. exfalso. exact (G x I OC).
  - apply nodup_by_crate; [exact C|]. intros c. specialize (G c).
    destruct (get c gs) as [g|].
    + destruct G as [_ [<- [ND _]]]. exact ND.
    + destruct G as [_ G]. destruct (filter (belongs c) items) as [|x l] eqn:F; [constructor|].
      exfalso. assert (I : In x (filter (belongs c) items)) by (rewrite F; left; reflexivity).
      apply filter_In in I as [I B]. apply belongs_spec in B. exact (G x I B).
Qed.

(** ** The property *)

Lemma in_its_group items gs x : group_library items = Ok gs -> In x items -> is_namespace x = false ->
  exists c g, of_crate x c /\ In (c, g) gs /\ count_occ metadata_eq_dec (g_items g) x = 1 /\
    forall c' g', In (c', g') gs -> In x (g_items g') -> c' = c /\ g' = g.
Proof.
  intros H I NS. destruct (library_is items gs H) as [ND [G C]].
  destruct (C x I NS) as [c OC]. assert (Gc := G c). destruct (get c gs) as [g|] eqn:E.
  - destruct Gc as [_ [GI [GN _]]]. exists c, g. split; [exact OC|]. split; [apply get_in; exact E|].
    split.
    + apply NoDup_count_occ'; [exact GN|]. rewrite GI. apply filter_In.
      split; [exact I | apply belongs_spec; exact OC].
    + intros c' g' I' X. assert (E' := in_get _ _ _ ND I'). assert (Gc' := G c'). rewrite E' in Gc'.
      destruct Gc' as [_ [GI' _]]. rewrite GI' in X. apply filter_In in X as [_ X].
      apply belongs_spec in X. assert (c' = c) by exact (of_crate_unique _ _ _ X OC). subst c'.
      split; [reflexivity | congruence].
  - destruct Gc as [_ Gc]. exfalso. exact (Gc x I OC).
Qed.

Lemma nothing_else items gs c g x : group_library items = Ok gs -> In (c, g) gs ->
  (In x (g_items g) -> In x items /\ of_crate x c) /\
  g_crate g = c /\ exists a, In a items /\ declares a c (g_namespace g).
Proof.
  intros H I. destruct (library_is items gs H) as [ND [G C]].
  assert (E := in_get _ _ _ ND I). specialize (G c). rewrite E in G. destruct G as [A [B [_ D]]].
  split; [|auto]. intros X. rewrite B in X. apply filter_In in X as [X Y].
  split; [exact X | apply belongs_spec; exact Y].
Qed.

Lemma succeeds_exactly items :
  (exists gs, group_library items = Ok gs) <->
  items <> [] /\ all_known items /\ NoDup (filter (fun x => negb (is_namespace x)) items).
Proof.
  split.
  - intros [gs H]. exact (library_needs items gs H).
  - intros [A [B C]]. exact (library_succeeds items A B C).
Qed.

Lemma filter_permutation {A} (p : A -> bool) l l' :
  Permutation l l' -> Permutation (filter p l) (filter p l').
Proof.
  induction 1 as [|x l l' P IH|x y l|l l' l'' P IH P' IH']; cbn [filter]; auto.
  - destruct (p x); auto.
  - destruct (p x), (p y); auto. apply perm_swap.
  - exact (Permutation_trans IH IH').
Qed.

Lemma order_irrelevant items items' gs :
  one_namespace items -> Permutation items items' -> group_library items = Ok gs ->
  exists gs', group_library items' = Ok gs' /\ same_groups gs gs'.
Proof.
  intros ON P H.
  assert (X : exists gs', group_library items' = Ok gs').
  { apply succeeds_exactly. destruct (library_needs items gs H) as [A [B C]]. split; [|split].
    - intros ->. apply A. apply Permutation_sym, Permutation_nil in P. exact P.
    - intros x I NS. apply (Permutation_in _ (Permutation_sym P)) in I.
      destruct (B x I NS) as [c [OC [a [n [Ia Da]]]]]. exists c. split; [exact OC|].
      exists a, n. split; [exact (Permutation_in _ P Ia) | exact Da].
    - exact (Permutation_NoDup (filter_permutation _ _ _ P) C). }
  destruct X as [gs' H']. exists gs'. split; [exact H'|]. intros c.
  destruct (library_is items gs H) as [_ [G _]]. destruct (library_is items' gs' H') as [_ [G' _]].
  specialize (G c). specialize (G' c). destruct (get c gs) as [g|], (get c gs') as [g'|]; [..|exact I].
  - destruct G as [A [B [_ [a [Ia Da]]]]], G' as [A' [B' [_ [a' [Ia' Da']]]]].
    split; [congruence|]. split.
    + refine (ON a a' c _ _ Ia _ Da Da'). exact (Permutation_in _ (Permutation_sym P) Ia').
    + rewrite B, B'. apply filter_permutation. exact P.
  - destruct G as [_ [_ [_ [a [Ia Da]]]]], G' as [G' _].
    exact (G' a _ (Permutation_in _ P Ia) Da).
  - destruct G' as [_ [_ [_ [a [Ia Da]]]]], G as [G _].
    exact (G a _ (Permutation_in _ (Permutation_sym P) Ia) Da).
Qed.
