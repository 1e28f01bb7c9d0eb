(** Proofs about configurations. *)
From Verif Require Import Tml_Spec.

(** * Merging one level *)
Fixpoint merge_list (a b : table) {struct b} : option toml :=
  match b with
  | [] => Some (Table a)
  | (key, value) :: b =>
      match get key a with
      | Some e => match merge_value e value with Some m => merge_list (set key m a) b | None => None end
      | None => merge_list (a ++ [(key, value)]) b
      end
  end.
Lemma merge_tables a b : merge_value (Table a) (Table b) = merge_list a b.
Proof.
  cbn [merge_value]. revert a. induction b as [| [k v] b IH]; intros a; [reflexivity |].
  cbn [merge_list]. destruct (get k a); [| apply IH]. destruct (merge_value t v); [apply IH | reflexivity].
Qed.
Lemma get_set_same {A} k (v w : A) t : get k t = Some w -> get k (set k v t) = Some v.
Proof.
  induction t as [| [k' w'] t IH]; cbn; [discriminate |]. destruct (String.eqb_spec k k') as [-> | D]; cbn.
  - intros _. now rewrite String.eqb_refl.
  - intros H. destruct (String.eqb_spec k k'); [contradiction |]. exact (IH H).
Qed.
Lemma get_set_other {A} k k' (v : A) t : k <> k' -> get k (set k' v t) = get k t.
Proof.
  intros D. induction t as [| [k2 w2] t IH]; cbn; [reflexivity |].
  destruct (String.eqb_spec k' k2) as [-> | D2]; cbn; destruct (String.eqb_spec k k2) as [-> | D3]; try reflexivity; try congruence; exact IH.
Qed.
Lemma set_keys {A} k (v : A) t : map fst (set k v t) = map fst t.
Proof. induction t as [| [k' w'] t IH]; cbn; [reflexivity |]. destruct (String.eqb k k'); cbn; congruence. Qed.
Lemma get_app {A} k (t u : list (string * A)) : get k (t ++ u) = match get k t with Some v => Some v | None => get k u end.
Proof. induction t as [| [k' w'] t IH]; cbn; [reflexivity |]. now destruct (String.eqb k k'). Qed.
Lemma get_none {A} k (t : list (string * A)) : get k t = None <-> ~ In k (map fst t).
Proof.
  induction t as [| [k' w'] t IH]; cbn; [tauto |]. destruct (String.eqb_spec k k') as [-> | D]; [split; [discriminate | tauto] |].
  rewrite IH. intuition congruence.
Qed.
Lemma get_in {A} k (v : A) t : get k t = Some v -> In (k, v) t.
Proof. induction t as [| [k' w'] t IH]; cbn; [discriminate |]. destruct (String.eqb_spec k k') as [-> | D]; [intros [= ->]; now left | intros H; right; exact (IH H)]. Qed.
Lemma NoDup_snoc {A} (l : list A) x : NoDup l -> ~ In x l -> NoDup (l ++ [x]).
Proof.
  induction l as [| y l IH]; cbn; intros N I; [constructor; [tauto | constructor] |].
  apply NoDup_cons_iff in N as [N1 N2]. constructor.
  - intros J. apply in_app_or in J as [J | [-> | []]]; tauto.
  - apply IH; [exact N2 | tauto].
Qed.

Definition merged_at (a b : table) (c : table) (k : string) : Prop :=
  match get k b with
  | None => get k c = get k a
  | Some v => match get k a with
              | None => get k c = Some v
              | Some e => exists m, merge_value e v = Some m /\ get k c = Some m
              end
  end.
Lemma merge_list_spec b : forall a, NoDup (map fst a) -> NoDup (map fst b) ->
  match merge_list a b with
  | Some m => exists c, m = Table c /\ NoDup (map fst c) /\ forall k, merged_at a b c k
  | None => exists k e v, get k a = Some e /\ get k b = Some v /\ merge_value e v = None
  end.
Proof.
  induction b as [| [key value] b IH]; intros a Na Nb.
  - cbn. exists a. split; [reflexivity |]. split; [exact Na |]. intros k. reflexivity.
  - cbn [map fst] in Nb. apply NoDup_cons_iff in Nb as [Ni Nb]. apply get_none in Ni. cbn [merge_list].
    destruct (get key a) as [e |] eqn:G.
    + destruct (merge_value e value) as [m |] eqn:M.
      * specialize (IH (set key m a)). rewrite set_keys in IH. specialize (IH Na Nb).
        destruct (merge_list (set key m a) b) as [r |].
        -- destruct IH as (c & -> & Nc & H). exists c. split; [reflexivity |]. split; [exact Nc |].
           intros k. specialize (H k). unfold merged_at in *. cbn [get].
           destruct (String.eqb_spec k key) as [-> | D].
           ++ rewrite Ni in H. rewrite H, (get_set_same _ _ _ _ G), G. eauto.
           ++ rewrite (get_set_other _ _ _ _ D) in H. exact H.
        -- destruct IH as (k & e' & v & A & B & C). exists k, e', v. cbn [get].
           destruct (String.eqb_spec k key) as [-> | D]; [congruence |]. rewrite (get_set_other _ _ _ _ D) in A. auto.
      * exists key, e, value. cbn [get]. rewrite String.eqb_refl. auto.
    + specialize (IH (a ++ [(key, value)])). rewrite map_app in IH. cbn [map fst] in IH.
      specialize (IH (NoDup_snoc _ _ Na (proj1 (get_none _ _) G)) Nb).
      destruct (merge_list (a ++ [(key, value)]) b) as [r |].
      * destruct IH as (c & -> & Nc & H). exists c. split; [reflexivity |]. split; [exact Nc |].
        intros k. specialize (H k). unfold merged_at in *. cbn [get]. rewrite get_app in H. cbn [get] in H.
        destruct (String.eqb_spec k key) as [E | D].
        -- subst k. rewrite Ni, G in H. rewrite G. exact H.
        -- destruct (get k a); exact H.
      * destruct IH as (k & e' & v & A & B & C). exists k, e', v. cbn [get]. rewrite get_app in A. cbn [get] in A.
        destruct (String.eqb_spec k key) as [-> | D]; [congruence |]. destruct (get k a); [auto | discriminate A].
Qed.

(** * Merging at a path *)
Lemma proper_get t k v : proper (Table t) -> get k t = Some v -> proper v.
Proof. intros P G p t' H. apply (P (k :: p)). cbn. now rewrite G. Qed.
Lemma proper_keys t : proper (Table t) -> NoDup (map fst t).
Proof. intros P. exact (P [] t eq_refl). Qed.
Lemma kind_eqb_eq a b : kind_eqb a b = true <-> a = b.
Proof. destruct a, b; cbn; split; congruence. Qed.

Lemma merge_shape e n m : merge_value e n = Some m -> shape e = shape n /\ shape m = shape n
  /\ (match n with Leaf _ _ => m = n | Table _ => True end).
Proof.
  destruct e as [k x | t0], n as [k' y | t1].
  - cbn. destruct (kind_eqb k k') eqn:E; [| discriminate]. intros [= <-]. apply kind_eqb_eq in E as ->. auto.
  - cbn. discriminate.
  - cbn. discriminate.
  - rewrite merge_tables. revert t0. induction t1 as [| [k v] t1 IH]; intros t0; cbn [merge_list].
    + intros [= <-]. auto.
    + destruct (get k t0) as [e |]; [| intros M; exact (IH _ M)]. destruct (merge_value e v); [intros M; exact (IH _ M) | discriminate].
Qed.
Lemma merge_path p : forall e n m, proper e -> proper n -> merge_value e n = Some m ->
  match at_path p n, at_path p e with
  | Some w, Some v => exists u, at_path p m = Some u /\ merge_value v w = Some u
  | Some w, None => at_path p m = Some w
  | None, o => at_path p m = o
  end.
Proof.
  induction p as [| k p IH]; intros e n m Pe Pn M.
  - cbn. exists m. auto.
  - destruct e as [ke x | t0], n as [kn y | t1].
    + destruct (merge_shape _ _ _ M) as (_ & _ & ->). reflexivity.
    + discriminate M.
    + discriminate M.
    + rewrite merge_tables in M. pose proof (merge_list_spec t1 t0 (proper_keys _ Pe) (proper_keys _ Pn)) as S.
      rewrite M in S. destruct S as (c & -> & Nc & H). specialize (H k). unfold merged_at in H. cbn [at_path].
      destruct (get k t1) as [v |] eqn:G1.
      * destruct (get k t0) as [e |] eqn:G0.
        -- destruct H as (u & Mu & ->). exact (IH _ _ _ (proper_get _ _ _ Pe G0) (proper_get _ _ _ Pn G1) Mu).
        -- rewrite H. now destruct (at_path p v).
      * rewrite H. destruct (get k t0); reflexivity.
Qed.
Lemma merge_proper e n m : proper e -> proper n -> merge_value e n = Some m -> proper m.
Proof.
  intros Pe Pn M p t H. pose proof (merge_path p _ _ _ Pe Pn M) as S.
  destruct (at_path p n) as [w |] eqn:W.
  - destruct (at_path p e) as [v |] eqn:V.
    + destruct S as (u & U & MU). rewrite U in H. injection H as ->.
      destruct (merge_shape _ _ _ MU) as (S1 & S2 & S3).
      destruct w as [| t1]; [discriminate S2 |]. destruct v as [| t0]; [discriminate S1 |].
      rewrite merge_tables in MU. pose proof (merge_list_spec t1 t0 (Pe _ _ V) (Pn _ _ W)) as L. rewrite MU in L.
      destruct L as (c & [= ->] & N & _). exact N.
    + rewrite S in H. injection H as ->. exact (Pn _ _ W).
  - rewrite S in H. exact (Pe _ _ H).
Qed.

(** A proof by induction on the nesting of tables. *)
Section Nesting.
Variable P : toml -> Prop.
Hypothesis at_leaf : forall k n, P (Leaf k n).
Hypothesis at_table : forall t, (forall k v, In (k, v) t -> P v) -> P (Table t).
Fixpoint nesting (v : toml) : P v.
Proof.
  destruct v as [k n | t]; [apply at_leaf |]. apply at_table.
  induction t as [| [k' v'] t IH]; intros k v H; [destruct H |].
  destruct H as [E | H]; [| exact (IH k v H)]. injection E as _ <-. exact (nesting v').
Defined.
End Nesting.

Lemma merge_fails e n : proper e -> proper n -> (merge_value e n = None <-> clash e n).
Proof.
  intros Pe Pn. split.
  - revert n e Pe Pn. refine (nesting _ _ _).
    + intros k n [k' n' | t] Pe Pn.
      * cbn. destruct (kind_eqb k' k) eqn:E; [discriminate |]. intros _.
        exists [], (Leaf k' n'), (Leaf k n). cbn. repeat split. intros [= ->]. destruct k; discriminate E.
      * intros _. exists [], (Table t), (Leaf k n). cbn. repeat split. discriminate.
    + intros t1 IH [k' n' | t0] Pe Pn.
      * intros _. exists [], (Leaf k' n'), (Table t1). cbn. repeat split. discriminate.
      * rewrite merge_tables. pose proof (merge_list_spec t1 t0 (proper_keys _ Pe) (proper_keys _ Pn)) as S.
        intros M. rewrite M in S. destruct S as (k & e & v & A & B & C).
        destruct (IH k v (get_in _ _ _ B) e (proper_get _ _ _ Pe A) (proper_get _ _ _ Pn B) C) as (p & x & y & X & Y & D).
        exists (k :: p), x, y. cbn. rewrite A, B. auto.
  - intros (p & v & w & V & W & D). destruct (merge_value e n) as [m |] eqn:M; [| reflexivity].
    pose proof (merge_path p _ _ _ Pe Pn M) as S. rewrite V, W in S. destruct S as (u & _ & U).
    destruct (merge_shape _ _ _ U) as (S & _). contradiction.
Qed.

(** * [merge_toml] *)
Lemma merge_toml_value a b c : merge_toml a b = Some c <-> merge_value (Table a) (Table b) = Some (Table c).
Proof.
  unfold merge_toml. destruct (merge_value (Table a) (Table b)) as [[k n | t] |] eqn:M; split; try discriminate; try congruence.
Qed.
Lemma merge_toml_none a b : merge_toml a b = None <-> merge_value (Table a) (Table b) = None.
Proof.
  unfold merge_toml. destruct (merge_value (Table a) (Table b)) as [[k n | t] |] eqn:M; split; try discriminate; try congruence.
  destruct (merge_shape _ _ _ M) as (_ & S & _). discriminate S.
Qed.
Lemma merge_setting a b c p : proper (Table a) -> proper (Table b) -> merge_toml a b = Some c ->
  setting c p = match setting b p with Some s => Some s | None => setting a p end.
Proof.
  intros Pa Pb M. apply merge_toml_value in M. pose proof (merge_path p _ _ _ Pa Pb M) as S. unfold setting.
  destruct (at_path p (Table b)) as [w |].
  - destruct (at_path p (Table a)) as [v |].
    + destruct S as (u & -> & MU). destruct (merge_shape _ _ _ MU) as (S1 & S2 & S3).
      destruct w as [k n | t]; [now subst u |]. destruct v as [| t0]; [discriminate S1 |]. destruct u; [discriminate S2 | reflexivity].
    + rewrite S. destruct w; reflexivity.
  - now rewrite S.
Qed.
Lemma merge_toml_proper a b c : proper (Table a) -> proper (Table b) -> merge_toml a b = Some c -> proper (Table c).
Proof. intros Pa Pb M. apply merge_toml_value in M. exact (merge_proper _ _ _ Pa Pb M). Qed.
Lemma merge_clash a b c d : proper (Table a) -> proper (Table b) -> merge_toml a b = Some c ->
  (clash (Table c) d <-> clash (Table a) d \/ clash (Table b) d).
Proof.
  intros Pa Pb M. apply merge_toml_value in M. split.
  - intros (p & v & w & V & W & D). pose proof (merge_path p _ _ _ Pa Pb M) as S.
    destruct (at_path p (Table b)) as [x |] eqn:B.
    + destruct (at_path p (Table a)) as [y |] eqn:A.
      * destruct S as (u & U & MU). rewrite U in V. injection V as ->. destruct (merge_shape _ _ _ MU) as (S1 & S2 & _).
        right. exists p, x, w. repeat split; auto. congruence.
      * rewrite S in V. injection V as ->. right. exists p, v, w. auto.
    + rewrite S in V. left. exists p, v, w. auto.
  - intros [(p & v & w & V & W & D) | (p & v & w & V & W & D)]; pose proof (merge_path p _ _ _ Pa Pb M) as S; rewrite V in S.
    + destruct (at_path p (Table b)) as [x |] eqn:B.
      * destruct S as (u & U & MU). destruct (merge_shape _ _ _ MU) as (S1 & S2 & _). exists p, u, w. repeat split; auto. congruence.
      * exists p, v, w. auto.
    + destruct (at_path p (Table a)) as [y |] eqn:A.
      * destruct S as (u & U & MU). destruct (merge_shape _ _ _ MU) as (S1 & S2 & _). exists p, u, w. repeat split; auto. congruence.
      * exists p, v, w. auto.
Qed.

(** * [get_config] *)
Lemma strongest files g layers crate t p :
  Forall (fun s => proper (Table s)) (sources files g layers crate) ->
  get_config files g layers crate = Ok t ->
  setting t p = first_setting (sources files g layers crate) p.
Proof.
  unfold sources, get_config. intros F.
  destruct (get crate (overrides g)) as [o |]; destruct (get_config_path layers crate) as [path |]; [destruct (files path) as [| | f] | | destruct (files path) as [| | f] |];
    cbn [app] in F; cbn [merged app first_setting fold_right]; intros H; try discriminate H;
    repeat match goal with F : Forall _ (_ :: _) |- _ => apply Forall_cons_iff in F as [? F] end.
  - destruct (merge_toml (defaults g) o) as [c |] eqn:M; [| discriminate H]. injection H as <-.
    assert (E1 : setting c p = match setting o p with Some s => Some s | None => setting (defaults g) p end) by (apply merge_setting; assumption).
    rewrite E1. destruct (setting o p), (setting (defaults g) p); reflexivity.
  - destruct (merge_toml (defaults g) f) as [c |] eqn:M; [| discriminate H]. cbn [merged] in H.
    destruct (merge_toml c o) as [c' |] eqn:M'; [| discriminate H]. injection H as <-.
    assert (Pc : proper (Table c)) by (eapply merge_toml_proper; [| | exact M]; assumption).
    assert (E1 : setting c' p = match setting o p with Some s => Some s | None => setting c p end) by (apply merge_setting; assumption).
    assert (E2 : setting c p = match setting f p with Some s => Some s | None => setting (defaults g) p end) by (apply merge_setting; assumption).
    rewrite E1, E2. destruct (setting o p), (setting f p), (setting (defaults g) p); reflexivity.
  - destruct (merge_toml (defaults g) o) as [c |] eqn:M; [| discriminate H]. injection H as <-.
    assert (E1 : setting c p = match setting o p with Some s => Some s | None => setting (defaults g) p end) by (apply merge_setting; assumption).
    rewrite E1. destruct (setting o p), (setting (defaults g) p); reflexivity.
  - injection H as <-. destruct (setting (defaults g) p); reflexivity.
  - destruct (merge_toml (defaults g) f) as [c |] eqn:M; [| discriminate H]. injection H as <-.
    assert (E1 : setting c p = match setting f p with Some s => Some s | None => setting (defaults g) p end) by (apply merge_setting; assumption).
    rewrite E1. destruct (setting f p), (setting (defaults g) p); reflexivity.
  - injection H as <-. destruct (setting (defaults g) p); reflexivity.
Qed.
Lemma clash_sym a b : clash a b -> clash b a.
Proof. intros (p & v & w & V & W & D). exists p, w, v. auto. Qed.
Lemma clash_self a : ~ clash a a.
Proof. intros (p & v & w & V & W & D). congruence. Qed.
Lemma clash_one a : ~ some_clash [a].
Proof. intros (x & y & [-> | []] & [-> | []] & C). exact (clash_self _ C). Qed.
Lemma clash_two a b : some_clash [a; b] <-> clash (Table b) (Table a).
Proof.
  split.
  - intros (x & y & [-> | [-> | []]] & [-> | [-> | []]] & C); try (now destruct (clash_self _ C)); [exact (clash_sym _ _ C) | exact C].
  - intros C. exists b, a. cbn. auto.
Qed.
Lemma clash_three a b c : some_clash [a; b; c] <-> clash (Table c) (Table b) \/ clash (Table c) (Table a) \/ clash (Table b) (Table a).
Proof.
  split.
  - intros (x & y & [-> | [-> | [-> | []]]] & [-> | [-> | [-> | []]]] & C); try (now destruct (clash_self _ C));
      try (apply clash_sym in C); auto; apply clash_sym in C; auto.
  - intros [C | [C | C]]; [exists c, b | exists c, a | exists b, a]; cbn; auto.
Qed.
Lemma failures files g layers crate :
  Forall (fun s => proper (Table s)) (sources files g layers crate) ->
  (get_config files g layers crate = Err <-> unreadable files layers crate \/ some_clash (sources files g layers crate)).
Proof.
  unfold sources, get_config, unreadable. intros F.
  destruct (get_config_path layers crate) as [path |].
  - assert (G : files path = Garbage <-> exists path', Some path = Some path' /\ files path' = Garbage).
    { split; [eauto |]. intros (q & [= <-] & E). exact E. }
    rewrite <- G. clear G.
    destruct (files path) as [| | f]; destruct (get crate (overrides g)) as [o |]; cbn [app merged] in *;
      repeat match goal with F : Forall _ (_ :: _) |- _ => apply Forall_cons_iff in F as [? F] end.
    + rewrite clash_two. rewrite <- merge_fails by assumption. rewrite <- merge_toml_none.
      destruct (merge_toml (defaults g) o); split; try discriminate; auto. intros [? | ?]; discriminate.
    + split; [discriminate |]. intros [? | C]; [discriminate |]. now apply clash_one in C.
    + split; auto.
    + split; auto.
    + rewrite clash_three. destruct (merge_toml (defaults g) f) as [c |] eqn:M.
      * assert (Pc : proper (Table c)) by (eapply merge_toml_proper; [| | exact M]; assumption).
        assert (MC : clash (Table c) (Table o) <-> clash (Table (defaults g)) (Table o) \/ clash (Table f) (Table o))
          by (apply merge_clash; assumption).
        assert (NC : ~ clash (Table (defaults g)) (Table f)).
        { rewrite <- merge_fails by assumption. rewrite <- merge_toml_none. congruence. }
        rewrite <- merge_fails in MC by assumption. rewrite <- merge_toml_none in MC.
        cbn [merged]. destruct (merge_toml c o) as [c' |]; split; try discriminate; try tauto.
        intros [? | [? | ?]]; [discriminate | contradiction |]. destruct MC as [_ MC]. discriminate (MC H2).
      * apply merge_toml_none in M. apply merge_fails in M; [| assumption ..]. tauto.
    + rewrite clash_two. rewrite <- merge_fails by assumption. rewrite <- merge_toml_none.
      destruct (merge_toml (defaults g) f); split; try discriminate; auto. intros [? | ?]; discriminate.
  - destruct (get crate (overrides g)) as [o |]; cbn [app merged] in *;
      repeat match goal with F : Forall _ (_ :: _) |- _ => apply Forall_cons_iff in F as [? F] end.
    + rewrite clash_two. rewrite <- merge_fails by assumption. rewrite <- merge_toml_none.
      destruct (merge_toml (defaults g) o); split; try discriminate; auto. intros [(? & ? & _) | ?]; discriminate.
    + split; [discriminate |]. intros [(? & ? & _) | C]; [discriminate |]. now apply clash_one in C.
Qed.

(** * Sections of the global file *)
Lemma ignored_section text_of dir raw k v : ~ known k -> (exists s, known s /\ has s raw = true) ->
  from_file text_of dir (raw ++ [(k, v)]) = from_file text_of dir raw.
Proof.
  intros N (s & K & H). unfold known in *.
  assert (G : forall x, known x -> get x (raw ++ [(k, v)]) = get x raw).
  { intros x X. rewrite get_app. cbn. destruct (String.eqb_spec x k) as [-> | D]; [contradiction |]. now destruct (get x raw). }
  unfold from_file, section, has in *. rewrite !G by (unfold known; tauto).
  assert (E : (match get "crate-roots" raw with Some _ => true | None => false end
               || match get "defaults" raw with Some _ => true | None => false end
               || match get "crates" raw with Some _ => true | None => false end) = true).
  { destruct K as [-> | [-> | ->]]; rewrite H; rewrite ?orb_true_r; reflexivity. }
  rewrite E. reflexivity.
Qed.
Lemma sections_read text_of dir d c : (d <> [] \/ c <> []) ->
  from_file text_of dir [("defaults", Table d); ("crates", Table (map (fun '(n, t) => (n, Table t)) c))] = Ok (Global d c, None).
Proof.
  intros _. unfold from_file, section, has. cbn.
  assert (E : as_crates (map (fun '(n, t) => (n, Table t)) c) = Ok c).
  { induction c as [| [n t] c IH]; cbn; [reflexivity |]. now rewrite IH. }
  now rewrite E.
Qed.
Lemma roots_read text_of dir (r : list (string * Z)) :
  r <> [] ->
  from_file text_of dir [("crate-roots", Table (map (fun '(n, z) => (n, Leaf KString z)) r))]
  = Ok (no_global, Some (map (fun '(n, z) => (n, join dir (text_of z))) r)).
Proof.
  intros N. unfold from_file, section, has. cbn.
  assert (E : as_roots text_of (map (fun '(n, z) => (n, Leaf KString z)) r) = Ok (map (fun '(n, z) => (n, text_of z)) r)).
  { clear N. induction r as [| [n z] r IH]; cbn; [reflexivity |]. now rewrite IH. }
  rewrite E. destruct r as [| [n z] r]; [congruence |]. cbn. rewrite map_map. do 4 f_equal. apply map_ext. now intros [? ?].
Qed.

(** * Where crates are *)
Lemma listed_first c r ps crate root : c <> BindgenJni -> get crate r = Some root ->
  get_crate_root (layers_of c (Some r) ps) crate = Some root
  /\ get_config_path (layers_of c (Some r) ps) crate = Some (join root "uniffi.toml")
  /\ forall udl, get_udl_path (layers_of c (Some r) ps) crate udl = Some (join (join root "src") (udl ++ ".udl")%string).
Proof.
  intros N G. destruct c; [| | congruence];
    unfold layers_of, get_crate_root, get_config_path, get_udl_path, find_map, listed_root; cbn [app]; rewrite G; cbn; auto.
Qed.
Lemma unlisted c r ps crate : match r with Some r => get crate r = None | None => True end ->
  get_crate_root (layers_of c r ps) crate = cargo_root ps crate
  /\ get_config_path (layers_of c r ps) crate = option_map (fun root => join root "uniffi.toml") (cargo_root ps crate).
Proof.
  intros G. unfold get_crate_root, get_config_path. destruct r as [r |]; destruct c; cbn; unfold listed_root; rewrite ?G; cbn;
    destruct (cargo_root ps crate); split; reflexivity.
Qed.
Lemma underscore_twice s : underscore (underscore s) = underscore s.
Proof.
  unfold underscore. induction s as [| ch s IH]; [reflexivity |]. rewrite IH. clear IH.
  now destruct (Ascii.eqb_spec ch "-"%char) as [-> | D]; [| destruct (Ascii.eqb_spec ch "-"%char); [contradiction |]].
Qed.
Lemma dashes ps n : cargo_root ps (underscore n) = cargo_root ps n.
Proof. unfold cargo_root, package_named, package_with_library. now rewrite underscore_twice. Qed.
Lemma find_unique {A} (f : A -> bool) l x : In x l -> f x = true -> (forall y, In y l -> f y = true -> y = x) -> find f l = Some x.
Proof.
  intros I F U. destruct (find f l) as [y |] eqn:E.
  - apply find_some in E as [J G]. f_equal. exact (U y J G).
  - pose proof (find_none _ _ E x I). congruence.
Qed.
Lemma own_directory ps p l : told_apart ps -> In p ps -> library_of p = Some l -> cargo_root ps l = Some (p_dir p).
Proof.
  intros (A & B & C) I L. unfold cargo_root. destruct (package_named ps l) as [q |] eqn:Q.
  - apply find_some in Q as [J E]. apply in_rev in J. apply String.eqb_eq in E. now rewrite (C q p l J I L E).
  - unfold package_with_library. rewrite (find_unique _ (rev ps) p); [reflexivity | now apply -> in_rev | rewrite L; apply String.eqb_refl |].
    intros q J E. apply in_rev in J. destruct (library_of q) as [m |] eqn:M; [| discriminate E]. apply String.eqb_eq in E.
    exact (B q p m l J I M L E).
Qed.
Lemma joined dir p : join dir (String "/" p) = String "/" p
  /\ (forall q, dir <> "" -> (forall r, q <> String "/" r) -> join dir q = (dir ++ "/" ++ q)%string)
  /\ (forall q, join "" q = q).
Proof.
  split; [reflexivity |]. unfold join. split.
  - intros q N R. replace (is_absolute q) with false.
    + destruct (String.eqb_spec dir ""); [contradiction | reflexivity].
    + destruct q as [| c q]; [reflexivity |]. cbn. destruct (Ascii.eqb_spec c "/") as [-> | D]; [destruct (R q eq_refl) |].
      destruct c as [[] [] [] [] [] [] [] []]; try reflexivity. destruct D. reflexivity.
  - intros q. now destruct (is_absolute q).
Qed.
