(** Proofs about conditional compilation (C57). *)
From Verif Require Import Base Meta_Types Cfg_Types Cfg_Spec Cfg_Model Cfg_Claims.

Lemma eqb_refl_ : forall s : str, bytes_eqb s s = true.
Proof. intro s. destruct (bytes_eqb_spec s s); congruence. Qed.
Lemma eqb_eq : forall a b : str, bytes_eqb a b = true <-> a = b.
Proof. intros a b. destruct (bytes_eqb_spec a b); split; congruence. Qed.
Lemma eqb_sym_ : forall a b : str, bytes_eqb a b = bytes_eqb b a.
Proof. intros a b. destruct (bytes_eqb_spec a b), (bytes_eqb_spec b a); congruence. Qed.
Lemma bool_eq : forall (a b : bool) (P : Prop), (a = true <-> P) -> (b = true <-> P) -> a = b.
Proof. intros [|] [|] P A B; intuition congruence. Qed.

Lemma is_known_in : forall n, is_known n = true <-> In n known.
Proof.
  intro n. unfold is_known. rewrite existsb_exists. split.
  - intros [x [I E]]. apply eqb_eq in E. subst. exact I.
  - intro I. exists n. split; [exact I | apply eqb_refl_].
Qed.

(** The seven known options, one by one. *)
Lemma told_in : forall e k v, told e k v -> In k known.
Proof.
  intros e k v T. unfold known. cbn [map In].
  destruct T as [[K _] | [[K _] | [[K _] | [[K _] | [[K _] | [[K _] | [K _]]]]]]]; rewrite K; intuition.
Qed.
Lemma other_name : forall (a b : str) (P Q : Prop), bytes_eqb a b = false -> (a = b /\ P) -> Q.
Proof. intros a b P Q F [E _]. subst. rewrite eqb_refl_ in F. discriminate. Qed.
Lemma told_of : forall e v,
  (told e (S_ "feature") v <-> In v (e_features e)) /\
  (told e (S_ "target_arch") v <-> v = e_arch e) /\
  (told e (S_ "target_os") v <-> v = e_os e) /\
  (told e (S_ "target_env") v <-> v = e_env e) /\
  (told e (S_ "target_vendor") v <-> v = e_vendor e) /\
  (told e (S_ "target_endian") v <->
    ((e_little e = Some true /\ v = S_ "little") \/ (e_little e = Some false /\ v = S_ "big"))) /\
  (told e (S_ "target_pointer_width") v <-> e_width e = Some v).
Proof.
  intros e v. unfold told.
  refine (conj _ (conj _ (conj _ (conj _ (conj _ (conj _ _))))));
  (split;
    [ intro T; destruct T as [T | [T | [T | [T | [T | [T | T]]]]]];
      match type of T with
      | S_ ?a = S_ ?a /\ _ => exact (proj2 T)
      | S_ ?a = S_ ?b /\ ?P => exact (other_name (S_ a) (S_ b) P _ eq_refl T)
      end
    | intro T ]).
  - left. auto.
  - right. left. auto.
  - do 2 right. left. auto.
  - do 3 right. left. auto.
  - do 4 right. left. auto.
  - do 5 right. left. auto.
  - do 6 right. auto.
Qed.

Lemma in_features : forall v l, existsb (bytes_eqb v) l = true <-> In v l.
Proof.
  intros v l. rewrite existsb_exists. split.
  - intros [x [I E]]. apply eqb_eq in E. subst. exact I.
  - intro I. exists v. split; [exact I | apply eqb_refl_].
Qed.

(** Options with a value, all seven. *)
Lemma check_val : forall e n v, check e (MVal n (Vstr v)) =
  if bytes_eqb n (S_ "all") then None else if bytes_eqb n (S_ "any") then None
  else if bytes_eqb n (S_ "not") then None
  else if bytes_eqb n (S_ "feature") then Some (existsb (bytes_eqb v) (e_features e))
  else if bytes_eqb n (S_ "target_arch") then Some (bytes_eqb (e_arch e) v)
  else if bytes_eqb n (S_ "target_os") then Some (bytes_eqb (e_os e) v)
  else if bytes_eqb n (S_ "target_env") then Some (bytes_eqb (e_env e) v)
  else if bytes_eqb n (S_ "target_vendor") then Some (bytes_eqb (e_vendor e) v)
  else if bytes_eqb n (S_ "target_endian") then
    Some (match e_little e with
        | Some false => bytes_eqb v (S_ "big")
        | Some true => bytes_eqb v (S_ "little")
        | None => false
        end)
  else if bytes_eqb n (S_ "target_pointer_width") then
    match e_width e with Some w => Some (bytes_eqb w v) | None => Some false end
  else Some false.
Proof. reflexivity. Qed.
Lemma if_true : forall A (b : bool) (x y : A), b = true -> (if b then x else y) = x.
Proof. intros A b x y ->. reflexivity. Qed.
Lemma if_false : forall A (b : bool) (x y : A), b = false -> (if b then x else y) = y.
Proof. intros A b x y ->. reflexivity. Qed.
Lemma check_known : forall e c n v, agrees e c -> is_known n = true ->
  check e (MVal n (Vstr v)) = Some (set_in c n (Some v)).
Proof.
  intros e c n v A K. apply is_known_in in K. pose proof (A n v K) as T. clear A.
  destruct (told_of e v) as [T1 [T2 [T3 [T4 [T5 [T6 T7]]]]]].
  rewrite check_val.
  unfold known in K. cbn [map In] in K.
  destruct K as [K | [K | [K | [K | [K | [K | [K | []]]]]]]]; subst n;
    repeat (rewrite (if_false _ (bytes_eqb _ _)) by (vm_compute; reflexivity));
    rewrite (if_true _ (bytes_eqb _ _)) by (vm_compute; reflexivity).
  - f_equal. eapply bool_eq; [| exact T]. rewrite T1. apply in_features.
  - f_equal. eapply bool_eq; [| exact T]. rewrite T2, eqb_eq. split; congruence.
  - f_equal. eapply bool_eq; [| exact T]. rewrite T3, eqb_eq. split; congruence.
  - f_equal. eapply bool_eq; [| exact T]. rewrite T4, eqb_eq. split; congruence.
  - f_equal. eapply bool_eq; [| exact T]. rewrite T5, eqb_eq. split; congruence.
  - f_equal. eapply bool_eq; [| exact T]. rewrite T6.
    destruct (e_little e) as [[|] |]; rewrite ?eqb_eq; intuition congruence.
  - destruct (e_width e) as [w |].
    + f_equal. eapply bool_eq; [| exact T]. rewrite T7, eqb_eq. split; congruence.
    + f_equal. symmetry. destruct (set_in c (S_ "target_pointer_width") (Some v)); [| reflexivity].
      destruct T as [T _]. specialize (T eq_refl). apply T7 in T. discriminate.
Qed.
Lemma known_cases : forall n, is_known n = false ->
  bytes_eqb n (S_ "feature") = false /\ bytes_eqb n (S_ "target_arch") = false /\
  bytes_eqb n (S_ "target_os") = false /\ bytes_eqb n (S_ "target_env") = false /\
  bytes_eqb n (S_ "target_vendor") = false /\ bytes_eqb n (S_ "target_endian") = false /\
  bytes_eqb n (S_ "target_pointer_width") = false.
Proof.
  intros n K. unfold is_known, known in K. cbn [map existsb] in K.
  repeat (apply orb_false_iff in K; destruct K as [? K]). tauto.
Qed.
Lemma check_other : forall e n m, mname m = n -> is_known n = false ->
  bytes_eqb n (S_ "all") = false -> bytes_eqb n (S_ "any") = false -> bytes_eqb n (S_ "not") = false ->
  check e m = Some false.
Proof.
  intros e n m N K A B C. destruct (known_cases n K) as [K1 [K2 [K3 [K4 [K5 [K6 K7]]]]]].
  destruct m; cbn [mname] in N; subst; cbn [check mname]; rewrite A, B, C, K1, K2, K3, K4, K5, K6, K7; reflexivity.
Qed.

Lemma predicate_proof : predicate_statement.
Proof.
  intros e c p A. induction p as [n | n v | n l IH] using meta_ind'; intro P.
  - cbn [plain] in P. repeat (apply andb_true_iff in P; destruct P as [P ?]).
    repeat match goal with H : negb _ = true |- _ => apply negb_true_iff in H end.
    rewrite (check_other e n); auto; congruence.
  - cbn [plain] in P. destruct v as [v |]; [| discriminate].
    apply orb_true_iff in P. destruct P as [K | P].
    + cbn [holds]. apply check_known; assumption.
    + destruct (is_known n) eqn:K; [cbn [holds]; apply check_known; assumption |].
      repeat (apply andb_true_iff in P; destruct P as [P ?]).
      repeat match goal with H : negb _ = true |- _ => apply negb_true_iff in H end.
      rewrite (check_other e n); auto; congruence.
  - cbn [plain] in P. cbn [check holds mname].
    destruct (bytes_eqb n (S_ "all")).
    + induction l as [| x l IHl]; [reflexivity |].
      inversion IH as [| ? ? X L]. subst. cbn [forallb] in P. apply andb_true_iff in P. destruct P as [P Q].
      rewrite (X P). cbn [forallb]. destruct (holds c x); cbn [andb]; [apply IHl; assumption | reflexivity].
    + destruct (bytes_eqb n (S_ "any")).
      * induction l as [| x l IHl]; [reflexivity |].
        inversion IH as [| ? ? X L]. subst. cbn [forallb] in P. apply andb_true_iff in P. destruct P as [P Q].
        rewrite (X P). cbn [existsb]. destruct (holds c x); cbn [orb]; [reflexivity | apply IHl; assumption].
      * destruct (bytes_eqb n (S_ "not")); [| discriminate].
        destruct l as [| x [| y l]]; try discriminate.
        inversion IH as [| ? ? X L]. subst. rewrite (X P). reflexivity.
Qed.

(** *** Attributes *)
Lemma conditional_not : forall m, conditional m = false ->
  bytes_eqb (mname m) (S_ "cfg") = false /\ bytes_eqb (mname m) (S_ "cfg_attr") = false.
Proof. intros m C. unfold conditional in C. apply orb_false_iff in C. exact C. Qed.
Lemma expand_plain : forall c m, conditional m = false -> expand c m = [m].
Proof.
  intros c m C. destruct (conditional_not m C) as [_ B]. destruct m; try reflexivity.
  cbn [mname] in B. cbn [expand]. rewrite B. reflexivity.
Qed.
Lemma expand_free : forall c a, free a = true -> expand_all c a = a.
Proof.
  intros c a. induction a as [| m a IH]; intro F; [reflexivity |].
  unfold free in F. cbn [forallb] in F. apply andb_true_iff in F. destruct F as [F G].
  unfold expand_all. cbn [flat_map]. rewrite expand_plain by (apply negb_true_iff; exact F).
  cbn [app]. f_equal. apply IH. exact G.
Qed.
Lemma cfg_of_plain : forall m, conditional m = false -> cfg_of m = None.
Proof.
  intros m C. destruct (conditional_not m C) as [A _]. destruct m; try reflexivity.
  cbn [mname] in A. cbn [cfg_of]. rewrite A. reflexivity.
Qed.
Lemma plain_list : forall r, forallb (fun m => negb (conditional m)) r = true ->
  forallb (fun m => match cfg_of m with Some _ => false | None => true end) r = true.
Proof.
  intros r. induction r as [| m r IH]; intro F; [reflexivity |]. cbn [forallb] in *.
  apply andb_true_iff in F. destruct F as [F G]. rewrite cfg_of_plain by (apply negb_true_iff; exact F).
  cbn [andb]. auto.
Qed.
Lemma filter_all : forall A (f : A -> bool) l, forallb f l = true -> filter f l = l.
Proof.
  intros A f l. induction l as [| x l IH]; intro F; [reflexivity |]. cbn [forallb filter] in *.
  apply andb_true_iff in F. destruct F as [F G]. rewrite F. f_equal. auto.
Qed.
Lemma present_free : forall c a, free a = true -> present c a = true.
Proof.
  intros c a F. unfold present. rewrite expand_free by exact F. unfold free in F. revert F.
  induction a as [| m a IH]; intro F; [reflexivity |]. cbn [forallb] in *.
  apply andb_true_iff in F. destruct F as [F G]. unfold passes. rewrite cfg_of_plain by (apply negb_true_iff; exact F).
  cbn [andb]. auto.
Qed.
Lemma left_free : forall c a, free a = true -> left_over c a = a.
Proof.
  intros c a F. unfold left_over. rewrite expand_free by exact F. apply filter_all. apply plain_list. exact F.
Qed.
Lemma parse_free : forall e a, free a = true -> parse_attrs e a = Some (Some a).
Proof.
  intros e a. induction a as [| m a IH]; intro F; [reflexivity |]. unfold free in F. cbn [forallb] in F.
  apply andb_true_iff in F. destruct F as [F G]. apply negb_true_iff in F.
  destruct (conditional_not m F) as [A B]. cbn [parse_attrs]. rewrite A, B, IH by exact G. reflexivity.
Qed.
Lemma expand_all_app : forall c a b, expand_all c (a ++ b) = expand_all c a ++ expand_all c b.
Proof. intros. unfold expand_all. apply flat_map_app. Qed.
Lemma filter_app_ : forall A (f : A -> bool) l m, filter f (l ++ m) = filter f l ++ filter f m.
Proof. intros A f l m. induction l; [reflexivity |]. cbn. destruct (f a); cbn; congruence. Qed.
Lemma present_cons : forall c m a, present c (m :: a) = (forallb (passes c) (expand c m) && present c a)%bool.
Proof. intros. unfold present. change (expand_all c (m :: a)) with (expand c m ++ expand_all c a). apply forallb_app. Qed.
Lemma left_cons : forall c m a, left_over c (m :: a) =
  filter (fun m => match cfg_of m with Some _ => false | None => true end) (expand c m) ++ left_over c a.
Proof. intros. unfold left_over. change (expand_all c (m :: a)) with (expand c m ++ expand_all c a). apply filter_app_. Qed.

Lemma attributes_proof : attributes_statement.
Proof.
  intros e c a A. induction a as [| m a IH]; intro T; [reflexivity |].
  unfold tame in T. cbn [forallb] in T. apply andb_true_iff in T. destruct T as [T U]. specialize (IH U).
  rewrite present_cons, left_cons.
  destruct (conditional m) eqn:C.
  - destruct m as [n | n v | n l].
    + cbn [tame_meta] in T. rewrite C in T. discriminate.
    + cbn [tame_meta] in T. rewrite C in T. discriminate.
    + cbn [tame_meta] in T. cbn [parse_attrs mname]. destruct (bytes_eqb n (S_ "cfg")) eqn:N.
      * destruct l as [| p [| q l]]; try discriminate. rewrite (predicate_proof e c p A T).
        apply eqb_eq in N. subst n.
        assert (X : expand c (MList (S_ "cfg") [p]) = [MList (S_ "cfg") [p]]) by reflexivity.
        rewrite X. cbn [forallb]. unfold passes.
        assert (Y : cfg_of (MList (S_ "cfg") [p]) = Some [p]) by reflexivity. rewrite Y.
        cbn [filter]. rewrite Y. cbn [app]. destruct (holds c p); cbn [andb]; [exact IH | reflexivity].
      * destruct (bytes_eqb n (S_ "cfg_attr")) eqn:M;
          [| unfold conditional in C; cbn [mname] in C; rewrite N, M in C; discriminate].
        destruct l as [| p r]; try discriminate. apply andb_true_iff in T. destruct T as [T R].
        rewrite (predicate_proof e c p A T). cbn [expand]. rewrite M.
        destruct (holds c p).
        -- change (flat_map (expand c) r) with (expand_all c r). rewrite expand_free by exact R.
           assert (P : forallb (passes c) r = true).
           { pose proof (present_free c r R) as P. unfold present in P. rewrite expand_free in P by exact R. exact P. }
           rewrite P. rewrite (filter_all _ _ r) by (apply plain_list; exact R). rewrite IH.
           cbn [andb]. destruct (present c a); reflexivity.
        -- cbn [forallb filter app andb]. exact IH.
  - rewrite expand_plain by exact C. destruct (conditional_not m C) as [N M].
    assert (E : parse_attrs e (m :: a) =
      match parse_attrs e a with Some (Some ms) => Some (Some (m :: ms)) | o => o end).
    { cbn [parse_attrs]. rewrite N, M. reflexivity. }
    rewrite E, IH. cbn [forallb filter]. unfold passes. rewrite cfg_of_plain by exact C. cbn [andb app].
    destruct (present c a); reflexivity.
Qed.
Lemma tame_left_free : forall c a, tame c a = true -> free (left_over c a) = true.
Proof.
  intros c a. induction a as [| m a IH]; intro T; [reflexivity |].
  unfold tame in T. cbn [forallb] in T. apply andb_true_iff in T. destruct T as [T U]. specialize (IH U).
  rewrite left_cons. unfold free. rewrite forallb_app. apply andb_true_iff. split; [| exact IH].
  destruct (conditional m) eqn:C.
  - destruct m as [n | n v | n l]; cbn [tame_meta] in T; try (rewrite C in T; discriminate).
    destruct (bytes_eqb n (S_ "cfg")) eqn:N.
    + apply eqb_eq in N. subst n.
      change (expand c (MList (S_ "cfg") l)) with [MList (S_ "cfg") l]. cbn [filter].
      change (cfg_of (MList (S_ "cfg") l)) with (Some l). reflexivity.
    + destruct (bytes_eqb n (S_ "cfg_attr")) eqn:M;
        [| unfold conditional in C; cbn [mname] in C; rewrite N, M in C; discriminate].
      destruct l as [| p r]; try discriminate. apply andb_true_iff in T. destruct T as [T R].
      cbn [expand]. rewrite M. destruct (holds c p); [| reflexivity].
      change (flat_map (expand c) r) with (expand_all c r). rewrite expand_free by exact R.
      rewrite (filter_all _ _ r) by (apply plain_list; exact R). exact R.
  - rewrite expand_plain by exact C. cbn [filter]. rewrite cfg_of_plain by exact C. cbn [forallb].
    rewrite C. reflexivity.
Qed.

Lemma settles_proof : settles_statement.
Proof.
  assert (X : forall c m, proper_meta m = true ->
    forallb (fun m => negb (conditional m))
      (filter (fun m => match cfg_of m with Some _ => false | None => true end) (expand c m)) = true).
  { intros c m. induction m as [n | n v | n l IH] using meta_ind'; intro P.
    - cbn [proper_meta] in P. apply negb_true_iff in P. rewrite expand_plain by exact P. cbn [filter].
      rewrite cfg_of_plain by exact P. cbn [forallb]. rewrite P. reflexivity.
    - cbn [proper_meta] in P. apply negb_true_iff in P. rewrite expand_plain by exact P. cbn [filter].
      rewrite cfg_of_plain by exact P. cbn [forallb]. rewrite P. reflexivity.
    - cbn [proper_meta] in P. cbn [expand]. destruct (bytes_eqb n (S_ "cfg_attr")) eqn:M.
      + destruct l as [| p r]; try discriminate. destruct (holds c p); [| reflexivity].
        inversion IH as [| ? ? _ R]. subst. clear IH. induction r as [| x r IHr]; [reflexivity |].
        inversion R as [| ? ? Y L]. subst. cbn [forallb] in P. apply andb_true_iff in P. destruct P as [P Q].
        cbn [flat_map]. rewrite filter_app_, forallb_app. apply andb_true_iff. split; [exact (Y P) | exact (IHr Q L)].
      + cbn [filter cfg_of]. destruct (bytes_eqb n (S_ "cfg")) eqn:N; [reflexivity |].
        cbn [forallb]. unfold conditional. cbn [mname]. rewrite N, M. reflexivity. }
  intros c a. induction a as [| m a IH]; intro P; [reflexivity |].
  unfold proper in P. cbn [forallb] in P. apply andb_true_iff in P. destruct P as [P Q].
  rewrite left_cons. unfold free. rewrite forallb_app. apply andb_true_iff. split; [exact (X c m P) | exact (IH Q)].
Qed.

(** *** Lists of parts *)
Lemma collect_settle : forall A B (attrs : A -> list meta) (keep : A -> A) (f : A -> option (option B)) c l,
  (forall x, In x l -> present c (attrs x) = false -> f x = Some None) ->
  (forall x, In x l -> present c (attrs x) = true -> f (keep x) = f x) ->
  collect f (settle attrs keep c l) = collect f l.
Proof.
  intros A B attrs keep f c l. induction l as [| x l IH]; intros N K; [reflexivity |].
  unfold settle. cbn [filter collect]. destruct (present c (attrs x)) eqn:P.
  - cbn [map collect]. rewrite K by (try left; auto). destruct (f x) as [[y |] |]; [| | reflexivity].
    + fold (settle attrs keep c l). rewrite IH; [reflexivity | |]; intros; [apply N | apply K]; try right; assumption.
    + apply IH; intros; [apply N | apply K]; try right; assumption.
  - rewrite (N x) by (try left; auto). apply IH; intros; [apply N | apply K]; try right; assumption.
Qed.
Section Same.
Variables (e : env) (c : conf).
Hypothesis A : agrees e c.
Lemma attrs_absent : forall a, tame c a = true -> present c a = false -> parse_attrs e a = Some None.
Proof. intros a T P. rewrite (attributes_proof e c a A T), P. reflexivity. Qed.
Lemma attrs_present : forall a, tame c a = true -> present c a = true -> parse_attrs e a = Some (Some (left_over c a)).
Proof. intros a T P. rewrite (attributes_proof e c a A T), P. reflexivity. Qed.
Lemma attrs_left : forall a, tame c a = true -> parse_attrs e (left_over c a) = Some (Some (left_over c a)).
Proof. intros a T. apply parse_free. apply tame_left_free. exact T. Qed.
Lemma forallb_in : forall X (f : X -> bool) l x, forallb f l = true -> In x l -> f x = true.
Proof. intros X f l x F I. rewrite forallb_forall in F. auto. Qed.

Lemma parts_same : forall l, tame_parts c l = true -> parse_parts e (settle_parts c l) = parse_parts e l.
Proof.
  intros l T. apply collect_settle; intros x I P; pose proof (forallb_in _ _ _ _ T I) as U; cbn beta in U;
    unfold parse_part; cbn [p_attrs p_name].
  - rewrite attrs_absent by assumption. reflexivity.
  - rewrite attrs_left, attrs_present by assumption. reflexivity.
Qed.
Lemma variants_same : forall l, tame_variants c l = true ->
  collect (parse_variant e) (settle_variants c l) = collect (parse_variant e) l.
Proof.
  intros l T. apply collect_settle; intros x I P; pose proof (forallb_in _ _ _ _ T I) as U; cbn beta in U;
    apply andb_true_iff in U; destruct U as [U V]; unfold parse_variant; cbn [v_attrs v_name v_fields].
  - rewrite attrs_absent by assumption. reflexivity.
  - rewrite attrs_left, attrs_present, parts_same by assumption. reflexivity.
Qed.
Lemma parts_free : forall l, free_parts l = true -> settle_parts c l = l.
Proof.
  intros l. induction l as [| x l IH]; intro F; [reflexivity |]. unfold free_parts in F. cbn [forallb] in F.
  apply andb_true_iff in F. destruct F as [F G]. unfold settle_parts, settle. cbn [filter].
  rewrite present_free by exact F. cbn [map]. rewrite left_free by exact F.
  change (Part (p_attrs x) (p_name x) :: settle_parts c l = x :: l). rewrite IH by exact G. destruct x; reflexivity.
Qed.
Lemma methods_same : forall l, tame_funcs c l = true ->
  collect (parse_method e) (settle_funcs c l) = collect (parse_method e) l.
Proof.
  intros l T. apply collect_settle; intros x I P; pose proof (forallb_in _ _ _ _ T I) as U; cbn beta in U;
    apply andb_true_iff in U; destruct U as [U V]; unfold parse_method; cbn [f_attrs f_name f_args].
  - rewrite attrs_absent by assumption. reflexivity.
  - rewrite attrs_left, attrs_present by assumption. unfold take_func. cbn [f_name f_args].
    rewrite parts_free by assumption. reflexivity.
Qed.
Lemma members_same : forall l, tame_funcs c l = true ->
  collect (parse_member e) (settle_funcs c l) = collect (parse_member e) l.
Proof.
  intros l T. apply collect_settle; intros x I P; pose proof (forallb_in _ _ _ _ T I) as U; cbn beta in U;
    apply andb_true_iff in U; destruct U as [U V]; unfold parse_member; cbn [f_attrs f_name f_args].
  - rewrite attrs_absent by assumption. reflexivity.
  - rewrite attrs_left, attrs_present by assumption. unfold take_func. cbn [f_name f_args].
    rewrite parts_free by assumption. reflexivity.
Qed.

Lemma docs_same : forall a, tame c a = true -> present c a = true -> forallb no_doc_inside a = true ->
  filter is_doc (left_over c a) = filter is_doc a.
Proof.
  intros a. induction a as [| m a IH]; intros T P D; [reflexivity |].
  unfold tame in T. cbn [forallb] in T, D. apply andb_true_iff in T. destruct T as [T U].
  apply andb_true_iff in D. destruct D as [D F]. rewrite present_cons in P. apply andb_true_iff in P. destruct P as [P Q].
  rewrite left_cons, filter_app_, IH by assumption. clear IH.
  change (m :: a) with ([m] ++ a). rewrite filter_app_. f_equal.
  destruct (conditional m) eqn:C.
  - destruct m as [n | n v | n l]; cbn [tame_meta] in T; try (rewrite C in T; discriminate).
    destruct (bytes_eqb n (S_ "cfg")) eqn:N.
    + apply eqb_eq in N. subst n. reflexivity.
    + destruct (bytes_eqb n (S_ "cfg_attr")) eqn:M;
        [| unfold conditional in C; cbn [mname] in C; rewrite N, M in C; discriminate].
      destruct l as [| p r]; try discriminate. apply andb_true_iff in T. destruct T as [T R].
      cbn [no_doc_inside] in D. rewrite M in D. cbn [expand]. rewrite M.
      apply eqb_eq in M. subst n. change (filter is_doc [MList (S_ "cfg_attr") (p :: r)]) with (@nil meta).
      destruct (holds c p); [| reflexivity].
      change (flat_map (expand c) r) with (expand_all c r). rewrite expand_free by exact R.
      rewrite (filter_all _ _ r) by (apply plain_list; exact R). clear - D. induction r as [| x r IHr]; [reflexivity |].
      cbn [forallb filter] in *. apply andb_true_iff in D. destruct D as [D E]. apply negb_true_iff in D.
      unfold is_doc at 1. rewrite D. auto.
  - rewrite expand_plain by exact C. cbn [filter]. rewrite cfg_of_plain by exact C. reflexivity.
Qed.

(** *** Declarations *)
Fixpoint all_tame (l : list decl) : bool :=
  match l with [] => true | x :: l => (tame_decl c x && all_tame l)%bool end.
Lemma all_tame_eq : forall l, forallb (tame_decl c) l = all_tame l.
Proof. induction l as [| x l IH]; [reflexivity |]. cbn. rewrite IH. reflexivity. Qed.
Fixpoint all_names (l : list decl) : bool :=
  match l with [] => true | x :: l => (tame_names c x && all_names l)%bool end.
Lemma all_names_eq : forall l, forallb (tame_names c) l = all_names l.
Proof. induction l as [| x l IH]; [reflexivity |]. cbn. rewrite IH. reflexivity. Qed.
Lemma emitted_app : forall a b, emitted_all (a ++ b) = emitted_all a ++ emitted_all b.
Proof. induction a as [| x a IH]; intro b; [reflexivity |]. cbn [app emitted_all]. rewrite IH. apply app_assoc. Qed.
Lemma read_mod : forall a i n ds, read e (DMod a i n ds) =
  match parse_attrs e a with
  | None => None
  | Some None => Some []
  | Some (Some _) =>
      match read_all e ds with
      | Some xs => Some [XMod (filter is_doc (match i with Some i => i | None => a end)) n xs]
      | None => None
      end
  end.
Proof.
  intros a i n ds. cbn [read]. destruct (parse_attrs e a) as [[ms |] |]; try reflexivity.
  match goal with |- match ?x with _ => _ end = _ => assert (E : x = read_all e ds) end; [| rewrite E; reflexivity].
  induction ds as [| x l IH]; [reflexivity |]. cbn [read_all]. rewrite IH. reflexivity.
Qed.
Lemma settled_mod : forall a i n ds, settled c (DMod a i n ds) =
  DMod (left_over c a) (match i with Some i => Some (left_over c i) | None => None end) n (compiled c ds).
Proof.
  intros a i n ds. cbn [settled]. f_equal.
  induction ds as [| x l IH]; [reflexivity |]. cbn [compiled]. rewrite IH. reflexivity.
Qed.
Lemma emitted_mod : forall d n xs, emitted (XMod d n xs) = [XMod d n (emitted_all xs)].
Proof. reflexivity. Qed.
Lemma reach_cat : forall o p o' p', reach o = reach o' -> reach p = reach p' ->
  reach (match o with Some xs => match p with Some ys => Some (xs ++ ys) | None => None end | None => None end) =
  reach (match o' with Some xs => match p' with Some ys => Some (xs ++ ys) | None => None end | None => None end).
Proof.
  intros [o |] [p |] [o' |] [p' |] H K; cbn [reach] in *; try discriminate; try reflexivity.
  injection H as H. injection K as K. rewrite !emitted_app, H, K. reflexivity.
Qed.

(** One declaration that is not a module. *)
Lemma same_one : forall d, match d with DMod _ _ _ _ => False | _ => True end -> tame_decl c d = true ->
  reach (read e d) = reach (read_all e (if there c d then [settled c d] else [])) /\
  (tame_names c d = true -> read e d = read_all e (if there c d then [settled c d] else [])).
Proof.
  intros d NM T.
  assert (ONE : forall x, read_all e [x] = read e x).
  { intro x. cbn [read_all]. destruct (read e x) as [xs |]; [rewrite app_nil_r |]; reflexivity. }
  destruct d as [f | a n fs | a n vs | a n fs | a cb n fs | | a n | a n | a m n]; try contradiction;
    unfold there; cbn [attrs_of]; rewrite ?andb_true_r; cbn [tame_decl] in T.
  - apply andb_true_iff in T. destruct T as [T F].
    assert (E : read e (DFn f) = read_all e (if present c (f_attrs f) then [settled c (DFn f)] else [])).
    { destruct (present c (f_attrs f)) eqn:P.
      - rewrite ONE. cbn [settled read f_attrs]. rewrite attrs_present, attrs_left by assumption.
        unfold take_func. cbn [f_name f_args]. rewrite parts_free by exact F. reflexivity.
      - cbn [read]. rewrite attrs_absent by assumption. reflexivity. }
    rewrite <- E. auto.
  - apply andb_true_iff in T. destruct T as [T F]. destruct (present c a) eqn:P.
    + rewrite ONE. cbn [settled read]. rewrite attrs_present, attrs_left, parts_same by assumption. auto.
    + cbn [read tame_names]. rewrite attrs_absent by assumption. split; [reflexivity | congruence].
  - apply andb_true_iff in T. destruct T as [T F]. destruct (present c a) eqn:P.
    + rewrite ONE. cbn [settled read]. rewrite attrs_present, attrs_left, variants_same by assumption. auto.
    + cbn [read tame_names]. rewrite attrs_absent by assumption. split; [reflexivity | congruence].
  - apply andb_true_iff in T. destruct T as [T F]. destruct (present c a) eqn:P.
    + rewrite ONE. cbn [settled read]. rewrite attrs_present, attrs_left, methods_same by assumption. auto.
    + cbn [read]. rewrite attrs_absent by assumption. auto.
  - apply andb_true_iff in T. destruct T as [T C]. apply andb_true_iff in T. destruct T as [T F].
    destruct (present c a) eqn:P.
    + rewrite ONE. cbn [settled read]. rewrite attrs_present, attrs_left, members_same by assumption. auto.
    + rewrite orb_false_r in C. apply negb_true_iff in C. subst cb.
      cbn [read]. rewrite attrs_absent by assumption. auto.
  - split.
    + destruct (present c a); reflexivity.
    + cbn [tame_names]. intro F. rewrite present_free by exact F. reflexivity.
  - split.
    + destruct (present c a); reflexivity.
    + cbn [tame_names]. intro F. rewrite present_free by exact F. reflexivity.
  - destruct m.
    + rewrite present_free by exact T. auto.
    + rewrite present_free by exact T. auto.
    + destruct (present c a); auto.
Qed.

Lemma same_decl : forall d, tame_decl c d = true ->
  reach (read e d) = reach (read_all e (if there c d then [settled c d] else [])) /\
  (tame_names c d = true -> read e d = read_all e (if there c d then [settled c d] else [])).
Proof.
  intro d. induction d as [a i n ds IH | d NM] using decl_ind'; [| apply same_one; exact NM].
  intro T. cbn [tame_decl] in T. change ((tame c a && match i with Some i0 => free i0 | None => forallb no_doc_inside a end
    && all_tame ds)%bool = true) in T.
  apply andb_true_iff in T. destruct T as [T L]. apply andb_true_iff in T. destruct T as [T I].
  assert (R : all_tame ds = true -> reach (read_all e ds) = reach (read_all e (compiled c ds)) /\
              (all_names ds = true -> read_all e ds = read_all e (compiled c ds))).
  { clear - IH. induction ds as [| x l IHl]; intro L; [auto |].
    inversion IH as [| ? ? X Y]. subst. cbn [all_tame] in L. apply andb_true_iff in L. destruct L as [L M].
    destruct (X L) as [X1 X2]. destruct (IHl Y M) as [Y1 Y2]. clear IHl IH X Y. cbn [compiled]. split.
    - destruct (there c x).
      + cbn [read_all] in *. apply reach_cat; [| exact Y1].
        destruct (read e (settled c x)); cbn [reach] in *; rewrite ?app_nil_r in X1; exact X1.
      + cbn [read_all reach emitted_all] in *. rewrite <- Y1.
        destruct (read e x) as [xs |]; cbn [reach] in *; [| discriminate]. injection X1 as X1.
        destruct (read_all e l); cbn [reach]; [| reflexivity]. rewrite emitted_app, X1. reflexivity.
    - cbn [all_names]. intro N. apply andb_true_iff in N. destruct N as [N O]. specialize (X2 N). specialize (Y2 O).
      destruct (there c x).
      + cbn [read_all] in *. rewrite X2, Y2.
        destruct (read e (settled c x)); [rewrite app_nil_r |]; reflexivity.
      + cbn [read_all] in *. rewrite X2, Y2. destruct (read_all e (compiled c l)); reflexivity. }
  destruct (R L) as [R1 R2]. clear R IH.
  assert (TH : there c (DMod a i n ds) = present c a).
  { unfold there. cbn [attrs_of]. destruct i as [i |]; [rewrite (present_free c i I) |]; apply andb_true_r. }
  rewrite TH. rewrite !read_mod. destruct (present c a) eqn:P.
  - rewrite settled_mod. cbn [read_all]. rewrite read_mod. rewrite attrs_present, attrs_left by assumption.
    assert (D : filter is_doc (match match i with Some i0 => Some (left_over c i0) | None => None end with
                  Some i0 => i0 | None => left_over c a end) =
                filter is_doc (match i with Some i0 => i0 | None => a end)).
    { destruct i as [i |]; [rewrite left_free by exact I; reflexivity | apply docs_same; assumption]. }
    rewrite D. split.
    + destruct (read_all e ds), (read_all e (compiled c ds)); cbn [reach] in R1; try discriminate; [| reflexivity].
      injection R1 as R1. cbn [reach app emitted_all]. rewrite !emitted_mod, R1. reflexivity.
    + intro N. rewrite R2 by exact N. destruct (read_all e (compiled c ds)); reflexivity.
  - rewrite attrs_absent by assumption. auto.
Qed.

Lemma same_all : forall ds, forallb (tame_decl c) ds = true ->
  reach (read_all e ds) = reach (read_all e (compiled c ds)) /\
  (forallb (tame_names c) ds = true -> read_all e ds = read_all e (compiled c ds)).
Proof.
  intros ds T. pose proof (same_decl (DMod [] (Some []) [] ds)) as S.
  rewrite all_tame_eq in T. assert (U : tame_decl c (DMod [] (Some []) [] ds) = true) by exact T.
  destruct (S U) as [S1 S2]. clear S U.
  assert (E : (if there c (DMod [] (Some []) [] ds) then [settled c (DMod [] (Some []) [] ds)] else [])
    = [DMod [] (Some []) [] (compiled c ds)]) by (rewrite settled_mod; reflexivity).
  rewrite E in *. clear E.
  cbn [read_all] in *. rewrite !read_mod in *. cbn [parse_attrs filter] in *. split.
  - destruct (read_all e ds), (read_all e (compiled c ds)); cbn [reach app emitted_all] in S1; try discriminate; auto.
    cbn [reach]. rewrite !emitted_mod in S1. injection S1 as S1. congruence.
  - intro N. rewrite all_names_eq in N. specialize (S2 N).
    destruct (read_all e ds), (read_all e (compiled c ds)); cbn [app] in S2; try discriminate; auto.
    injection S2 as S2. congruence.
Qed.
End Same.

Lemma same_bindings_proof : same_bindings_statement.
Proof. intros e c ds A T. exact (proj1 (same_all e c A ds T)). Qed.
Lemma same_names_proof : same_names_statement.
Proof. intros e c ds A T N. exact (proj2 (same_all e c A ds T) N). Qed.

(** A compiler's options for an environment, with any others. *)
Definition options (e : env) : conf :=
  map (fun f => (S_ "feature", Some f)) (e_features e) ++
  [ (S_ "target_arch", Some (e_arch e)); (S_ "target_os", Some (e_os e)); (S_ "target_env", Some (e_env e));
    (S_ "target_vendor", Some (e_vendor e)) ] ++
  match e_little e with
  | Some b => [(S_ "target_endian", Some (if b then S_ "little" else S_ "big"))] | None => [] end ++
  match e_width e with Some w => [(S_ "target_pointer_width", Some w)] | None => [] end.
Lemma set_in_iff : forall c k v, set_in c k v = true <-> In (k, v) c.
Proof.
  intros c k v. unfold set_in. rewrite existsb_exists. split.
  - intros [[k' v'] [I E]]. cbn [fst snd] in E. apply andb_true_iff in E. destruct E as [E F].
    apply eqb_eq in E. subst k'. destruct v as [v |], v' as [v' |]; cbn in F; try discriminate; [apply eqb_eq in F; subst |]; exact I.
  - intro I. exists (k, v). split; [exact I |]. cbn [fst snd]. rewrite eqb_refl_. destruct v; cbn; [apply eqb_refl_ | reflexivity].
Qed.
Lemma agrees_options : forall e o, (forall k v, In (k, v) o -> is_known k = false) -> agrees e (options e ++ o).
Proof.
  intros e o H k v K. rewrite set_in_iff, in_app_iff. split.
  - intros [I | I]; [| apply H in I; apply is_known_in in K; congruence].
    unfold options in I. rewrite !in_app_iff in I. unfold told.
    destruct I as [I | [I | [I | I]]].
    + apply in_map_iff in I. destruct I as [f [E I]]. injection E as <- <-. tauto.
    + cbn [In] in I. destruct I as [I | [I | [I | [I | []]]]]; injection I as <- <-; tauto.
    + destruct (e_little e) as [[|] |]; cbn [In] in I; [| | contradiction]; destruct I as [I | []]; injection I as <- <-; tauto.
    + destruct (e_width e); cbn [In] in I; [| contradiction]. destruct I as [I | []]. injection I as <- <-. tauto.
  - intro T. left. unfold options. rewrite !in_app_iff. unfold told in T.
    destruct T as [[-> T] | [[-> ->] | [[-> ->] | [[-> ->] | [[-> ->] | [[-> T] | [-> T]]]]]]].
    + left. apply in_map_iff. eauto.
    + right. left. cbn [In]. tauto.
    + right. left. cbn [In]. tauto.
    + right. left. cbn [In]. tauto.
    + right. left. cbn [In]. tauto.
    + right. right. left. destruct T as [[-> ->] | [-> ->]]; left; reflexivity.
    + do 3 right. rewrite T. left. reflexivity.
Qed.
