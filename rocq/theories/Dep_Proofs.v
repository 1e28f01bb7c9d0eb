(** Proofs about the crates that are parsed. *)
From Verif Require Import Dep_Spec.

Lemma mem_in n l : mem n l = true <-> In n l.
Proof.
  unfold mem. rewrite existsb_exists. split.
  - intros (x & I & E). apply String.eqb_eq in E as ->. exact I.
  - intros I. exists n. split; [exact I | apply String.eqb_refl].
Qed.
Lemma mem_out n l : mem n l = false <-> ~ In n l.
Proof. rewrite <- mem_in. destruct (mem n l); split; congruence. Qed.

Section Explore.
Context (cs : list crate) (o : options) (source : string).
Notation get_crate' := (get_crate cs).

Lemma get_crate_in n c : get_crate cs n = Some c -> In c cs.
Proof. intros H. apply find_some in H as [H _]. now apply in_rev in H. Qed.

(** * It ends *)
Definition left_over (sn : list string) : nat :=
  list_sum (map (pushed cs) (filter (fun n => negb (mem n sn)) (names_in cs source))).
Definition measure (st : state) : nat := length (todo st) + left_over (seen st).
Definition inside_names (st : state) : Prop := forall n, In n (todo st) -> In n (names_in cs source).

Lemma sum_cons x l : list_sum (x :: l) = x + list_sum l.
Proof. reflexivity. Qed.
Lemma sum_filter_le (f : string -> nat) (p q : string -> bool) l : (forall n, p n = true -> q n = true) ->
  list_sum (map f (filter p l)) <= list_sum (map f (filter q l)).
Proof.
  intros H. induction l as [| x l IH]; [apply le_n |]. cbn [filter].
  destruct (p x) eqn:P; [rewrite (H x P); cbn [map]; rewrite !sum_cons; lia |]. destruct (q x); cbn [map]; rewrite ?sum_cons; lia.
Qed.
Lemma left_over_cons n sn : In n (names_in cs source) -> ~ In n sn -> left_over (n :: sn) + pushed cs n <= left_over sn.
Proof.
  unfold left_over. intros I N. induction (names_in cs source) as [| x l IH]; [destruct I |].
  cbn [filter]. destruct (String.eqb_spec n x) as [<- | D].
  - assert (E : mem n (n :: sn) = true) by (apply mem_in; now left).
    assert (E' : mem n sn = false) by now apply mem_out. rewrite E, E'. cbn [negb map]. rewrite sum_cons.
    enough (list_sum (map (pushed cs) (filter (fun n0 => negb (mem n0 (n :: sn))) l))
            <= list_sum (map (pushed cs) (filter (fun n0 => negb (mem n0 sn)) l))) by lia.
    apply sum_filter_le. intros y. cbn. now destruct (y =? n)%string; [discriminate |].
  - destruct I as [-> | I]; [contradiction |]. specialize (IH I).
    assert (E : mem x (n :: sn) = mem x sn).
    { cbn. destruct (String.eqb_spec x n); [congruence | reflexivity]. }
    rewrite E. destruct (mem x sn); cbn [negb map]; [exact IH |]. rewrite !sum_cons. lia.
Qed.
Lemma visit_measure n rest st : todo st = n :: rest -> inside_names st ->
  measure (visit cs o source n rest st) < measure st /\ inside_names (visit cs o source n rest st).
Proof.
  intros T I. unfold visit, measure, inside_names in *. rewrite T in *. destruct (mem n (seen st)) eqn:M.
  - cbn [todo seen length]. split; [lia |]. intros m J. apply I. now right.
  - apply mem_out in M. assert (L : left_over (n :: seen st) + pushed cs n <= left_over (seen st)) by (apply left_over_cons; [apply I; now left | exact M]).
    unfold pushed in L. destruct (get_crate cs n) as [c |] eqn:G; cbn [todo seen].
    + rewrite app_length, rev_length, map_length. cbn [length]. split; [lia |].
      intros m J. apply in_app_or in J as [J | J]; [| apply I; now right].
      apply in_rev in J. unfold names_in. right. apply in_flat_map. exists c. split; [exact (get_crate_in _ _ G) | exact J].
    + cbn [length]. split; [lia |]. intros m J. apply I. now right.
Qed.
Lemma ends fuel : forall st, inside_names st -> measure st <= fuel -> exists st', explore fuel cs o source st = Some st'.
Proof.
  induction fuel as [| fuel IH]; intros st I M; cbn [explore]; destruct (todo st) as [| n rest] eqn:T; eauto.
  - unfold measure in M. rewrite T in M. cbn in M. lia.
  - destruct (visit_measure n rest st T I) as [L I']. apply IH; [exact I' | lia].
Qed.
Lemma terminates : exists l, get_source_crates (enough cs source) cs o source = Some l.
Proof.
  unfold get_source_crates. destruct (ends (enough cs source) (start source)) as (st & ->); [| | cbn; eauto].
  - intros n [<- | []]. now left.
  - unfold measure, left_over, enough. cbn [start todo seen length].
    enough (list_sum (map (pushed cs) (filter (fun n => negb (mem n [])) (names_in cs source)))
            <= list_sum (map (pushed cs) (names_in cs source))) by lia.
    transitivity (list_sum (map (pushed cs) (filter (fun _ => true) (names_in cs source)))).
    + apply sum_filter_le. reflexivity.
    + apply Nat.eq_le_incl. do 2 f_equal. induction (names_in cs source); cbn; congruence.
Qed.
Lemma more_fuel fuel : forall st st', explore fuel cs o source st = Some st' -> forall k, explore (fuel + k) cs o source st = Some st'.
Proof.
  induction fuel as [| fuel IH]; intros st st' E k; cbn [explore Nat.add] in *.
  - destruct k; cbn [explore]; destruct (todo st); congruence.
  - destruct (todo st); [exact E |]. now apply IH.
Qed.

(** * What is seen *)
Definition at_crate {A} (f : string -> crate -> list A) (n : string) : list A :=
  match get_crate cs n with Some c => f n c | None => [] end.
Record good (st : state) : Prop := {
  g_reach : forall n, In n (seen st) \/ In n (todo st) -> reached cs source n;
  g_source : In source (seen st) \/ In source (todo st);
  g_closed : forall n c d, In n (seen st) -> get_crate cs n = Some c -> In d (c_deps c) ->
             In (dep_name d) (seen st) \/ In (dep_name d) (todo st);
  g_once : NoDup (seen st);
  g_features : feature_map st = flat_map (at_crate (asked_of o source)) (rev (seen st));
  g_defaults : default_feature_map st = flat_map (at_crate defaults_in) (rev (seen st));
  g_enabled : enable_default_features st = flat_map (at_crate (enabled_in o source)) (rev (seen st));
  g_found : found st = flat_map (at_crate (fun _ => found_in)) (rev (seen st)) }.
Lemma good_start : good (start source).
Proof.
  constructor; try reflexivity.
  - intros n [[] | [<- | []]]. constructor.
  - right. now left.
  - intros n c d [].
  - constructor.
Qed.
Lemma flat_snoc {A} (f : string -> list A) l n : flat_map f (rev (n :: l)) = flat_map f (rev l) ++ f n.
Proof. cbn [rev]. rewrite flat_map_app. cbn. now rewrite app_nil_r. Qed.
Lemma good_visit n rest st : todo st = n :: rest -> good st -> good (visit cs o source n rest st).
Proof.
  intros T [R S C N F D E W]. rewrite T in *. unfold visit. destruct (mem n (seen st)) eqn:M.
  - apply mem_in in M. constructor; cbn [todo seen feature_map default_feature_map enable_default_features found]; try assumption.
    + intros m [I | I]; apply R; [now left | right; now right].
    + destruct S as [S | [<- | S]]; auto.
    + intros m c d I G J. destruct (C m c d I G J) as [K | [<- | K]]; auto.
  - apply mem_out in M. destruct (get_crate cs n) as [c |] eqn:G.
    + constructor; cbn [todo seen feature_map default_feature_map enable_default_features found].
      * intros m [[<- | I] | I]; [apply R; right; now left | apply R; now left |].
        apply in_app_or in I as [I | I]; [| apply R; right; now right].
        apply in_rev, in_map_iff in I as (d & <- & J). apply (reached_dep cs source n c d); [apply R; right; now left | exact G | exact J].
      * destruct S as [S | [<- | S]]; [left; now right | left; now left | right; apply in_or_app; now right].
      * intros m e d [<- | I] G' J.
        -- rewrite G in G'. injection G' as <-. right. apply in_or_app. left. apply -> in_rev. now apply in_map.
        -- destruct (C m e d I G' J) as [K | [<- | K]]; [left; now right | left; now left | right; apply in_or_app; now right].
      * now constructor.
      * rewrite flat_snoc, F. unfold at_crate at 3. now rewrite G.
      * rewrite flat_snoc, D. unfold at_crate at 3. now rewrite G.
      * rewrite flat_snoc, E. unfold at_crate at 3. now rewrite G.
      * rewrite flat_snoc, W. unfold at_crate at 3. now rewrite G.
    + constructor; cbn [todo seen feature_map default_feature_map enable_default_features found].
      * intros m [[<- | I] | I]; apply R; [right; now left | now left | right; now right].
      * destruct S as [S | [<- | S]]; [left; now right | left; now left | now right].
      * intros m e d [<- | I] G' J; [congruence |].
        destruct (C m e d I G' J) as [K | [<- | K]]; [left; now right | left; now left | now right].
      * now constructor.
      * rewrite flat_snoc, F. unfold at_crate at 3. now rewrite G, app_nil_r.
      * rewrite flat_snoc, D. unfold at_crate at 3. now rewrite G, app_nil_r.
      * rewrite flat_snoc, E. unfold at_crate at 3. now rewrite G, app_nil_r.
      * rewrite flat_snoc, W. unfold at_crate at 3. now rewrite G, app_nil_r.
Qed.
Lemma good_explore fuel : forall st st', good st -> explore fuel cs o source st = Some st' -> good st' /\ todo st' = [].
Proof.
  induction fuel as [| fuel IH]; intros st st' G E; cbn [explore] in E; destruct (todo st) as [| n rest] eqn:T; try discriminate E.
  - injection E as <-. auto.
  - injection E as <-. auto.
  - exact (IH _ _ (good_visit _ _ _ T G) E).
Qed.
Lemma seen_all fuel st : explore fuel cs o source (start source) = Some st ->
  good st /\ forall n, In n (seen st) <-> reached cs source n.
Proof.
  intros E. destruct (good_explore _ _ _ good_start E) as [G T]. split; [exact G |]. destruct G as [R S C N _ _ _ _].
  rewrite T in *. intros n. split; [intros I; apply R; now left |]. intros H. induction H as [| n c d _ IH G J].
  - destruct S as [S | []]. exact S.
  - destruct (C n c d IH G J) as [K | []]. exact K.
Qed.

(** * What is found *)
Lemma in_at {A} (f : string -> crate -> list A) sn x :
  In x (flat_map (at_crate f) (rev sn)) <-> exists n c, In n sn /\ get_crate cs n = Some c /\ In x (f n c).
Proof.
  rewrite in_flat_map. split.
  - intros (n & I & J). unfold at_crate in J. destruct (get_crate cs n) as [c |] eqn:G; [| destruct J]. exists n, c. rewrite in_rev. auto.
  - intros (n & c & I & G & J). exists n. split; [now apply -> in_rev |]. unfold at_crate. now rewrite G.
Qed.
Lemma library_dec k : (match k with TLib | TRlib | TCdylib | TStaticlib => true | _ => false end) = true <-> library_kind k.
Proof. unfold library_kind. destruct k; split; intros H; try discriminate H; try reflexivity; auto; destruct H as [H | [H | [H | H]]]; discriminate H. Qed.
Lemma find_src_lib_spec c p : find_src_lib c = Some p <-> exists n, library_of c n p.
Proof.
  unfold find_src_lib, library_of. induction (c_targets c) as [| [k [n q]] ts IH]; cbn [find fst].
  - split; [discriminate | intros (n & [| t b] & k & a & D & _); discriminate D].
  - destruct (match k with TLib | TRlib | TCdylib | TStaticlib => true | _ => false end) eqn:K.
    + cbn [option_map snd]. apply library_dec in K. split.
      * intros [= <-]. exists n, [], k, ts. repeat split; auto.
      * intros (n' & [| t b] & k' & a & E & L & B); cbn in E; [now injection E as <- <- <- <- |].
        injection E as <- _. destruct (B k (n, q) (or_introl eq_refl) K).
    + assert (K' : ~ library_kind k) by (rewrite <- library_dec; congruence). rewrite IH. split.
      * intros (n' & b & k' & a & -> & L & B). exists n', ((k, (n, q)) :: b), k', a. repeat split; auto.
        intros k2 t [D | I]; [injection D as <- <-; exact K' | exact (B k2 t I)].
      * intros (n' & [| t b] & k' & a & E & L & B); cbn in E; [injection E as <- <- <- <-; contradiction |].
        injection E as <- ->. exists n', b, k', a. repeat split; auto. intros k2 t I. apply (B k2 t). now right.
Qed.
Lemma found_in_spec c n p : In (n, p) (found_in c) <-> n = c_name c /\ to_parse c p.
Proof.
  unfold found_in, should_parse, to_parse. destruct (existsb _ (c_deps c)) eqn:X.
  - apply existsb_exists in X as (d & I & E). apply String.eqb_eq in E. destruct (c_skip c) eqn:S; cbn [andb negb].
    + split; [intros [] | intros (_ & _ & D & _); discriminate D].
    + pose proof (find_src_lib_spec c) as F. destruct (find_src_lib c) as [q |]; cbn [In].
      * split.
        -- intros [E' | []]. injection E' as <- <-. split; [reflexivity |]. split; [eauto |]. split; [reflexivity | now apply F].
        -- intros (-> & _ & _ & L). apply F in L. injection L as ->. now left.
      * split; [intros [] | intros (_ & _ & _ & L); apply F in L; discriminate L].
  - cbn [andb]. split; [intros [] |]. intros (_ & (d & I & E) & _).
    assert (T : existsb (fun d => String.eqb (dep_name d) "uniffi") (c_deps c) = true)
      by (apply existsb_exists; exists d; split; [exact I | now apply String.eqb_eq]). congruence.
Qed.
Section Result.
Context (fuel : nat) (l : list source_crate) (E : get_source_crates fuel cs o source = Some l).
Lemma result_state : exists st, explore fuel cs o source (start source) = Some st /\ l = finish st.
Proof. unfold get_source_crates in E. destruct (explore fuel cs o source (start source)) as [st |]; [| discriminate E]. injection E as <-. eauto. Qed.
Lemma crates_found name path : (exists fs, In (SourceCrate name path fs) l) <->
  exists n c, reached cs source n /\ get_crate cs n = Some c /\ name = c_name c /\ to_parse c path.
Proof.
  destruct result_state as (st & X & ->). destruct (seen_all _ _ X) as [G S].
  transitivity (In (name, path) (found st)).
  - unfold finish. split.
    + intros (fs & I). apply in_map_iff in I as ([n' p'] & [= <- <- <-] & I). exact I.
    + intros I. eexists. apply in_map_iff. exists (name, path). split; [reflexivity | exact I].
  - rewrite (g_found _ G), in_at. split.
    + intros (n & c & I & C & J). apply found_in_spec in J as [-> P]. exists n, c. rewrite <- S. auto.
    + intros (n & c & I & C & -> & P). exists n, c. rewrite S. repeat split; auto. now apply found_in_spec.
Qed.
Local Notation asked := (Dep_Spec.asked cs o source).
Local Notation defaulted := (Dep_Spec.defaulted cs o source).
Lemma asked_of_spec n c name f : In (name, f) (asked_of o source n c) <->
  (exists d, In d (c_deps c) /\ dep_name d = name /\ In f (dep_features d))
  \/ (n = source /\ name = n /\ f <> "default" /\ In f (map fst (c_features c)) /\ chosen o f).
Proof.
  unfold asked_of. rewrite in_app_iff.
  assert (A : In (name, f) (asked_in c) <-> exists d, In d (c_deps c) /\ dep_name d = name /\ In f (dep_features d)).
  { unfold asked_in. rewrite in_flat_map. split.
    - intros (d & I & J). apply in_map_iff in J as (g & [= <- <-] & K). eauto.
    - intros (d & I & <- & K). exists d. split; [exact I |]. now apply (in_map (fun g => (dep_name d, g))). }
  assert (B : In (name, f) (if String.eqb n source then map (fun f => (n, f)) (selected_in o c) else []) <->
    (n = source /\ name = n /\ f <> "default" /\ In f (map fst (c_features c)) /\ chosen o f)).
  { destruct (String.eqb_spec n source) as [-> | D]; [| split; [intros [] | intros (Q & _); contradiction]].
    rewrite in_map_iff. unfold selected_in, chosen. split.
    - intros (g & [= <- <-] & J). apply filter_In in J as [J K]. apply filter_In in J as [J L].
      repeat split; auto.
      + intros ->. discriminate L.
      + apply orb_prop in K as [K | K]; [now left | right; now apply mem_in].
    - intros (_ & -> & N & J & K). exists f. split; [reflexivity |]. apply filter_In. split.
      + apply filter_In. split; [exact J |]. destruct (String.eqb_spec f "default"); [contradiction | reflexivity].
      + destruct K as [-> | K]; [reflexivity |]. apply mem_in in K. rewrite K. apply orb_true_r. }
  rewrite A, B. reflexivity.
Qed.
Lemma in_features st name f : explore fuel cs o source (start source) = Some st ->
  (In (name, f) (feature_map st) <-> asked name f).
Proof.
  intros X. destruct (seen_all _ _ X) as [G S]. rewrite (g_features _ G), in_at. unfold Dep_Spec.asked. split.
  - intros (n & c & I & C & J). apply S in I. apply asked_of_spec in J as [(d & J & D & F) | (-> & -> & N & K & H)].
    + left. exists n, c, d. auto.
    + right. split; [reflexivity |]. exists c. auto.
  - intros [(n & c & d & I & C & J & D & F) | (-> & c & C & N & K & H)].
    + exists n, c. rewrite S. repeat split; auto. apply asked_of_spec. left. eauto.
    + exists source, c. rewrite S. repeat split; auto; [constructor |]. apply asked_of_spec. right. auto.
Qed.
Lemma in_enabled st name : explore fuel cs o source (start source) = Some st ->
  (In name (enable_default_features st) <-> defaulted name).
Proof.
  intros X. destruct (seen_all _ _ X) as [G S]. rewrite (g_enabled _ G), in_at. unfold Dep_Spec.defaulted, enabled_in. split.
  - intros (n & c & I & C & J). apply S in I. apply in_app_or in J as [J | J].
    + destruct (String.eqb_spec n source) as [-> | D]; [| destruct J]. destruct (no_default_features o) eqn:N; [destruct J |].
      destruct J as [<- | []]. right. eauto.
    + apply in_map_iff in J as (d & D & K). apply filter_In in K as [K L]. left. exists n, c, d. auto.
  - intros [(n & c & d & I & C & J & D & F) | (-> & (c & C) & N)].
    + exists n, c. rewrite S. repeat split; auto. apply in_or_app. right. apply in_map_iff. exists d. split; [exact D |]. now apply filter_In.
    + exists source, c. rewrite S. repeat split; auto; [constructor |]. apply in_or_app. left. rewrite String.eqb_refl, N. now left.
Qed.
Lemma get_flat_at {A} (f : string -> crate -> option A) sn n : NoDup sn ->
  get n (flat_map (at_crate (fun n c => match f n c with Some v => [(n, v)] | None => [] end)) sn)
  = if mem n sn then match get_crate cs n with Some c => f n c | None => None end else None.
Proof.
  induction sn as [| m sn IH]; intros N; [reflexivity |]. apply NoDup_cons_iff in N as [N1 N2]. specialize (IH N2).
  cbn [flat_map mem existsb]. fold (mem n sn). unfold at_crate at 1.
  destruct (String.eqb_spec n m) as [-> | D].
  - cbn [orb]. apply mem_out in N1. rewrite N1 in IH. destruct (get_crate cs m) as [c |]; [| exact IH].
    destruct (f m c); [| exact IH]. cbn. now rewrite String.eqb_refl.
  - cbn [orb]. destruct (get_crate cs m) as [c |]; [| exact IH]. destruct (f m c); [| exact IH]. cbn.
    destruct (String.eqb_spec n m); [contradiction | exact IH].
Qed.
Lemma get_defaults st name : explore fuel cs o source (start source) = Some st ->
  forall fs, get name (default_feature_map st) = Some fs <->
  reached cs source name /\ exists c vs, get_crate cs name = Some c /\ get "default" (c_features c) = Some vs /\ fs = map text vs.
Proof.
  intros X fs. destruct (seen_all _ _ X) as [G S]. rewrite (g_defaults _ G).
  assert (Q : flat_map (at_crate defaults_in) (rev (seen st))
    = flat_map (at_crate (fun n c => match option_map (map text) (get "default" (c_features c)) with Some v => [(n, v)] | None => [] end)) (rev (seen st))).
  { apply flat_map_ext. intros n. unfold at_crate, defaults_in. destruct (get_crate cs n); [| reflexivity]. now destruct (get "default" _). }
  rewrite Q, get_flat_at by (apply NoDup_rev, (g_once _ G)). rewrite <- S, in_rev, <- mem_in. destruct (mem name (rev (seen st))).
  - destruct (get_crate cs name) as [c |].
    + destruct (get "default" (c_features c)) as [vs |] eqn:V; cbn.
      * split; [intros [= <-]; split; [reflexivity |]; exists c, vs; auto | intros (_ & c' & vs' & [= <-] & V' & ->); congruence].
      * split; [discriminate | intros (_ & c' & vs' & [= <-] & V' & _); congruence].
    + split; [discriminate | intros (_ & c' & vs' & D & _); discriminate D].
  - split; [discriminate | intros (D & _); discriminate D].
Qed.
Lemma features_found name path fs : In (SourceCrate name path fs) l -> forall f, In f fs <->
  asked name f
  \/ (defaulted name /\ reached cs source name
      /\ exists c vs v, get_crate cs name = Some c /\ get "default" (c_features c) = Some vs /\ In v vs /\ f = text v).
Proof.
  destruct result_state as (st & X & ->). intros I f. unfold finish in I. apply in_map_iff in I as ([n' p'] & [= -> -> <-] & _).
  unfold features_for. rewrite in_app_iff.
  assert (A : In f (map snd (filter (fun nf => String.eqb name (fst nf)) (feature_map st))) <-> asked name f).
  { rewrite <- (in_features st name f X), in_map_iff. split.
    - intros ([n g] & <- & J). apply filter_In in J as [J K]. cbn in K. apply String.eqb_eq in K as ->. exact J.
    - intros J. exists (name, f). split; [reflexivity |]. apply filter_In. split; [exact J | cbn; apply String.eqb_refl]. }
  rewrite A. apply or_iff_compat_l. rewrite <- (in_enabled st name X), <- (mem_in name).
  destruct (mem name (enable_default_features st)).
  - pose proof (get_defaults st name X) as GD. destruct (get name (default_feature_map st)) as [gs |].
    + destruct (proj1 (GD gs) eq_refl) as (R & c & vs & C & V & ->). split.
      * intros J. apply in_map_iff in J as (v & <- & J). repeat split; auto. exists c, vs, v. auto.
      * intros (_ & _ & c' & vs' & v & C' & V' & J & ->). rewrite C in C'. injection C' as <-. rewrite V in V'. injection V' as <-.
        now apply in_map.
    + split; [intros [] |]. intros (_ & R & c & vs & v & C & V & J & ->). 
      assert (D : None = Some (map text vs)) by (apply GD; split; [exact R | exists c, vs; auto]). discriminate D.
  - split; [intros [] | intros (D & _); discriminate D].
Qed.

(** * Against cargo *)
Scheme linked_ind3 := Minimality for linked Sort Prop
  with used_ind3 := Minimality for used Sort Prop
  with active_ind3 := Minimality for active Sort Prop.
Combined Scheme build_ind from linked_ind3, used_ind3, active_ind3.
Lemma build_reached :
  (forall c, linked cs o source c -> exists n, reached cs source n /\ get_crate cs n = Some c)
  /\ (forall c d, used cs o source c d -> (exists n, reached cs source n /\ get_crate cs n = Some c) /\ In d (c_deps c))
  /\ (forall c f, active cs o source c f -> exists n, reached cs source n /\ get_crate cs n = Some c).
Proof.
  apply build_ind; intros; eauto.
  - exists source. split; [constructor | assumption].
  - destruct H0 as ((n & R & G) & I). exists (dep_name d). split; [exact (reached_dep _ _ _ _ _ R G I) | assumption].
  - exists source. split; [constructor | assumption].
  - exists source. split; [constructor | assumption].
  - destruct H0 as ((n & R & G) & I). exists (dep_name d). split; [exact (reached_dep _ _ _ _ _ R G I) | assumption].
  - destruct H0 as ((n & R & G) & I). exists (dep_name d). split; [exact (reached_dep _ _ _ _ _ R G I) | assumption].
  - destruct H3 as ((n & R & G) & I). exists (dep_name d). split; [exact (reached_dep _ _ _ _ _ R G I) | assumption].
Qed.
Lemma linked_found c path : linked cs o source c -> to_parse c path -> exists fs, In (SourceCrate (c_name c) path fs) l.
Proof.
  intros L P. destruct (proj1 build_reached c L) as (n & R & G). apply crates_found. exists n, c. auto.
Qed.
Lemma reached_linked n c : plain cs -> reached cs source n -> get_crate cs n = Some c -> linked cs o source c.
Proof.
  intros P R. revert c. induction R as [| n b d R IH G J]; intros c C; [now constructor |].
  destruct (P b d (get_crate_in _ _ G) J) as (K & T & O'). apply (linked_dep cs o source b d c); [| exact C].
  apply used_plain; auto.
Qed.
Lemma found_linked name path fs : plain cs -> In (SourceCrate name path fs) l ->
  exists c, linked cs o source c /\ name = c_name c /\ to_parse c path.
Proof.
  intros P I. destruct (proj1 (crates_found name path)) as (n & c & R & G & N & T); [eauto |].
  exists c. split; [exact (reached_linked n c P R G) | auto].
Qed.
Lemma found_sound name path fs f c : plain cs -> exact cs source -> In (SourceCrate name path fs) l -> In f fs ->
  get_crate cs name = Some c -> reached cs source name ->
  active cs o source c f \/ exists v, f = text v /\ turns_on c "default" v /\ (forall g, v <> Feature g).
Proof.
  intros P X I J C R. apply (features_found _ _ _ I) in J as [[(n & b & d & Rn & G & K & D & F) | (-> & b & G & N & K & H)] | (D & _ & b & vs & v & G & V & J & ->)].
  - left. destruct (P b d (get_crate_in _ _ G) K) as (K1 & K2 & K3).
    apply (active_dep cs o source b d c f); [| congruence | exact F]. apply used_plain; auto. exact (reached_linked n b P Rn G).
  - left. apply active_chosen; congruence.
  - rewrite C in G. injection G as <-.
    assert (A : active cs o source c "default").
    { destruct D as [(n & b & d & Rn & G & K & D & F) | (-> & _ & N)]; [| now apply active_default].
      destruct (P b d (get_crate_in _ _ G) K) as (K1 & K2 & K3).
      apply (active_dep_default cs o source b d c); [| congruence | exact F]. apply used_plain; auto. exact (reached_linked n b P Rn G). }
    destruct v as [g | g | g h w].
    + left. apply (active_feature cs o source c "default" g A). exists vs. auto.
    + right. exists (OnDep g). repeat split; [exists vs; auto | discriminate].
    + right. exists (DepFeature g h w). repeat split; [exists vs; auto | discriminate].
Qed.
Lemma active_listed : exact cs source -> flat cs o ->
  forall c f, active cs o source c f -> (f = "default" /\ defaulted (c_name c))
    \/ (f <> "default" /\ (asked (c_name c) f
        \/ (defaulted (c_name c) /\ exists vs v, get "default" (c_features c) = Some vs /\ In v vs /\ f = text v))).
Proof.
  intros X (F1 & F2 & F3) c f A. induction A as [c f G H K | c G N | c d e f U G I | c d e U G I | c f g A IH T | c f d e g w A IH T U G].
  - assert (E' : c_name c = source) by (apply X; [constructor | exact G]).
    destruct (string_dec f "default") as [-> | D].
    + left. split; [reflexivity |]. destruct F3 as [N | N]; [| contradiction]. right. rewrite E'. eauto.
    + right. split; [exact D |]. left. right. rewrite E'. split; [reflexivity |]. exists c. auto.
  - assert (E' : c_name c = source) by (apply X; [constructor | exact G]). left. split; [reflexivity |]. right. rewrite E'. eauto.
  - destruct (proj1 (proj2 build_reached) c d U) as ((n & R & C) & J).
    assert (E' : c_name e = dep_name d) by (apply X; [exact (reached_dep _ _ _ _ _ R C J) | exact G]).
    right. split.
    + intros ->. exact (F2 c d (get_crate_in _ _ C) J I).
    + left. left. exists n, c, d. rewrite E'. auto.
  - destruct (proj1 (proj2 build_reached) c d U) as ((n & R & C) & J).
    assert (E' : c_name e = dep_name d) by (apply X; [exact (reached_dep _ _ _ _ _ R C J) | exact G]).
    left. split; [reflexivity |]. left. exists n, c, d. rewrite E'. auto.
  - destruct (proj2 (proj2 build_reached) c f A) as (n & R & C).
    destruct (F1 c f _ (get_crate_in _ _ C) T) as (-> & g' & [= <-] & D).
    right. split; [exact D |]. right. destruct IH as [(_ & IH) | (Q & _)]; [| contradiction].
    split; [exact IH |]. destruct T as (vs & V & I). exists vs, (Feature g). auto.
  - destruct (proj2 (proj2 build_reached) c f A) as (n & R & C).
    destruct (F1 c f _ (get_crate_in _ _ C) T) as (_ & g' & D & _). discriminate D.
Qed.
Lemma found_exact name path fs c : plain cs -> exact cs source -> flat cs o -> In (SourceCrate name path fs) l ->
  get_crate cs name = Some c -> reached cs source name ->
  forall f, f <> "default" -> (In f fs <-> active cs o source c f).
Proof.
  intros P X F I C R f D. split.
  - intros J. destruct (found_sound _ _ _ _ _ P X I J C R) as [A | (v & -> & T & N)]; [exact A |].
    destruct F as (F1 & _). destruct (F1 c _ v (get_crate_in _ _ C) T) as (_ & g & Q & _). destruct (N g Q).
  - intros A. apply (features_found _ _ _ I).
    assert (E' : c_name c = name) by (apply X; assumption).
    destruct (active_listed X F c f A) as [(Q & _) | (_ & [H | (H & vs & v & V & J & ->)])]; [contradiction | left; congruence |].
    right. rewrite E' in H. repeat split; auto. exists c, vs, v. auto.
Qed.
Lemma found_once : exact cs source -> NoDup (map s_name l).
Proof.
  intros X. destruct result_state as (st & Y & ->). destruct (seen_all _ _ Y) as [G S].
  unfold finish. rewrite map_map. rewrite (map_ext _ fst) by now intros [? ?].
  rewrite (g_found _ G).
  assert (N : NoDup (rev (seen st))) by (apply NoDup_rev, (g_once _ G)).
  assert (H : forall n, In n (rev (seen st)) -> reached cs source n) by (intros n I; apply S; now apply in_rev).
  induction (rev (seen st)) as [| n sn IH]; [constructor |]. apply NoDup_cons_iff in N as [N1 N2].
  cbn [flat_map]. rewrite map_app.
  assert (IH' := IH N2 (fun m I => H m (or_intror I))).
  unfold at_crate at 1. destruct (get_crate cs n) as [c |] eqn:C; [| exact IH'].
  unfold found_in. destruct (should_parse c); [| exact IH']. destruct (find_src_lib c); [| exact IH'].
  cbn [map fst app]. constructor; [| exact IH'].
  rewrite (X n c (H n (or_introl eq_refl)) C). intros J. apply in_map_iff in J as ([n' p'] & E1 & J). cbn in E1. subst n'.
  apply in_flat_map in J as (m & J & K). unfold at_crate in K. destruct (get_crate cs m) as [c' |] eqn:C'; [| destruct K].
  apply found_in_spec in K as [K _]. rewrite (X m c' (H m (or_intror J)) C') in K. subst m. contradiction.
Qed.
End Result.
End Explore.
