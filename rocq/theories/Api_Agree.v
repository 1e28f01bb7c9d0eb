(** The pipeline's tree is true to the items, its types are translated, and it is what the component
    interface holds. *)
From Verif Require Import Base Meta_Types Meta_Eq Group_Model Api_Types Api_Spec Api_Model Api_Accept Api_Iface Api_Said Api_Pipe Api_Tree Api_Claims.
From Verif Require Import Univ_Model Univ_Spec Univ_Proofs.
From Coq Require Import Permutation Sorted.
From Verif Require Names_Model.

Lemma pipeline_parts gs r : pipeline gs = Ok r -> exists st nodes,
  inv (stream gs) st /\ map_all (place st) (c_entries st) = Ok nodes /\
  r = map (fun s => Namespace (fst s) (snd s) (Api (functions_in (fst s) (concat nodes)) (types_in (fst s) (concat nodes)))) (c_spaces st).
Proof.
  unfold pipeline. intros H. apply bind_ok in H. destruct H as (st & A & H). unfold try_into_initial_ir in H.
  apply bind_ok in H. destruct H as (nodes & N & H). injection H as <-. exists st, nodes.
  split; [exact (converter_inv gs st A) | auto].
Qed.

Lemma pipeline_spaces gs r : grouped gs -> pipeline gs = Ok r -> Permutation (map space_shown r) (map space_of gs).
Proof.
  intros GR H. destruct (pipeline_parts gs r H) as (st & nodes & I & _ & ->). rewrite map_map. cbn [space_shown n_crate n_name].
  apply NoDup_Permutation.
  - pose proof (i_spaces _ _ I) as N. apply NoDup_map_on; [exact (NoDup_map_inv _ _ N)|].
    intros [a b] [c d] _ _ E. unfold space_shown in E. cbn [n_crate n_name fst snd] in E. injection E as -> ->. reflexivity.
  - apply (NoDup_map_inv fst). rewrite map_map. exact (proj1 GR).
  - intros [c n]. rewrite !in_map_iff. split.
    + intros ([n' c'] & E & J). cbn in E. injection E as -> ->. apply (i_space _ _ I) in J.
      apply (namespace_in_stream gs GR) in J. destruct J as (g & J & <- & <-). exists g. auto.
    + intros (g & E & J). injection E as <- <-. exists (g_namespace g, g_crate g). split; [reflexivity|].
      apply (i_space _ _ I). apply (namespace_in_stream gs GR). eauto.
Qed.

Lemma pipeline_says gs r g n : grouped gs -> (forall g, In g gs -> no_dash (g_crate g)) ->
  (forall g, In g gs -> owned (g_items g)) -> (forall g, In g gs -> types_differ (g_items g)) ->
  (forall g, In g gs -> numbered (g_items g)) -> pipeline gs = Ok r ->
  In g gs -> In n r -> n_crate n = g_crate g -> says (g_items g) (api_map fst (n_api n)).
Proof.
  intros GR ND OW TD NU H J K C. destruct (pipeline_parts gs r H) as (st & nodes & I & N & ->).
  apply in_map_iff in K. destruct K as ([ns c] & <- & K). cbn [n_crate n_api fst snd] in *. subst c.
  apply (i_space _ _ I) in K. apply (namespace_in_stream gs GR) in K. destruct K as (g' & J' & C & <-).
  rewrite (same_group gs GR g' g J' J C). exact (tree_says gs st GR ND I OW TD NU g nodes J N).
Qed.

(** ** Types *)

Lemma types_written m : types_of_node m = written m.
Proof. reflexivity. Qed.

Lemma find_orig_in mp n l o : find_orig mp n l = Some o -> In ((mp, n), o) l.
Proof.
  induction l as [|[[a b] c] l IH]; cbn [find_orig]; [discriminate|].
  destruct (bytes_eqb_spec a mp) as [-> | ]; cbn [andb]; [|right; auto].
  destruct (bytes_eqb_spec b n) as [-> | ]; cbn [andb]; [|right; auto].
  intros E. injection E as ->. left. reflexivity.
Qed.
Lemma find_orig_none mp n l o : find_orig mp n l = None -> ~ In ((mp, n), o) l.
Proof.
  induction l as [|[[a b] c] l IH]; cbn [find_orig]; [intros _ []|].
  intros H [E | J].
  - injection E as -> -> ->. rewrite !beq_refl in H. discriminate.
  - destruct (_ && _); [discriminate | exact (IH H J)].
Qed.

Section Types.
  Variables (gs : list group) (st : converter).
  Hypothesis GR : grouped gs.
  Hypothesis I : inv (stream gs) st.
  Hypothesis TD : forall g, In g gs -> types_differ (g_items g).
  Hypothesis FD : forall g, In g gs -> functions_differ (g_items g).

  Lemma in_stream_all m : is_namespace m = false -> (In m (stream gs) <-> In m (all_items gs)).
  Proof. exact (in_stream gs m). Qed.

  Lemma module_path_def d mp n : defined_at d = Some (mp, n) -> module_path d = Ok mp.
  Proof. destruct d; cbn; try discriminate; intros E; injection E as <- <-; reflexivity. Qed.

  Lemma orig_true mp n m : In m (all_items gs) -> defined_at m = Some (mp, n) -> name_in_rust m = Some (orig_name st mp n).
  Proof.
    intros K D. destruct (proj1 (in_flat_map _ _ _) K) as (g & J & G).
    assert (MP := module_path_def m mp n D).
    assert (C := of_group_crate g m mp (group_of gs GR g J) G MP).
    assert (NN : is_namespace m = false) by (destruct m; try reflexivity; discriminate).
    unfold orig_name. destruct (find_orig mp n (c_origs st)) as [o|] eqn:F.
    - apply find_orig_in in F. apply (i_origs _ _ I) in F. destruct F as (m' & S & R).
      assert (NN' : is_namespace m' = false) by (destruct m'; try reflexivity; discriminate).
      apply (in_stream_all m' NN') in S.
      assert (M' : module_path m' = Ok mp).
      { destruct m' as [ | |f|ob| |rc|e| | | | | | ]; cbn [renamed] in R; try discriminate;
          [destruct (f_orig f) | destruct (o_orig ob) | destruct (r_orig rc) | destruct (e_orig e)]; try discriminate;
          injection R as <- <- <-; reflexivity. }
      assert (G' := item_group gs GR g m' mp J S M' C).
      destruct m' as [ | |f|ob| |rc|e| | | | | | ]; cbn [renamed] in R; try discriminate.
      + destruct (f_orig f) as [o'|]; [|discriminate]. injection R as <- <- <-. exfalso. exact (FD g J f m G' G D).
      + destruct (o_orig ob) as [o'|] eqn:O; [|discriminate]. injection R as <- <- <-.
        destruct (TD g J (MObject ob) m G' G) as [<- | (q1 & q2 & q3 & q4 & q5 & Q & _)]; [discriminate | | | discriminate].
        * unfold defines. rewrite D. reflexivity.
        * cbn [name_in_rust]. rewrite O. reflexivity.
      + destruct (r_orig rc) as [o'|] eqn:O; [|discriminate]. injection R as <- <- <-.
        destruct (TD g J (MRecord rc) m G' G) as [<- | (q1 & q2 & q3 & q4 & q5 & Q & _)]; [discriminate | | | discriminate].
        * unfold defines. rewrite D. reflexivity.
        * cbn [name_in_rust]. rewrite O. reflexivity.
      + destruct (e_orig e) as [o'|] eqn:O; [|discriminate]. injection R as <- <- <-.
        destruct (TD g J (MEnum e) m G' G) as [<- | (q1 & q2 & q3 & q4 & q5 & Q & _)]; [discriminate | | | discriminate].
        * unfold defines. rewrite D. reflexivity.
        * cbn [name_in_rust]. rewrite O. reflexivity.
    - assert (X : forall o, renamed m <> Some ((mp, n), o)).
      { intros o R. apply (find_orig_none _ _ _ o F). apply (i_origs _ _ I). exists m. split; [|exact R].
        apply (in_stream_all m NN). exact K. }
      destruct m as [ | | |ob|mp' n' doc|rc|e| | | |mp' n' b doc| | ]; cbn [defined_at] in D; try discriminate; injection D as <- <-;
        cbn [name_in_rust renamed] in *; try reflexivity.
      + destruct (o_orig ob) as [o|]; [exfalso; exact (X o eq_refl) | reflexivity].
      + destruct (r_orig rc) as [o|]; [exfalso; exact (X o eq_refl) | reflexivity].
      + destruct (e_orig e) as [o|]; [exfalso; exact (X o eq_refl) | reflexivity].
  Qed.

  Lemma named_true mp n ns : no_dash (crate_of mp) -> namespace_of st mp = Ok ns -> named gs mp n ns (orig_name st mp n).
  Proof.
    intros ND H. split.
    - unfold namespace_of in H. destruct (find_str _ (c_paths st)) as [x|] eqn:F; [|discriminate]. injection H as ->.
      change (path_crate mp) with (crate_of mp) in F. rewrite (no_dash_same _ ND) in F.
      apply find_str_in in F. apply (i_paths _ _ I) in F. apply (namespace_in_stream gs GR) in F.
      destruct F as (g & J & C & N). eauto.
    - intros m K D. exact (orig_true mp n m K D).
  Qed.

  Lemma map_type_true t : forall i, (forall c, In c (crates_in t) -> no_dash c) -> map_type st t = Ok i -> translates gs t i.
  Proof.
    induction t; intros i ND H; cbn [map_type] in H; cbn [crates_in] in ND;
      try (injection H as <-; constructor; reflexivity).
    all: try (apply bind_ok in H; destruct H as (ns & A & H)).
    all: try (injection H as <-; constructor; apply named_true; [apply ND; left; reflexivity | exact A]).
    all: try (injection H as <-; constructor; apply IHt; assumption).
    - apply bind_ok in H; destruct H as (j & B & H). injection H as <-. constructor; [apply IHt1 | apply IHt2]; auto;
        intros c X; apply ND; apply in_or_app; auto.
    - apply bind_ok in H; destruct H as (j & B & H). injection H as <-. constructor.
      + apply named_true; [apply ND; left; reflexivity | exact A].
      + apply IHt; [intros c X; apply ND; right; exact X | exact B].
  Qed.

  Definition fine (m : metadata) : Prop := forall t c, In t (written m) -> In c (crates_in t) -> no_dash c.
  Definition typed (s : shown) : Prop := Forall2 (translates gs) (written (fst s)) (snd s).

  Lemma map_node_typed m s : fine m -> map_node st m = Ok s -> typed s.
  Proof.
    intros F H. unfold map_node in H. apply bind_ok in H. destruct H as (ts & A & H). injection H as <-.
    unfold typed. cbn [fst snd]. rewrite types_written in A. apply map_all_forall in A. unfold fine in F.
    induction A as [|t i l l' E A IH]; [constructor|]. constructor.
    - apply map_type_true; [|exact E]. intros c X. exact (F t c (or_introl eq_refl) X).
    - apply IH. intros t' c X Y. exact (F t' c (or_intror X) Y).
  Qed.
  Lemma map_nodes_typed l r : (forall m, In m l -> fine m) -> map_all (map_node st) l = Ok r -> Forall typed r.
  Proof.
    intros F H. apply map_all_forall in H. induction H as [|m s l r E H IH]; [constructor|]. constructor.
    - exact (map_node_typed m s (F m (or_introl eq_refl)) E).
    - apply IH. intros x X. apply F. right. exact X.
  Qed.

  Hypothesis FINE : forall m, In m (all_items gs) -> fine m.

  Lemma entry_in k m : In (k, m) (c_entries st) -> In m (all_items gs).
  Proof. intros J. exact (proj1 (entry_all gs st I k m J)). Qed.
  Lemma entries_fine p m : In m (entries_where p st) -> fine m.
  Proof.
    unfold entries_where. intros J. apply in_map_iff in J. destruct J as ([k x] & <- & J). apply filter_In in J.
    exact (FINE _ (entry_in k x (proj1 J))).
  Qed.

  Lemma methods_typed mp n r : methods_for_type st mp n = Ok r -> Forall typed r.
  Proof.
    unfold methods_for_type. intros H.
    match type of H with match ?l with _ => _ end = _ => destruct l as [|m0 l0] eqn:E end.
    - apply (map_nodes_typed _ _) in H; [exact H|]. intros m J. apply (Permutation_in _ (sort_perm _)) in J. exact (entries_fine _ m J).
    - match type of H with match ?l with _ => _ end = _ => destruct l as [|m1 l1] end; [|discriminate].
      apply (map_nodes_typed _ _) in H; [exact H|]. intros m J. rewrite <- E in J. exact (entries_fine _ m J).
  Qed.

  Lemma place_typed e x : In (snd e) (all_items gs) -> place st e = Ok x ->
    Forall (fun y => match snd y with NFunction s => typed s | NType v => view_all typed v end) x.
  Proof.
    intros J H. destruct e as [k m]. cbn [snd] in J.
    assert (PUT : forall c (r : res node), bind (namespace_of st c) (fun ns => bind r (fun x => Ok [(ns, x)])) = Ok x ->
              (forall y, r = Ok y -> match y with NFunction s => typed s | NType v => view_all typed v end) ->
              Forall (fun y => match snd y with NFunction s => typed s | NType v => view_all typed v end) x).
    { intros c r P Q. apply bind_ok in P. destruct P as (ns & _ & P). apply bind_ok in P. destruct P as (y & R & P).
      injection P as <-. constructor; [|constructor]. exact (Q y R). }
    assert (NODE := fun s => map_node_typed m s (FINE m J)).
    assert (CS : forall p r, map_all (map_node st) (entries_where p st) = Ok r -> Forall typed r).
    { intros p r X. apply (map_nodes_typed _ _ (entries_fine p) X). }
    assert (DATA : forall mp n v, map_data st mp n m = Ok v -> view_all typed v).
    { intros mp n v X. unfold map_data in X. apply bind_ok in X. destruct X as (cs & HC & X). apply bind_ok in X. destruct X as (ms & HM & X).
      apply bind_ok in X. destruct X as (ts & HT & X). apply bind_ok in X. destruct X as (s & HS & X). injection X as <-.
      refine (conj (NODE s HS) (conj (CS _ _ HC) (conj (methods_typed _ _ _ HM) (conj (CS _ _ HT) _)))). constructor. }
    destruct m; cbn [place snd] in H; try (injection H as <-; constructor);
      apply (PUT _ _ H); intros y Y; apply bind_ok in Y; destruct Y as (v & V & Y); injection Y as <-.
    - exact (NODE v V).
    - unfold map_interface in V. apply bind_ok in V. destruct V as (cs & HC & V). apply bind_ok in V. destruct V as (ms & HM & V).
      apply bind_ok in V. destruct V as (ts & HT & V). apply bind_ok in V. destruct V as (is & HI & V).
      apply bind_ok in V. destruct V as (s & HS & V). injection V as <-.
      refine (conj (NODE s HS) (conj (CS _ _ HC) (conj (methods_typed _ _ _ HM) (conj (CS _ _ HT) (CS _ _ HI))))).
    - unfold map_callback_interface in V. apply bind_ok in V. destruct V as (ms & HM & V).
      apply bind_ok in V. destruct V as (s & HS & V). injection V as <-.
      refine (conj (NODE s HS) (conj _ (conj (methods_typed _ _ _ HM) (conj _ _)))); constructor.
    - exact (DATA _ _ _ V).
    - exact (DATA _ _ _ V).
    - unfold map_custom_type in V. apply bind_ok in V. destruct V as (s & HS & V). injection V as <-.
      refine (conj (NODE s HS) (conj _ (conj _ (conj _ _)))); constructor.
  Qed.

  Lemma tree_typed ns nodes : map_all (place st) (c_entries st) = Ok nodes ->
    well_typed gs (Api (functions_in ns (concat nodes)) (types_in ns (concat nodes))).
  Proof.
    intros H. apply map_all_forall in H.
    assert (A : Forall (fun y => match snd y with NFunction s => typed s | NType v => view_all typed v end) (concat nodes)).
    { assert (SUB := fun e (X : In e (c_entries st)) => X).
      assert (X : forall l nodes, Forall2 (fun e x => place st e = Ok x) l nodes -> (forall e, In e l -> In e (c_entries st)) ->
                  Forall (fun y => match snd y with NFunction s => typed s | NType v => view_all typed v end) (concat nodes)).
      { clear H SUB. intros l nd F. induction F as [|[k m] x l nd P F IH]; intros SUB; [constructor|]. cbn [concat].
        apply Forall_app. split; [|exact (IH (fun e X => SUB e (or_intror X)))].
        apply (place_typed (k, m) x); [|exact P]. exact (entry_in k m (SUB _ (or_introl eq_refl))). }
      exact (X _ _ H SUB). }
    unfold well_typed, api_all. cbn [a_functions a_types]. unfold functions_in, types_in. rewrite Forall_forall in A.
    split; apply Forall_forall; intros y J; apply in_flat_map in J; destruct J as ([ns' [s | v]] & K & J); try (destruct J; fail);
      (destruct (bytes_eqb ns' ns); [|destruct J]); destruct J as [<- | []]; exact (A _ K).
  Qed.
End Types.

Lemma pipeline_typed gs r n : grouped gs -> no_dashes gs -> (forall g, In g gs -> types_differ (g_items g)) ->
  (forall g, In g gs -> functions_differ (g_items g)) -> pipeline gs = Ok r -> In n r -> well_typed gs (n_api n).
Proof.
  intros GR [_ ND] TD FD H K. destruct (pipeline_parts gs r H) as (st & nodes & I & N & ->).
  apply in_map_iff in K. destruct K as ([ns c] & <- & K). cbn [n_api fst snd].
  apply (tree_typed gs st GR I TD FD); [|exact N]. intros m J t c' X Y. exact (ND m t c' J X Y).
Qed.

(** ** What the component interface accepts *)

Lemma interface_ok items a : interface items = Ok a -> exists i, add_metadata items = Ok i.
Proof. unfold interface. intros H. apply bind_ok in H. destruct H as (i & H & _). eauto. Qed.

Lemma accepted_types_differ g i : of_group g -> plain_constructors (g_items g) -> objects_differ (g_items g) ->
  add_metadata (g_items g) = Ok i -> types_differ (g_items g).
Proof.
  intros G PC OD H d d' J J' D E.
  assert (D' : defines d' <> None) by congruence.
  assert (N : def_name d = def_name d').
  { rewrite (defines_group g d G J D), (defines_group g d' G J' D') in E. congruence. }
  destruct (defs_differ g i d d' G PC OD H J J' D D' N) as [-> | [C C']]; [left; reflexivity|]. right.
  destruct d as [ | | | | | | | | | |mp n b doc| | ]; try discriminate. destruct d' as [ | | | | | | | | | |mp' n' b' doc'| | ]; try discriminate.
  cbn [def_name] in N. subst n'. destruct (customs_agree _ _ _ _ _ _ _ _ _ H J J') as [-> ->].
  exists mp, n, b, doc, doc'. auto.
Qed.

Lemma accepted_functions_differ g i : plain_constructors (g_items g) -> add_metadata (g_items g) = Ok i ->
  functions_differ (g_items g).
Proof.
  intros PC H f d J K E. apply (function_not_def _ _ _ d PC H J K).
  - unfold defines. rewrite E. discriminate.
  - destruct d; cbn in E; try discriminate; injection E as _ E; rewrite <- E; reflexivity.
Qed.

Lemma both_agree gs r : grouped gs -> no_dashes gs ->
  (forall g, In g gs -> plain_constructors (g_items g) /\ objects_differ (g_items g) /\ numbered (g_items g)) ->
  (forall g, In g gs -> accepted g) -> pipeline gs = Ok r ->
  Permutation (map space_shown r) (map space_of gs) /\
  forall n, In n r -> well_typed gs (n_api n) /\
  forall g a, In g gs -> n_crate n = g_crate g -> interface (g_items g) = Ok a -> same_api a (api_map fst (n_api n)).
Proof.
  intros GR ND HY AC H.
  assert (ADD : forall g, In g gs -> exists i, add_metadata (g_items g) = Ok i).
  { intros g J. destruct (AC g J) as (a & A). exact (interface_ok _ _ A). }
  assert (TD : forall g, In g gs -> types_differ (g_items g)).
  { intros g J. destruct (ADD g J) as (i & A). destruct (HY g J) as (PC & OD & NU).
    exact (accepted_types_differ g i (group_of gs GR g J) PC OD A). }
  assert (FD : forall g, In g gs -> functions_differ (g_items g)).
  { intros g J. destruct (ADD g J) as (i & A). destruct (HY g J) as (PC & OD & NU). exact (accepted_functions_differ g i PC A). }
  assert (OW : forall g, In g gs -> owned (g_items g)).
  { intros g J. destruct (ADD g J) as (i & A). exact (accepted_owned g i (group_of gs GR g J) A). }
  split; [exact (pipeline_spaces gs r GR H)|]. intros n K. split.
  - exact (pipeline_typed gs r n GR ND TD FD H K).
  - intros g a J C A. destruct (HY g J) as (PC & OD & NU).
    apply (says_unique (g_items g)).
    + exact (interface_says g a (group_of gs GR g J) PC OD NU A).
    + exact (pipeline_says gs r g n GR (proj1 ND) OW TD (fun g J => proj2 (proj2 (HY g J))) H J K C).
Qed.
