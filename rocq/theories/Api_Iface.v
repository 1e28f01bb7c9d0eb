(** The component interface holds what the items say. *)
From Verif Require Import Base Meta_Types Meta_Eq Group_Model Api_Types Api_Spec Api_Model Api_Accept.
From Verif Require Import Univ_Spec.
From Coq Require Import Permutation Sorted.
From Verif Require Univ_Model Univ_Proofs.

Definition is_func (m : metadata) : bool := match m with MFunc _ => true | _ => false end.
Definition is_obj (m : metadata) : bool := match m with MObject _ => true | _ => false end.
Definition is_rec (m : metadata) : bool := match m with MRecord _ => true | _ => false end.
Definition is_enum (m : metadata) : bool := match m with MEnum _ => true | _ => false end.
Definition is_cb (m : metadata) : bool := match m with MCallback _ _ _ => true | _ => false end.
Definition is_cons (m : metadata) : bool := match m with MConstructor _ _ => true | _ => false end.
Definition is_meth (m : metadata) : bool :=
  match m with MMethod _ _ | MTraitMethod _ _ _ => true | _ => false end.
Definition is_ut (m : metadata) : bool := match m with MUniffiTrait _ => true | _ => false end.
Definition is_impl (m : metadata) : bool := match m with MTraitImpl _ _ => true | _ => false end.

Definition for_name (p : metadata -> bool) (n : str) (m : metadata) : bool := p m && bytes_eqb (target m) n.

(** What a view should be after the items [pre]. *)
Definition expect (pre : list metadata) (d : metadata) : view metadata :=
  View d (filter (for_name is_cons (def_name d)) pre) (filter (for_name is_meth (def_name d)) pre)
         (filter (for_name is_ut (def_name d)) pre) (filter (for_name is_impl (def_name d)) pre).

Lemma filter_snoc {A} (p : A -> bool) l a : filter p (l ++ [a]) = filter p l ++ (if p a then [a] else []).
Proof. rewrite filter_app. cbn [filter]. destruct (p a); reflexivity. Qed.

Lemma beq_refl n : bytes_eqb n n = true.
Proof. apply Univ_Proofs.bytes_eqb_refl. Qed.
Lemma beq_true a b : bytes_eqb a b = true -> a = b.
Proof. destruct (bytes_eqb_spec a b); [auto | discriminate]. Qed.

(** ** One step *)

Section Step.
  Variables (pre : list metadata) (m : metadata).
  Let n := target m.

  Lemma expect_same d : role_of m = None -> expect (pre ++ [m]) d = expect pre d.
  Proof.
    intros R. unfold expect. rewrite !filter_snoc. unfold for_name.
    destruct m; cbn in R; try discriminate; cbn [is_cons is_meth is_ut is_impl andb]; rewrite !app_nil_r; reflexivity.
  Qed.

  Definition push : view metadata -> view metadata :=
    match m with
    | MConstructor _ _ => push_constructor m
    | MMethod _ _ | MTraitMethod _ _ _ => push_method m
    | MUniffiTrait _ => push_trait m
    | _ => push_impl m
    end.

  Lemma expect_push d : role_of m <> None ->
    expect (pre ++ [m]) d = if bytes_eqb (def_name d) n then push (expect pre d) else expect pre d.
  Proof.
    intros R. unfold expect. rewrite !filter_snoc. unfold for_name.
    assert (E : bytes_eqb (target m) (def_name d) = bytes_eqb (def_name d) n).
    { unfold n. destruct (bytes_eqb_spec (target m) (def_name d)) as [-> | X]; [rewrite beq_refl; reflexivity|].
      destruct (bytes_eqb_spec (def_name d) (target m)); congruence. }
    rewrite E. destruct (bytes_eqb (def_name d) n); unfold push.
    - destruct m; cbn in R; try contradiction; cbn [is_cons is_meth is_ut is_impl andb];
        unfold push_constructor, push_method, push_trait, push_impl;
        cbn [v_item v_constructors v_methods v_traits v_impls]; rewrite ?app_nil_r; reflexivity.
    - rewrite !andb_false_r, !app_nil_r. reflexivity.
  Qed.

  Definition has_name (l : list metadata) : bool := existsb (fun d => bytes_eqb (def_name d) n) l.

  Lemma on_first_expect l : role_of m <> None -> NoDup (map def_name l) ->
    on_first n push (map (expect pre) l) = (if has_name l then Some (map (expect (pre ++ [m])) l) else None).
  Proof.
    intros R. induction l as [|d l IH]; intros N; [reflexivity|].
    cbn [map] in N. apply NoDup_cons_iff in N as [N0 N].
    cbn [map on_first has_name existsb]. change (v_item (expect pre d)) with d.
    rewrite (expect_push d R). destruct (bytes_eqb (def_name d) n) eqn:E; cbn [orb].
    - f_equal. f_equal. apply map_ext_in. intros x X. rewrite (expect_push x R).
      destruct (bytes_eqb (def_name x) n) eqn:F; [|reflexivity].
      exfalso. apply N0. apply beq_true in E, F. rewrite E, <- F. apply in_map. exact X.
    - rewrite (IH N). unfold has_name. destruct (existsb _ l); reflexivity.
  Qed.

  Lemma no_name l : role_of m <> None -> has_name l = false ->
    map (expect (pre ++ [m])) l = map (expect pre) l.
  Proof.
    intros R H. apply map_ext_in. intros d I. rewrite (expect_push d R).
    destruct (bytes_eqb (def_name d) n) eqn:E; [|reflexivity]. exfalso.
    assert (X : has_name l = true) by (apply existsb_exists; eauto). congruence.
  Qed.

  Lemma has_name_in l : has_name l = true -> exists d, In d l /\ def_name d = n.
  Proof.
    intros H. apply existsb_exists in H. destruct H as (d & I & E). apply beq_true in E. eauto.
  Qed.
  Lemma in_has_name l d : In d l -> def_name d = n -> has_name l = true.
  Proof. intros I E. apply existsb_exists. exists d. rewrite E, beq_refl. auto. Qed.
End Step.

(** ** All of it *)

Definition same_but_customs (s : store) (pre : list metadata) : Prop :=
  s_functions s = filter is_func pre /\
  s_objects s = map (expect pre) (filter is_obj pre) /\
  s_records s = map (expect pre) (filter is_rec pre) /\
  s_enums s = map (expect pre) (filter is_enum pre) /\
  s_callbacks s = map (expect pre) (filter is_cb pre).

Definition customs_ok (pre l : list metadata) : Prop :=
  NoDup (map def_name l) /\
  (forall c, In c l -> In c pre /\ is_custom c = true /\ first_docs pre c) /\
  (forall m, In m pre -> is_custom m = true -> exists c, In c l /\ stands_for c m).

Lemma merge_in mp n b doc l c : In c (merge_custom mp n b doc l) ->
  In c l \/ (c = MCustom mp n b doc /\ forall mp' b' doc', ~ In (MCustom mp' n b' doc') l) \/
  exists mp' b', In (MCustom mp' n b' None) l /\ c = MCustom mp' n b' doc.
Proof.
  induction l as [|x l IH]; cbn [merge_custom].
  - intros [<- | []]. right. left. auto.
  - assert (G : In c (x :: merge_custom mp n b doc l) -> (forall mp' b' doc', x <> MCustom mp' n b' doc') ->
             In c (x :: l) \/ (c = MCustom mp n b doc /\ forall mp' b' doc', ~ In (MCustom mp' n b' doc') (x :: l)) \/
             exists mp' b', In (MCustom mp' n b' None) (x :: l) /\ c = MCustom mp' n b' doc).
    { intros [<- | I] X; [left; left; reflexivity|].
      destruct (IH I) as [I' | [[E Q] | (mp' & b' & I' & E)]]; [left; right; exact I' | |].
      - right. left. split; [exact E|]. intros mp' b' doc' [E' | I']; [exact (X _ _ _ E') | exact (Q _ _ _ I')].
      - right. right. exists mp', b'. split; [right; exact I' | exact E]. }
    destruct x; try (intros I; apply G; [exact I | discriminate]).
    destruct (bytes_eqb_spec name n) as [-> | N].
    + intros [<- | I]; [|left; right; exact I]. destruct doc0 as [doc0|].
      * left. left. reflexivity.
      * right. right. exists mp0, builtin. split; [left; reflexivity | reflexivity].
    + intros I. apply G; [exact I|]. intros mp' b' doc' E. congruence.
Qed.

Lemma merge_keeps mp n b doc l c : In c l ->
  (exists c', In c' (merge_custom mp n b doc l) /\ stands_for c' c).
Proof.
  induction l as [|x l IH]; intros I; [destruct I|]. cbn [merge_custom].
  destruct I as [-> | I].
  - destruct c; try (eexists; split; [left; reflexivity | left; reflexivity]).
    destruct (bytes_eqb name n); [|eexists; split; [left; reflexivity | left; reflexivity]].
    eexists. split; [left; reflexivity|]. destruct doc0 as [doc0|]; [left; reflexivity|].
    destruct doc as [doc|]; [|left; reflexivity]. right. repeat eexists.
  - destruct (IH I) as (c' & I' & S). destruct x; try (exists c'; split; [right; exact I' | exact S]).
    destruct (bytes_eqb name n); [exists c; split; [right; exact I | left; reflexivity]|].
    exists c'; split; [right; exact I' | exact S].
Qed.

Lemma merge_has mp n b doc l : (forall mp' b' doc', In (MCustom mp' n b' doc') l -> mp' = mp /\ b' = b) ->
  exists c', In c' (merge_custom mp n b doc l) /\ stands_for c' (MCustom mp n b doc).
Proof.
  induction l as [|x l IH]; intros A; cbn [merge_custom].
  - eexists. split; [left; reflexivity | left; reflexivity].
  - destruct (IH (fun mp' b' doc' I => A mp' b' doc' (or_intror I))) as (c' & I' & S).
    destruct x; try (exists c'; split; [right; exact I' | exact S]).
    destruct (bytes_eqb_spec name n) as [-> | N]; [|exists c'; split; [right; exact I' | exact S]].
    destruct (A _ _ _ (or_introl eq_refl)) as [-> ->]. eexists. split; [left; reflexivity|].
    destruct doc0 as [doc0|]; [right; repeat eexists | left; reflexivity].
Qed.

Lemma merge_names mp n b doc l : NoDup (map def_name l) ->
  (forall c, In c l -> is_custom c = true) ->
  NoDup (map def_name (merge_custom mp n b doc l)).
Proof.
  intros N A.
  assert (IN : forall x, In x (map def_name (merge_custom mp n b doc l)) -> x = n \/ In x (map def_name l)).
  { intros x I. apply in_map_iff in I. destruct I as (c & <- & I).
    destruct (merge_in _ _ _ _ _ _ I) as [I' | [[-> _] | (mp' & b' & _ & ->)]];
      [right; apply in_map; exact I' | left; reflexivity | left; reflexivity]. }
  induction l as [|x l IH]; cbn [merge_custom map]; [repeat constructor; intros []|].
  cbn [map] in N. apply NoDup_cons_iff in N as [N0 N].
  pose proof (A x (or_introl eq_refl)) as AX. destruct x; try discriminate. cbn [def_name] in N0.
  cbn [merge_custom] in IN. destruct (bytes_eqb_spec name n) as [-> | NE].
  - cbn [map def_name]. constructor; assumption.
  - cbn [map def_name]. constructor; [|apply IH; [exact N | intros c I; apply A; right; exact I |]].
    + intros I. apply in_map_iff in I. destruct I as (c & E & I).
      destruct (merge_in _ _ _ _ _ _ I) as [I' | [[-> _] | (mp' & b' & I' & ->)]]; cbn [def_name] in E.
      * apply N0. rewrite <- E. apply in_map. exact I'.
      * congruence.
      * congruence.
    + intros y I. apply in_map_iff in I. destruct I as (c & <- & I).
      destruct (merge_in _ _ _ _ _ _ I) as [I' | [[-> _] | (mp' & b' & _ & ->)]];
        [right; apply in_map; exact I' | left; reflexivity | left; reflexivity].
Qed.

Lemma stands_trans a b c : stands_for a b -> stands_for b c -> stands_for a c.
Proof.
  intros [-> | (mp & n & t & doc & doc' & -> & ->)] [E | (mp1 & n1 & t1 & doc1 & doc1' & E1 & E2)].
  - left. exact E.
  - subst. right. repeat eexists.
  - subst. right. repeat eexists.
  - injection E2 as -> -> -> ->. subst. right. repeat eexists.
Qed.

Lemma first_docs_snoc pre m c : first_docs pre c -> In c pre ->
  (forall mp n b, c = MCustom mp n b None -> forall mp' b' doc, m <> MCustom mp' n b' (Some doc)) ->
  first_docs (pre ++ [m]) c.
Proof.
  intros F I H. destruct c; auto. cbn [first_docs] in *. destruct doc as [doc|].
  - destruct F as (p & q & -> & X). exists p, (q ++ [m]). rewrite <- app_assoc. auto.
  - intros mp' b' doc' J. apply in_app_or in J. destruct J as [J | [J | []]]; [exact (F _ _ _ J)|].
    exact (H _ _ _ eq_refl _ _ _ J).
Qed.

Lemma NoDup_filter {A} (p : A -> bool) l : NoDup l -> NoDup (filter p l).
Proof.
  induction 1 as [|a l N _ IH]; cbn [filter]; [constructor|]. destruct (p a); [|exact IH].
  constructor; [|exact IH]. intros I. apply filter_In in I. exact (N (proj1 I)).
Qed.

Lemma NoDup_map_on {A B} (f : A -> B) l : NoDup l ->
  (forall a a', In a l -> In a' l -> f a = f a' -> a = a') -> NoDup (map f l).
Proof.
  induction 1 as [|a l N _ IH]; intros X; cbn [map]; constructor.
  - intros I. apply in_map_iff in I. destruct I as (a' & E & I).
    rewrite (X a a' (or_introl eq_refl) (or_intror I) (eq_sym E)) in N. contradiction.
  - apply IH. intros x y I J. apply X; right; assumption.
Qed.

Section Group.
  Variables (g : group) (i : Univ_Model.iface).
  Hypothesis G : of_group g.
  Hypothesis PC : plain_constructors (g_items g).
  Hypothesis OD : objects_differ (g_items g).
  Hypothesis H : Univ_Model.add_metadata (g_items g) = Ok i.

  Lemma names_distinct pre post p : g_items g = pre ++ post ->
    (forall d, p d = true -> defines d <> None /\ is_custom d = false) ->
    NoDup (map def_name (filter p pre)).
  Proof.
    intros E P. assert (ND := proj1 G). rewrite E in ND.
    assert (NP : NoDup pre).
    { clear -ND. induction pre as [|x l IH]; [constructor|]. cbn [app] in ND.
      apply NoDup_cons_iff in ND as [N ND]. constructor; [|exact (IH ND)].
      intros I. apply N, in_or_app. left. exact I. }
    apply NoDup_map_on; [apply NoDup_filter; exact NP|]. intros a a' I I' N.
    apply filter_In in I, I'. destruct I as [I PA], I' as [I' PA'].
    destruct (P a PA) as [D C], (P a' PA') as [D' C'].
    assert (J : In a (g_items g)) by (rewrite E; apply in_or_app; left; exact I).
    assert (J' : In a' (g_items g)) by (rewrite E; apply in_or_app; left; exact I').
    destruct (defs_differ g i a a' G PC OD H J J' D D' N) as [X | [X _]]; [exact X | congruence].
  Qed.

  (** No member is written for a type that is still to come. *)
  Lemma not_yet pre m post x : g_items g = pre ++ m :: post -> defines m <> None -> is_custom m = false ->
    In x pre -> role_of x <> None -> target x <> def_name m.
  Proof.
    intros E D C I R T. destruct (in_split _ _ I) as (p & q & EP).
    destruct (role_of x) as [r|] eqn:RX; [|contradiction].
    assert (E' : g_items g = p ++ x :: (q ++ m :: post)) by (rewrite E, EP, <- app_assoc; reflexivity).
    destruct (owner_before _ _ _ _ _ _ H E' RX) as (d & J & N & DD & _).
    assert (JM : In m (g_items g)) by (rewrite E; apply in_or_app; right; left; reflexivity).
    assert (JD : In d (g_items g)) by (rewrite E'; apply in_or_app; left; exact J).
    assert (ND := proj1 G).
    destruct (defs_differ g i d m G PC OD H JD JM DD D ltac:(congruence)) as [-> | [_ X]]; [|congruence].
    rewrite E in ND. apply NoDup_remove_2 in ND. apply ND, in_or_app. left. rewrite EP.
    apply in_or_app. left. exact J.
  Qed.

  Lemma expect_new pre m post : g_items g = pre ++ m :: post -> defines m <> None -> is_custom m = false ->
    expect pre m = bare m.
  Proof.
    intros E D C. unfold expect, bare.
    assert (Z : forall p, (forall x, p x = true -> role_of x <> None) -> filter (for_name p (def_name m)) pre = []).
    { intros p P. assert (X : forall x, In x pre -> for_name p (def_name m) x = false).
      { intros x I. unfold for_name. destruct (p x) eqn:PX; [|reflexivity]. cbn [andb].
        destruct (bytes_eqb_spec (target x) (def_name m)) as [T|]; [|reflexivity].
        exfalso. exact (not_yet pre m post x E D C I (P x PX) T). }
      clear -X. induction pre as [|y l IH]; [reflexivity|]. cbn [filter].
      rewrite (X y (or_introl eq_refl)). apply IH. intros x I. apply X. right. exact I. }
    rewrite !Z; [reflexivity | ..]; intros x; destruct x; cbn; try discriminate; intros _; discriminate.
  Qed.

  Lemma step_other pre m post p : g_items g = pre ++ m :: post ->
    role_of m = None -> defines m <> None -> is_custom m = false ->
    map (expect (pre ++ [m])) (filter p (pre ++ [m])) =
    map (expect pre) (filter p pre) ++ (if p m then [bare m] else []).
  Proof.
    intros E R D C. rewrite filter_snoc, map_app. f_equal.
    - apply map_ext. intros d. apply expect_same, R.
    - destruct (p m); [|reflexivity]. cbn [map]. rewrite expect_same by exact R.
      rewrite (expect_new _ _ _ E D C). reflexivity.
  Qed.

  Lemma step_none pre m p : role_of m = None -> p m = false ->
    map (expect (pre ++ [m])) (filter p (pre ++ [m])) = map (expect pre) (filter p pre).
  Proof.
    intros R P. rewrite filter_snoc, P, app_nil_r. apply map_ext. intros d. apply expect_same, R.
  Qed.

  (** Only one kind of definition has a name. *)
  Lemma one_kind pre post m p q : g_items g = pre ++ post ->
    (forall d, p d = true -> defines d <> None /\ is_custom d = false) ->
    (forall d, q d = true -> defines d <> None /\ is_custom d = false) ->
    (forall d, p d = true -> q d = true -> False) ->
    has_name m (filter p pre) = true -> has_name m (filter q pre) = false.
  Proof.
    intros E P Q X HP. destruct (has_name m (filter q pre)) eqn:HQ; [|reflexivity]. exfalso.
    apply has_name_in in HP, HQ. destruct HP as (d & I & N), HQ as (d' & I' & N').
    apply filter_In in I, I'. destruct I as [I PD], I' as [I' QD].
    destruct (P d PD) as [D C], (Q d' QD) as [D' C'].
    assert (J : In d (g_items g)) by (rewrite E; apply in_or_app; left; exact I).
    assert (J' : In d' (g_items g)) by (rewrite E; apply in_or_app; left; exact I').
    destruct (defs_differ g i d d' G PC OD H J J' D D' ltac:(congruence)) as [-> | [Y _]]; [|congruence].
    exact (X d' PD QD).
  Qed.

  Lemma kinds_ok p : p = is_obj \/ p = is_rec \/ p = is_enum \/ p = is_cb ->
    forall d, p d = true -> defines d <> None /\ is_custom d = false.
  Proof. intros [-> | [-> | [-> | ->]]] d; destruct d; cbn; try discriminate; auto; split; congruence. Qed.

  Lemma step pre m post s : g_items g = pre ++ m :: post -> same_but_customs s pre ->
    same_but_customs (store_item m s) (pre ++ [m]).
  Proof.
    intros E (SF & SO & SR & SE & SC).
    assert (KO := kinds_ok is_obj (or_introl eq_refl)).
    assert (KR := kinds_ok is_rec (or_intror (or_introl eq_refl))).
    assert (KE := kinds_ok is_enum (or_intror (or_intror (or_introl eq_refl)))).
    assert (KC := kinds_ok is_cb (or_intror (or_intror (or_intror eq_refl)))).
    destruct (role_of m) as [r|] eqn:R.
    - (* a member *)
      assert (E1 : g_items g = pre ++ (m :: post)) by exact E.
      assert (RN : role_of m <> None) by congruence.
      assert (NO := names_distinct pre _ is_obj E1 KO).
      assert (NR := names_distinct pre _ is_rec E1 KR).
      assert (NE := names_distinct pre _ is_enum E1 KE).
      assert (NC := names_distinct pre _ is_cb E1 KC).
      assert (FO := on_first_expect pre m _ RN NO). assert (FR := on_first_expect pre m _ RN NR).
      assert (FE := on_first_expect pre m _ RN NE). assert (FC := on_first_expect pre m _ RN NC).
      assert (ZO := no_name pre m (filter is_obj pre) RN). assert (ZR := no_name pre m (filter is_rec pre) RN).
      assert (ZE := no_name pre m (filter is_enum pre) RN). assert (ZC := no_name pre m (filter is_cb pre) RN).
      assert (KK : forall p q, has_name m (filter p pre) = true -> 
                   (forall d, p d = true -> defines d <> None /\ is_custom d = false) ->
                   (forall d, q d = true -> defines d <> None /\ is_custom d = false) ->
                   (forall d, p d = true -> q d = true -> False) -> has_name m (filter q pre) = false)
        by (intros p q A B1 B2 B3; exact (one_kind pre _ m p q E1 B1 B2 B3 A)).
      assert (DJ : forall d, (is_obj d = true -> is_rec d = true -> False) /\ (is_obj d = true -> is_enum d = true -> False) /\
                   (is_obj d = true -> is_cb d = true -> False) /\ (is_rec d = true -> is_enum d = true -> False) /\
                   (is_rec d = true -> is_cb d = true -> False) /\ (is_enum d = true -> is_cb d = true -> False))
        by (intros d; destruct d; cbn; repeat split; discriminate).
      rewrite <- SO in FO. rewrite <- SR in FR. rewrite <- SE in FE. rewrite <- SC in FC.
      destruct (owner_before _ _ _ _ _ _ H E R) as (d & J & N & D & T).
      assert (OWN : has_name m (filter is_obj pre) = true \/
                    (r <> AnImpl /\ has_name m (filter is_obj pre) = false /\ has_name m (filter is_cb pre) = false /\
                     has_name m (filter is_rec pre) = true) \/
                    (r <> AnImpl /\ has_name m (filter is_obj pre) = false /\ has_name m (filter is_cb pre) = false /\
                     has_name m (filter is_rec pre) = false /\ has_name m (filter is_enum pre) = true) \/
                    (r = ATraitMethod /\ has_name m (filter is_cb pre) = true)).
      { assert (W : forall p, p d = true -> has_name m (filter p pre) = true)
          by (intros p P; apply (in_has_name m _ d); [apply filter_In; auto | exact N]).
        assert (D' : def_type d <> None) by (intros Q; apply def_type_defines in Q; contradiction).
        destruct d; try (exfalso; apply D'; reflexivity).
        - left. apply W. reflexivity.
        - right. right. right. split; [destruct r; cbn in T; try contradiction; reflexivity | apply W; reflexivity].
        - right. left. assert (X := W is_rec eq_refl). repeat split; auto.
          + destruct r; cbn in T; try contradiction; discriminate.
          + apply (KK _ is_obj X KR KO). intros y A B. destruct (DJ y) as (Q & _). auto.
          + apply (KK _ is_cb X KR KC). intros y A B. destruct (DJ y) as (_ & _ & _ & _ & Q & _). auto.
        - right. right. left. assert (X := W is_enum eq_refl). repeat split; auto.
          + destruct r; cbn in T; try contradiction; discriminate.
          + apply (KK _ is_obj X KE KO). intros y A B. destruct (DJ y) as (_ & Q & _). auto.
          + apply (KK _ is_cb X KE KC). intros y A B. destruct (DJ y) as (_ & _ & _ & _ & _ & Q). auto.
          + apply (KK _ is_rec X KE KR). intros y A B. destruct (DJ y) as (_ & _ & _ & Q & _). auto.
        - destruct r; contradiction. }
      assert (SAME : same_but_customs s pre -> forall s',
                s_functions s' = s_functions s ->
                s_objects s' = map (expect (pre ++ [m])) (filter is_obj pre) ->
                s_records s' = map (expect (pre ++ [m])) (filter is_rec pre) ->
                s_enums s' = map (expect (pre ++ [m])) (filter is_enum pre) ->
                s_callbacks s' = map (expect (pre ++ [m])) (filter is_cb pre) ->
                same_but_customs s' (pre ++ [m])).
      { intros _ s' A1 A2 A3 A4 A5. unfold same_but_customs. rewrite !filter_snoc.
        assert (NM : is_func m = false /\ is_obj m = false /\ is_rec m = false /\ is_enum m = false /\ is_cb m = false)
          by (destruct m; cbn in R; try discriminate; repeat split).
        destruct NM as (-> & -> & -> & -> & ->). rewrite !app_nil_r. rewrite A1, SF. auto. }
      specialize (SAME (conj SF (conj SO (conj SR (conj SE SC))))).
      assert (IMPL : forall t tt, m = MTraitImpl t tt -> exists nm, Univ_Model.type_name t = Some nm /\ nm = target m).
      { intros t tt ->. destruct (proj2 G (MTraitImpl t tt)) as [(mp & M & _) _].
        - rewrite E. apply in_or_app. right. left. reflexivity.
        - cbn [target]. destruct t; cbn in M; try discriminate; eexists; split; reflexivity. }
      destruct OWN as [X | [(RI & XO & XC & X) | [(RI & XO & XC & XR & X) | (RT & X)]]].
      + (* an object's *)
        assert (YR : has_name m (filter is_rec pre) = false)
          by (apply (KK _ is_rec X KO KR); intros y; destruct (DJ y) as (Q & _); exact Q).
        assert (YE : has_name m (filter is_enum pre) = false)
          by (apply (KK _ is_enum X KO KE); intros y; destruct (DJ y) as (_ & Q & _); exact Q).
        assert (YC : has_name m (filter is_cb pre) = false)
          by (apply (KK _ is_cb X KO KC); intros y; destruct (DJ y) as (_ & _ & Q & _); exact Q).
        rewrite X in FO. rewrite YC in FC.
        assert (Z : forall l, l = map (expect (pre ++ [m])) (filter is_obj pre) ->
                    same_but_customs (with_objects l s) (pre ++ [m])).
        { intros l ->. apply SAME; cbn [with_objects s_functions s_objects s_records s_enums s_callbacks];
            rewrite ?ZR, ?ZE, ?ZC by assumption; auto. }
        destruct m; cbn in R; try discriminate; cbn [store_item]; unfold attach, attach_trait;
          cbn [push target] in FO, FC; rewrite ?FC, ?FO; try (apply Z; reflexivity).
        destruct (IMPL _ _ eq_refl) as (nm & TN & ->). rewrite TN. cbn [target]. rewrite TN.
        rewrite TN in FO. rewrite FO. apply Z. reflexivity.
      + (* a record's *)
        assert (YE : has_name m (filter is_enum pre) = false)
          by (apply (KK _ is_enum X KR KE); intros y; destruct (DJ y) as (_ & _ & _ & Q & _); exact Q).
        rewrite X in FR. rewrite XO in FO. rewrite XC in FC. rewrite YE in FE.
        assert (Z : same_but_customs (with_records (map (expect (pre ++ [m])) (filter is_rec pre)) s) (pre ++ [m])).
        { apply SAME; cbn [with_records s_functions s_objects s_records s_enums s_callbacks];
            rewrite ?ZO, ?ZE, ?ZC by assumption; auto. }
        destruct m; cbn in R; try discriminate; try (injection R as <-; contradiction); cbn [store_item];
          unfold attach, attach_trait; cbn [push target] in FO, FC, FR, FE; rewrite ?FC, ?FO, ?FE, ?FR; exact Z.
      + (* an enum's *)
        rewrite X in FE. rewrite XO in FO. rewrite XC in FC. rewrite XR in FR.
        assert (Z : same_but_customs (with_enums (map (expect (pre ++ [m])) (filter is_enum pre)) s) (pre ++ [m])).
        { apply SAME; cbn [with_enums s_functions s_objects s_records s_enums s_callbacks];
            rewrite ?ZO, ?ZR, ?ZC by assumption; auto. }
        destruct m; cbn in R; try discriminate; try (injection R as <-; contradiction); cbn [store_item];
          unfold attach, attach_trait; cbn [push target] in FO, FC, FR, FE; rewrite ?FC, ?FO, ?FR, ?FE; exact Z.
      + (* a callback interface's *)
        assert (YO : has_name m (filter is_obj pre) = false)
          by (apply (KK _ is_obj X KC KO); intros y A B; destruct (DJ y) as (_ & _ & Q & _); auto).
        assert (YR : has_name m (filter is_rec pre) = false)
          by (apply (KK _ is_rec X KC KR); intros y A B; destruct (DJ y) as (_ & _ & _ & _ & Q & _); auto).
        assert (YE : has_name m (filter is_enum pre) = false)
          by (apply (KK _ is_enum X KC KE); intros y A B; destruct (DJ y) as (_ & _ & _ & _ & _ & Q); auto).
        rewrite X in FC. subst r. destruct m; cbn in R; try discriminate. cbn [store_item].
        cbn [push target] in FC. rewrite FC.
        apply SAME; cbn [with_callbacks s_functions s_objects s_records s_enums s_callbacks];
          rewrite ?ZO, ?ZR, ?ZE by assumption; auto.
    - (* not a member *)
      assert (NM : In m (g_items g)) by (rewrite E; apply in_or_app; right; left; reflexivity).
      assert (NN := proj2 (proj2 G m NM)).
      unfold same_but_customs.
      destruct m; cbn in R; try discriminate; cbn in NN; try discriminate; cbn [store_item];
        unfold with_objects, with_records, with_enums, with_callbacks;
        cbn [s_functions s_objects s_records s_enums s_callbacks];
        rewrite ?(filter_snoc is_func); cbn [is_func]; rewrite ?app_nil_r, ?SF, ?SO, ?SR, ?SE, ?SC.
      all: refine (conj eq_refl (conj _ (conj _ (conj _ _)))); symmetry;
           first [ apply step_none; reflexivity
                 | exact (step_other _ _ _ _ E eq_refl ltac:(discriminate) eq_refl) ].
  Qed.

  Lemma step_customs pre m post s : g_items g = pre ++ m :: post -> customs_ok pre (s_customs s) ->
    customs_ok (pre ++ [m]) (s_customs (store_item m s)).
  Proof.
    intros E (N & A & B).
    destruct (is_custom m) eqn:C.
    - destruct m as [ | | | | | | | | | |mp n b doc| | ]; try discriminate. cbn [store_item s_customs].
      assert (AG : forall mp' b' doc', In (MCustom mp' n b' doc') pre -> mp' = mp /\ b' = b).
      { intros mp' b' doc' I. destruct (customs_agree _ _ n b mp doc b' mp' doc' H) as [-> ->]; auto;
          rewrite E; apply in_or_app; [right; left; reflexivity | left; exact I]. }
      assert (CU : forall c, In c (s_customs s) -> is_custom c = true) by (intros c I; apply (A c I)).
      split; [apply merge_names; assumption|]. split.
      + intros c I. destruct (merge_in _ _ _ _ _ _ I) as [I' | [[-> Q] | (mp' & b' & I' & ->)]].
        * destruct (A c I') as (I1 & I2 & I3). split; [apply in_or_app; left; exact I1|]. split; [exact I2|].
          apply first_docs_snoc; [exact I3 | exact I1|]. intros mp1 n1 b1 -> mp2 b2 doc2 X.
          injection X as -> -> -> ->.
          (* the entry would have been replaced *)
          assert (R : forall l, NoDup (map def_name l) -> (forall c, In c l -> is_custom c = true) ->
                      ~ In (MCustom mp1 n1 b1 None) (merge_custom mp2 n1 b2 (Some doc2) l)).
          { clear. induction l as [|x l IH]; intros N A; cbn [merge_custom].
            - intros [X | []]. discriminate.
            - cbn [map] in N. apply NoDup_cons_iff in N as [N0 N].
              pose proof (A x (or_introl eq_refl)) as AX. destruct x; try discriminate.
              destruct (bytes_eqb_spec name n1) as [-> | NE].
              + intros [X | I]; [destruct doc; discriminate|]. apply N0. apply in_map_iff.
                exists (MCustom mp1 n1 b1 None). auto.
              + intros [X | I]; [congruence|]. apply (IH N); [|exact I]. intros c J. apply A. right. exact J. }
          exact (R _ N CU I).
        * split; [apply in_or_app; right; left; reflexivity|]. split; [reflexivity|].
          cbn [first_docs]. 
          assert (NO : forall mp' b' doc', ~ In (MCustom mp' n b' doc') pre).
          { intros mp' b' doc' J. destruct (B _ J eq_refl) as (c & K & S).
            destruct S as [-> | (mp1 & n1 & b1 & d1 & d1' & X1 & ->)]; [exact (Q _ _ _ K)|].
            injection X1 as -> -> -> ->. exact (Q _ _ _ K). }
          destruct doc as [doc|].
          -- exists pre, []. split; [reflexivity|]. intros mp' b' doc' J. exact (NO _ _ _ J).
          -- intros mp' b' doc' J. apply in_app_or in J. destruct J as [J | [J | []]]; [exact (NO _ _ _ J) | discriminate].
        * destruct (A _ I') as (I1 & _ & I3). destruct (AG _ _ _ I1) as [-> ->].
          split; [apply in_or_app; right; left; reflexivity|]. split; [reflexivity|].
          cbn [first_docs] in *. destruct doc as [doc|].
          -- exists pre, []. split; [reflexivity | exact I3].
          -- intros mp' b' doc' J. apply in_app_or in J. destruct J as [J | [J | []]]; [exact (I3 _ _ _ J) | discriminate].
      + intros m I C'. apply in_app_or in I. destruct I as [I | [<- | []]].
        * destruct (B m I C') as (c & K & S). destruct (merge_keeps mp n b doc _ _ K) as (c' & K' & S').
          exists c'. split; [exact K' | exact (stands_trans _ _ _ S' S)].
        * destruct (merge_has mp n b doc (s_customs s)) as (c' & K & S).
          { intros mp' b' doc' K. apply (AG mp' b' doc'). apply (A _ K). }
          exists c'. auto.
    - assert (X : s_customs (store_item m s) = s_customs s).
      { destruct m; try discriminate; cbn [store_item]; unfold attach, attach_trait;
          repeat match goal with |- context [match ?x with _ => _ end] => destruct x end; reflexivity. }
      rewrite X. split; [exact N|]. split.
      + intros c I. destruct (A c I) as (I1 & I2 & I3). split; [apply in_or_app; left; exact I1|]. split; [exact I2|].
        apply first_docs_snoc; [exact I3 | exact I1|]. intros mp n b -> mp' b' doc ->. discriminate.
      + intros x I C'. apply in_app_or in I. destruct I as [I | [<- | []]]; [exact (B x I C') | congruence].
  Qed.

  Lemma all_steps pre post : g_items g = pre ++ post ->
    same_but_customs (store_all pre) pre /\ customs_ok pre (s_customs (store_all pre)).
  Proof.
    revert post. induction pre as [|m pre IH] using rev_ind; intros post E.
    - split; [repeat split|]. split; [constructor|]. split; intros x [].
    - rewrite <- app_assoc in E. cbn [app] in E. destruct (IH _ E) as [A B].
      unfold store_all. rewrite fold_left_app. cbn [fold_left]. fold (store_all pre).
      split; [exact (step _ _ _ _ E A) | exact (step_customs _ _ _ _ E B)].
  Qed.
End Group.
