(** The component interface says what the items say; and an API that does is the only one. *)
From Verif Require Import Base Meta_Types Meta_Eq Group_Model Api_Types Api_Spec Api_Model Api_Accept Api_Iface.
From Verif Require Import Univ_Spec.
From Coq Require Import Permutation Sorted.
From Verif Require Univ_Model Univ_Proofs.

Lemma numbers_sorted n l : StronglySorted Z.lt (numbers n l) ->
  StronglySorted before (filter is_trait_method (filter (for_name is_meth n) l)).
Proof.
  induction l as [|m l IH]; intros S; [constructor|]. cbn [filter].
  assert (SL : StronglySorted Z.lt (numbers n l)).
  { cbn [numbers flat_map] in S. destruct m; try exact S. destruct (str_eq_dec trait_name n); [|exact S].
    cbn [app] in S. apply StronglySorted_inv in S. apply S. }
  destruct (for_name is_meth n m) eqn:F; [|exact (IH SL)]. cbn [filter].
  destruct (is_trait_method m) eqn:T; [|exact (IH SL)]. constructor; [exact (IH SL)|].
  destruct m; try discriminate. unfold for_name in F. cbn [is_meth target andb] in F. apply beq_true in F. subst trait_name.
  cbn [numbers flat_map] in S. destruct (str_eq_dec n n) as [_|X]; [|contradiction]. cbn [app] in S.
  apply StronglySorted_inv in S. destruct S as [_ S]. fold (numbers n l) in S.
  apply Forall_forall. intros x I. apply filter_In in I. destruct I as [I TX]. apply filter_In in I. destruct I as [I FX].
  destruct x; try discriminate. cbn [before]. rewrite Forall_forall in S. apply S. apply in_flat_map.
  exists (MTraitMethod trait_name index0 f0). split; [exact I|]. unfold for_name in FX. cbn [is_meth target andb] in FX.
  apply beq_true in FX. subst. destruct (str_eq_dec n n); [left; reflexivity | contradiction].
Qed.

Lemma NoDup_app2 {A} (l l' : list A) : NoDup l -> NoDup l' -> (forall a, In a l -> In a l' -> False) -> NoDup (l ++ l').
Proof.
  induction 1 as [|a l N _ IH]; intros N' D; [exact N'|]. cbn [app]. constructor.
  - intros I. apply in_app_or in I. destruct I as [I | I]; [exact (N I) | exact (D a (or_introl eq_refl) I)].
  - apply IH; [exact N'|]. intros x I. apply D. right. exact I.
Qed.

Section Group.
  Variables (g : group) (i : Univ_Model.iface).
  Hypothesis G : of_group g.
  Hypothesis PC : plain_constructors (g_items g).
  Hypothesis OD : objects_differ (g_items g).
  Hypothesis NU : numbered (g_items g).
  Hypothesis H : Univ_Model.add_metadata (g_items g) = Ok i.
  Let items := g_items g.

  Definition data_defs (l : list metadata) : list metadata :=
    filter is_obj l ++ filter is_rec l ++ filter is_enum l ++ filter is_cb l.

  Lemma data_defs_in l d : In d (data_defs l) <-> In d l /\ defines d <> None /\ is_custom d = false.
  Proof.
    unfold data_defs. rewrite !in_app_iff, !filter_In. split.
    - intros [[I P] | [[I P] | [[I P] | [I P]]]]; (split; [exact I|]); destruct d; try discriminate; cbn; split; congruence.
    - intros (I & D & C). destruct d; cbn in D, C; try contradiction; try discriminate; cbn [is_obj is_rec is_enum is_cb]; tauto.
  Qed.

  Lemma data_defs_nodup l : NoDup l -> NoDup (data_defs l).
  Proof.
    intros N. unfold data_defs.
    repeat (apply NoDup_app2; [apply NoDup_filter; exact N | | ]).
    - apply NoDup_filter; exact N.
    - intros a I J. apply filter_In in I, J. destruct I as [_ I], J as [_ J]. destruct a; discriminate.
    - intros a I J. apply in_app_or in J. apply filter_In in I. destruct I as [_ I].
      destruct J as [J | J]; apply filter_In in J; destruct J as [_ J]; destruct a; discriminate.
    - intros a I J. apply in_app_or in J. apply filter_In in I. destruct I as [_ I].
      destruct J as [J | J]; [|apply in_app_or in J; destruct J as [J | J]];
        apply filter_In in J; destruct J as [_ J]; destruct a; discriminate.
  Qed.

  Lemma members_exactly d p r : In d items -> defines d <> None ->
    (forall m, p m = true <-> role_of m = Some r) ->
    exactly (member items d r) (filter (for_name p (def_name d)) items).
  Proof.
    intros I D P. split; [apply NoDup_filter, G|]. intros m. rewrite filter_In. unfold member, for_name. split.
    - intros [J F]. apply andb_true_iff in F. destruct F as [F1 F2]. apply P in F1. apply beq_true in F2.
      repeat split; auto. apply (written_for_defines g m d G J I); auto. congruence.
    - intros (J & R & W). split; [exact J|]. rewrite (proj2 (P m) R). cbn [andb].
      apply (written_for_defines g m d G J I) in W; [rewrite W; apply beq_refl | congruence | exact D].
  Qed.

  Lemma methods_exactly d : In d items -> defines d <> None ->
    exactly (fun m => member items d AMethod m \/ member items d ATraitMethod m)
            (filter (for_name is_meth (def_name d)) items).
  Proof.
    intros I D. split; [apply NoDup_filter, G|]. intros m. rewrite filter_In. unfold member, for_name. split.
    - intros [J F]. apply andb_true_iff in F. destruct F as [F1 F2]. apply beq_true in F2.
      assert (R : role_of m <> None) by (destruct m; discriminate).
      assert (W : written_for m = defines d) by (apply (written_for_defines g m d G J I); auto).
      destruct m; try discriminate; [left | right]; auto.
    - intros [(J & R & W) | (J & R & W)]; (split; [exact J|]);
        apply (written_for_defines g m d G J I) in W; try congruence; rewrite W, beq_refl;
        destruct m; try discriminate; reflexivity.
  Qed.

  Lemma custom_alone d m r : In d items -> is_custom d = true -> ~ member items d r m.
  Proof.
    intros I C (J & R & W).
    assert (D : defines d <> None) by (destruct d; try discriminate; cbn; discriminate).
    destruct (accepted_owned g i G H m r J R) as (d' & I' & D' & W' & T).
    assert (N : def_name d = def_name d').
    { rewrite W in W'. unfold items in I. rewrite (defines_group g d G I D), (defines_group g d' G I' D') in W'.
      injection W' as W'. exact W'. }
    destruct (defs_differ g i d d' G PC OD H I I' D D' N) as [<- | [_ C']].
    - destruct d; try discriminate. destruct r; exact T.
    - destruct d'; try discriminate. destruct r; exact T.
  Qed.

  Lemma said : says items (store_api (store_all items)).
  Proof.
    destruct (all_steps g i G PC OD H items [] (eq_sym (app_nil_r _))) as [(SF & SO & SR & SE & SC) (CN & CA & CB)].
    unfold says, store_api. cbn [a_functions a_types]. rewrite SF, SO, SR, SE, SC.
    set (cs := s_customs (store_all items)) in *.
    assert (TY : map (expect items) (filter is_obj items) ++ map (expect items) (filter is_rec items) ++
                 map (expect items) (filter is_enum items) ++ map (expect items) (filter is_cb items) ++ map bare cs =
                 map (expect items) (data_defs items) ++ map bare cs)
      by (unfold data_defs; rewrite !map_app, <- !app_assoc; reflexivity).
    rewrite TY. clear TY.
    refine (conj _ (conj _ (conj _ (conj _ _)))).
    - split; [apply NoDup_filter, G|]. intros m. rewrite filter_In. split.
      + intros [I F]. split; [exact I|]. destruct m; try discriminate. eauto.
      + intros [I [f ->]]. auto.
    - rewrite map_app, !map_map. cbn [v_item expect bare].
      rewrite <- map_app.
      apply NoDup_map_on.
      + apply NoDup_app2; [apply data_defs_nodup, G | exact (NoDup_map_inv _ _ CN) |].
        intros a I J. apply data_defs_in in I. destruct I as (_ & _ & I). destruct (CA a J) as (_ & C & _). congruence.
      + intros a a' I I' E.
        assert (A : forall x, In x (data_defs items ++ cs) -> In x items /\ defines x <> None).
        { intros x J. apply in_app_or in J. destruct J as [J | J].
          - apply data_defs_in in J. tauto.
          - destruct (CA x J) as (J1 & J2 & _). split; [exact J1|]. destruct x; try discriminate; cbn; discriminate. }
        assert (CC : forall x, In x (data_defs items ++ cs) -> is_custom x = true -> In x cs).
        { intros x J C. apply in_app_or in J. destruct J as [J | J]; [|exact J].
          apply data_defs_in in J. destruct J as (_ & _ & J). congruence. }
        destruct (A a I) as [B1 B2], (A a' I') as [B1' B2'].
        rewrite (defines_group g a G B1 B2), (defines_group g a' G B1' B2') in E. injection E as E.
        destruct (defs_differ g i a a' G PC OD H B1 B1' B2 B2' E) as [X | [X X']]; [exact X|].
        specialize (CC a I X) as C1. specialize (CC a' I' X') as C2.
        clear -CN C1 C2 E. induction cs as [|c cs IH]; [destruct C1|]. cbn [map] in CN.
        apply NoDup_cons_iff in CN as [N0 CN]. destruct C1 as [-> | C1], C2 as [-> | C2]; auto.
        * exfalso. apply N0. rewrite E. apply in_map. exact C2.
        * exfalso. apply N0. rewrite <- E. apply in_map. exact C1.
    - apply Forall_app. split; apply Forall_forall; intros v I; apply in_map_iff in I; destruct I as (d & <- & I).
      + apply data_defs_in in I. destruct I as (I & D & C). cbn [v_item expect].
        refine (conj D (conj _ _)); [|destruct d; try discriminate; exact Logic.I].
        unfold describes. cbn [v_item v_constructors v_methods v_traits v_impls expect].
        refine (conj I (conj _ (conj _ (conj _ (conj _ _))))).
        * apply members_exactly; auto. intros m; destruct m; cbn; split; intros X; try discriminate; reflexivity.
        * apply methods_exactly; auto.
        * apply members_exactly; auto. intros m; destruct m; cbn; split; intros X; try discriminate; reflexivity.
        * apply members_exactly; auto. intros m; destruct m; cbn; split; intros X; try discriminate; reflexivity.
        * apply numbers_sorted. apply NU.
      + destruct (CA d I) as (I1 & C & F). cbn [v_item bare].
        refine (conj _ (conj _ F)); [destruct d; try discriminate; cbn; discriminate|].
        unfold describes. cbn [v_item v_constructors v_methods v_traits v_impls bare].
        assert (Z : forall r, exactly (member items d r) []).
        { intros r. split; [constructor|]. intros m. split; [intros [] | intros M; exact (custom_alone d m r I1 C M)]. }
        refine (conj I1 (conj (Z _) (conj _ (conj (Z _) (conj (Z _) _))))); [|constructor].
        split; [constructor|]. intros m. split; [intros []|]. intros [M | M]; exact (custom_alone d m _ I1 C M).
    - intros m I D. destruct (is_custom m) eqn:C.
      + destruct (CB m I C) as (c & J & S). exists (bare c). split; [|exact S].
        apply in_or_app. right. apply in_map. exact J.
      + exists (expect items m). split; [|left; reflexivity]. apply in_or_app. left. apply in_map.
        apply data_defs_in. auto.
    - intros m I R. destruct (role_of m) as [r|] eqn:RM; [|contradiction].
      destruct (accepted_owned g i G H m r I RM) as (d & J & D & W & T).
      exists (expect items d). split.
      + apply in_or_app. left. apply in_map. apply data_defs_in. split; [exact J|]. split; [exact D|].
        destruct d; try reflexivity. destruct r; destruct T.
      + assert (TG : bytes_eqb (target m) (def_name d) = true).
        { apply (written_for_defines g m d G I J) in W; [rewrite W; apply beq_refl | congruence | exact D]. }
        cbn [expect v_constructors v_methods v_traits v_impls]. rewrite !in_app_iff, !filter_In.
        unfold for_name. rewrite TG, !andb_true_r.
        destruct m; try discriminate; cbn [is_cons is_meth is_ut is_impl]; tauto.
  Qed.
End Group.

Lemma interface_says g a : of_group g -> plain_constructors (g_items g) -> objects_differ (g_items g) ->
  numbered (g_items g) -> interface (g_items g) = Ok a -> says (g_items g) a.
Proof.
  intros G PC OD NU H. unfold interface in H. apply bind_ok in H. destruct H as (i & H & E).
  injection E as <-. exact (said g i G PC OD NU H).
Qed.

(** ** The API is unique *)

Lemma exactly_perm P l l' : exactly P l -> exactly P l' -> Permutation l l'.
Proof.
  intros [N A] [N' B]. apply NoDup_Permutation; auto. intros m. rewrite A, B. reflexivity.
Qed.

Lemma sorted_perm l l' : NoDup l -> Forall (fun m => is_trait_method m = true) l ->
  StronglySorted before l -> StronglySorted before l' -> Permutation l l' -> l = l'.
Proof.
  revert l'. induction l as [|m l IH]; intros l' N F S S' P.
  - apply Permutation_nil in P. auto.
  - destruct l' as [|m' l']; [apply Permutation_sym, Permutation_nil in P; discriminate|].
    apply StronglySorted_inv in S, S'. destruct S as [S SM], S' as [S' SM'].
    apply NoDup_cons_iff in N as [N0 N]. inversion F as [|? ? FM FL]; subst.
    assert (E : m = m').
    { assert (I : In m (m' :: l')) by (apply (Permutation_in _ P); left; reflexivity).
      assert (I' : In m' (m :: l)) by (apply (Permutation_in _ (Permutation_sym P)); left; reflexivity).
      destruct I as [I | I]; [auto|]. destruct I' as [I' | I']; [auto|]. exfalso.
      rewrite Forall_forall in SM, SM', FL. pose proof (SM _ I') as X. pose proof (SM' _ I) as Y.
      pose proof (FL _ I') as Z. destruct m, m'; try discriminate. cbn in X, Y. lia. }
    subst m'. f_equal. apply IH; auto. exact (Permutation_cons_inv P).
Qed.

Lemma Permutation_filter {A} (p : A -> bool) l l' : Permutation l l' -> Permutation (filter p l) (filter p l').
Proof.
  induction 1; cbn [filter]; repeat match goal with |- context [p ?x] => destruct (p x) end; auto.
  - apply perm_swap.
  - etransitivity; eauto.
Qed.

Lemma describes_same items v w : v_item v = v_item w -> describes items v -> describes items w -> same_view v w.
Proof.
  intros E (I & C & M & T & X & S) (I' & C' & M' & T' & X' & S'). rewrite <- E in *.
  unfold same_view. assert (PM := exactly_perm _ _ _ M M').
  refine (conj E (conj (exactly_perm _ _ _ C C') (conj PM (conj _ (conj (exactly_perm _ _ _ T T') (exactly_perm _ _ _ X X')))))).
  apply sorted_perm; auto.
  - apply NoDup_filter, M.
  - apply Forall_forall. intros m J. apply filter_In in J. apply J.
  - apply Permutation_filter. exact PM.
Qed.

Lemma first_same (items : list metadata) mp n b d d' : first_docs items (MCustom mp n b (Some d)) ->
  first_docs items (MCustom mp n b (Some d')) -> d = d'.
Proof.
  cbn [first_docs]. intros (p & q & E & A) (p' & q' & E' & A').
  revert p' E' A'. subst items. induction p as [|x p IH]; intros p' E' A'.
  - destruct p' as [|y p']; cbn [app] in E'.
    + injection E' as -> _. reflexivity.
    + injection E' as <- _. exfalso. apply (A' mp b d). left. reflexivity.
  - destruct p' as [|y p']; cbn [app] in E'.
    + injection E' as -> _. exfalso. apply (A mp b d'). left. reflexivity.
    + injection E' as <- E'. apply (IH (fun mp' b' doc I => A mp' b' doc (or_intror I)) p' E').
      intros mp' b' doc I. apply (A' mp' b' doc). right. exact I.
Qed.

(** Definitions that stand for each other are the same. *)
Lemma stands_same items d d' : In d items -> first_docs items d -> first_docs items d' ->
  stands_for d' d -> d' = d.
Proof.
  intros I F F' [-> | (mp & n & b & doc & doc' & -> & ->)]; [reflexivity|].
  destruct doc as [doc|].
  - rewrite (first_same _ _ _ _ _ _ F F'). reflexivity.
  - exfalso. cbn [first_docs] in F, F'. destruct F' as (p & q & -> & _).
    apply (F mp b doc'). apply in_or_app. right. left. reflexivity.
Qed.

Lemma says_unique items a b : says items a -> says items b -> same_api a b.
Proof.
  intros (F & N & D & S & _) (F' & N' & D' & S' & _). split; [exact (exactly_perm _ _ _ F F')|].
  rewrite Forall_forall in D, D'.
  assert (M : forall w, In w (a_types b) -> exists v, In v (a_types a) /\ same_view v w).
  { intros w I. destruct (D' w I) as (DW & DS & DF). destruct (S (v_item w) (proj1 DS) DW) as (v & J & SV). destruct (D v J) as (DV & DSV & DFV).
    exists v. split; [exact J|].
    exact (describes_same items v w (stands_same items _ _ (proj1 DS) DF DFV SV) DSV DS). }
  assert (M' : forall v, In v (a_types a) -> exists w, In w (a_types b) /\ v_item v = v_item w).
  { intros v I. destruct (D v I) as (DW & DS & DF). destruct (S' (v_item v) (proj1 DS) DW) as (w & J & SV). destruct (D' w J) as (_ & _ & DFW).
    exists w. split; [exact J|]. symmetry. exact (stands_same items _ _ (proj1 DS) DF DFW SV). }
  clear S S' F F'. remember (a_types a) as va. remember (a_types b) as vb. clear Heqva Heqvb.
  revert va N D M M'. induction vb as [|w vb IH]; intros va N D M M'.
  - destruct va as [|v va].
    + exists []. split; constructor.
    + destruct (M' v (or_introl eq_refl)) as (w & [] & _).
  - destruct (M w (or_introl eq_refl)) as (v & I & SV). destruct (in_split _ _ I) as (l1 & l2 & E). subst va.
    cbn [map] in N'. apply NoDup_cons_iff in N' as [N0 N'].
    assert (NN : NoDup (map (fun v => defines (v_item v)) (v :: l1 ++ l2))).
    { apply (Permutation_NoDup (l := map (fun v => defines (v_item v)) (l1 ++ v :: l2))); [|exact N].
      apply Permutation_map, Permutation_sym, Permutation_middle. }
    cbn [map] in NN. apply NoDup_cons_iff in NN as [NN0 NN].
    destruct (IH N' (fun x J => D' x (or_intror J)) (l1 ++ l2) NN) as (ts & P & FF).
    + intros x J. apply D. apply in_app_or in J. apply in_or_app. destruct J; [left | right; right]; assumption.
    + intros x J. destruct (M x (or_intror J)) as (y & K & SY). exists y. split; [|exact SY].
      apply in_app_or in K. apply in_or_app. destruct K as [K | [<- | K]]; [left; exact K | | right; exact K].
      exfalso. apply N0. apply in_map_iff. exists x. split; [|exact J].
      destruct SV as (E1 & _), SY as (E2 & _). congruence.
    + intros x J. assert (J' : In x (l1 ++ v :: l2)).
      { apply in_app_or in J. apply in_or_app. destruct J; [left | right; right]; assumption. }
      destruct (M' x J') as (y & [<- | K] & E); [|exists y; auto]. exfalso. apply NN0.
      destruct SV as (E1 & _). rewrite E1, <- E. apply (in_map (fun v => defines (v_item v))). exact J.
    + exists (v :: ts). split; [|constructor; assumption].
      apply Permutation_sym, Permutation_cons_app. apply Permutation_sym. exact P.
Qed.
