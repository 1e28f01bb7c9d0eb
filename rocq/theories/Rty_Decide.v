(** Tests for hypotheses, to give examples. *)
From Verif Require Import Base Meta_Types Path_Types Path_Spec Path_Model Path_Proofs Path_Decide Pub_Spec Pub_Model Pub_Claims Pub_Proofs
  Rty_Types Rty_Spec Rty_Claims.

Fixpoint distinct_strs (l : list str) : bool :=
  match l with
  | [] => true
  | a :: l => negb (existsb (bytes_eqb a) l) && distinct_strs l
  end.
Definition has_ident (it : item) : bool := match ident it with Some _ => true | None => false end.
Definition names_of (l : list item) : list str := map item_name (filter has_ident l).
Definition one_of_each_b (r : ir) : bool :=
  forallb (fun e => distinct_strs (names_of (snd e))) (mods r) && distinct_strs (names_of (map snd (roots r))) &&
  forallb (fun e => has_ident (snd e)) (roots r).
Lemma names_one l : distinct_strs (names_of l) = true -> forall a b, In a l -> In b l -> has_ident a = true -> has_ident b = true ->
  item_name a = item_name b -> item_name a = item_name b /\ (forall c, In c l -> has_ident c = true -> item_name c = item_name a -> c = a).
Proof.
  unfold names_of. intros D a b Ia _ Na _ E. split; auto. clear E b. revert D Ia.
  assert (G : forall l, distinct_strs (map item_name l) = true -> In a l -> forall c, In c l -> item_name c = item_name a -> c = a).
  { clear. induction l as [| x l IH]; intros D Ia c Ic E; [destruct Ia|]. cbn in D. apply andb_prop in D as [A B].
    apply negb_true_iff in A.
    assert (NO : forall y, In y l -> item_name y <> item_name x).
    { intros y Iy Ey. apply not_true_iff_false in A. apply A. apply existsb_exists. exists (item_name y). split.
      - apply in_map_iff. eauto.
      - rewrite Ey. apply eqb_refl. }
    destruct Ia as [<- | Ia], Ic as [<- | Ic]; auto.
    - elim (NO c Ic). auto.
    - elim (NO a Ia). auto. }
  intros D Ia c Ic Nc E. apply (G _ D); auto; now apply filter_In.
Qed.
Lemma path_of_cons it up : path_of (it :: up) = path_of up ++ [item_name it].
Proof. reflexivity. Qed.
Lemma module_named it m : i_kind it = KModule m -> has_ident it = true.
Proof. unfold has_ident, ident. now intros ->. Qed.
Lemma one_of_each_ok r : tree r -> one_of_each_b r = true -> one_of_each r.
Proof.
  intros (_ & T2 & _) E. unfold one_of_each_b in E. apply andb_prop in E as [E E3]. apply andb_prop in E as [E1 E2].
  rewrite forallb_forall in E1.
  assert (M1 : forall m a b, In a (items_of r m) -> In b (items_of r m) -> has_ident a = true -> has_ident b = true ->
    item_name a = item_name b -> a = b).
  { intros m a b Ia Ib Na Nb E. unfold items_of in *.
    assert (W : exists its, In (m, its) (mods r) /\ find_mod (mods r) m = its).
    { clear -Ia. induction (mods r) as [| [k its] l IH]; [destruct Ia|]. cbn in *. destruct (Nat.eqb_spec k m) as [-> |].
      - exists its. auto.
      - destruct (IH Ia) as (i & A & B). eauto. }
    destruct W as (its & W1 & W2). rewrite W2 in *.
    destruct (names_one its (E1 _ W1) b b Ib Ib Nb Nb eq_refl) as [_ G]. exact (G a Ia Na E). }
  assert (M2 : forall x y a b, In (x, a) (roots r) -> In (y, b) (roots r) -> item_name a = item_name b -> a = b).
  { intros x y a b Ia Ib E. rewrite forallb_forall in E3. pose proof (E3 _ Ia) as Na. pose proof (E3 _ Ib) as Nb.
    assert (Ja : In a (map snd (roots r))) by (apply in_map_iff; exists (x, a); auto).
    assert (Jb : In b (map snd (roots r))) by (apply in_map_iff; exists (y, b); auto).
    destruct (names_one _ E2 b b Jb Jb Nb Nb eq_refl) as [_ G]. exact (G a Ja Na E). }
  assert (HI : forall it up, has_name (it :: up) -> has_ident it = true).
  { intros it up (t & s & [= <- <-] & N). unfold has_ident. destruct (ident it); [auto | now elim N]. }
  intros a b Pa. revert b. induction Pa as [x i I | p m self i P IH K I | s]; intros b Pb Na Nb E.
  - inversion Pb as [y j J | p' m' self' j P' K' J | s]; subst.
    + f_equal. eapply M2; eauto. unfold path_of in E. cbn in E. congruence.
    + exfalso. apply (f_equal (@length str)) in E. rewrite !path_of_length in E. discriminate.
    + exfalso. apply HI in Nb. discriminate.
  - inversion Pb as [y j J | p' m' self' j P' K' J | s]; subst.
    + exfalso. apply (f_equal (@length str)) in E. rewrite !path_of_length in E. discriminate.
    + rewrite !(path_of_cons _ (_ :: _)) in E. apply app_inj_tail in E as [E1' E2'].
      assert (HP : has_name (p :: self)). { exists p, self. split; auto. unfold ident. rewrite K. discriminate. }
      assert (HP' : has_name (p' :: self')). { exists p', self'. split; auto. unfold ident. rewrite K'. discriminate. }
      pose proof (IH _ P' HP HP' E1') as EQ. injection EQ as <- <-.
      assert (m' = m) as -> by congruence. f_equal. eapply M1; eauto.
    + exfalso. apply HI in Nb. discriminate.
  - exfalso. apply HI in Na. discriminate.
Qed.
(** A known name, from a module that has nothing to say about it. *)
Lemma refers_known r self m x rest n c k s : reserved x = false -> top_module self = Some m -> in_udl r m x (ns_of rest n) = [] ->
  declared r m x (ns_of rest n) = [] -> uses r m x = [] -> stars r m = [] -> crate_of self = Some c -> i_kind c = KModule k ->
  filter (udl_called x) (items_of r k) = [] -> find_root (roots r) x = None -> std_of (x :: rest) = Some s ->
  refers r self (Path false (x :: rest)) n (Some [std s]).
Proof.
  intros A B C D E F G H I J K. eapply refers_out; try reflexivity.
  - eapply (m_nothing _ _ m); eauto; [rewrite E; constructor | rewrite F; constructor].
  - eapply out_known; cbn; eauto.
Qed.
(** Records, enums and objects are all in the roots of crates. *)
Lemma all_offered_ok r : tree r -> 
  forallb (fun e => forallb (fun it => negb (nominal it) || existsb (fun x => match i_kind (snd x) with KModule k => Nat.eqb k (fst e) | _ => false end) (roots r)) (snd e)) (mods r) = true ->
  all_offered r.
Proof.
  intros TR F it up P N. pose proof TR as (T1 & T2 & T3 & T4). inversion P as [x i I | p m self i P' K I | s]; subst.
  - destruct (T2 _ _ I) as [k K]. unfold nominal in N. rewrite K in N. discriminate.
  - rewrite forallb_forall in F. apply items_in in I as I'. destruct I' as (its & A & B). specialize (F _ A). cbn in F.
    rewrite forallb_forall in F. specialize (F _ B). rewrite N in F. cbn in F. apply existsb_exists in F as ([x root] & J & G).
    cbn in G. destruct (i_kind root) as [k | | | | | | | | | | | | | |] eqn:KR; try discriminate. apply Nat.eqb_eq in G. subst k.
    assert (p :: self = [root]) as EQ.
    { apply (place_key r m _ _ TR P'); [econstructor; eauto | cbn; now rewrite K | cbn; now rewrite KR]. }
    injection EQ as -> ->. exists root, [root], (item_name it), [it; root]. split; [reflexivity|].
    split; [eapply pm_root; eauto|]. split.
    + eapply (of_own _ _ _ _ m); [cbn; now rewrite KR | exact I |]. unfold item_name. unfold nominal in N. unfold ident.
      destruct (i_kind it); try discriminate; reflexivity.
    + exists it, [root]. split; auto. unfold is_item. destruct (i_id it) as [a | [a | a]]; cbn; auto using Nat.eqb_refl, eqb_refl.
  - discriminate.
Qed.
(** Which items are not there. *)
Lemma without_ok w bad : forallb (fun e => forallb (fun it => negb (bad it)) (snd e)) (mods (w_ir w)) = true ->
  forallb (fun e => negb (bad (snd e))) (roots (w_ir w)) = true -> (forall s, bad (std s) = false) -> without w bad.
Proof.
  intros A B C it up P. inversion P as [x i I | p m self i P' K I | s]; subst.
  - rewrite forallb_forall in B. apply negb_true_iff. exact (B _ I).
  - apply items_in in I as (its & X & Y). rewrite forallb_forall in A. specialize (A _ X). rewrite forallb_forall in A.
    apply negb_true_iff. exact (A _ Y).
  - apply C.
Qed.
