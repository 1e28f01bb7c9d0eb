From Coq Require Import Lia.
From Verif Require Import Base Meta_Types Path_Types Path_Spec Path_Model Path_Claims.

Lemma eqb_eq a b : bytes_eqb a b = true -> a = b.
Proof. destruct (bytes_eqb_spec a b); congruence. Qed.
Lemma eqb_refl a : bytes_eqb a a = true.
Proof. destruct (bytes_eqb_spec a a); congruence. Qed.

Lemma at_not_found self e : at_ self e = NotFound -> e = NotFound.
Proof. unfold at_. destruct existsb; congruence. Qed.
Lemma at_cycle self e : at_ self e = Cycle -> e = Cycle.
Proof. unfold at_. destruct existsb; congruence. Qed.
Lemma at_module self m e : top_module self = Some m -> at_ self e = e.
Proof. destruct self as [| it self]; [discriminate|]. cbn [top_module]. unfold at_. cbn [existsb is_module]. unfold is_module.
  destruct (i_kind it); try discriminate. reflexivity. Qed.

Lemma find_root_in l x it : find_root l x = Some it -> In (x, it) l.
Proof.
  induction l as [| [k i] l IH]; cbn; [discriminate|].
  destruct (bytes_eqb_spec k x); [|intro; right; auto].
  intros [= <-]. subst. now left.
Qed.

(** Places. *)
Lemma place_not_nil r q : place r q -> q <> [].
Proof. now intros []. Qed.
Lemma place_tail r it up : place r (it :: up) -> up <> [] -> place r up.
Proof. intros P N. inversion P; subst; try congruence; auto. Qed.
Lemma place_root_of r q it : place r q -> the_root q = Some it -> place r [it].
Proof.
  unfold the_root. intros P. induction P as [x i I | p m self i P IH K I | b].
  - cbn. intros [= <-]. eapply place_root; eauto.
  - intros E. apply IH. change (rev (i :: p :: self)) with (rev (p :: self) ++ [i]) in E.
    destruct (rev (p :: self)) as [| a l] eqn:R.
    + apply (f_equal (@length item)) in R. rewrite rev_length in R. discriminate.
    + exact E.
  - cbn. intros [= <-]. constructor.
Qed.
Lemma place_module_inv r it self m :
  place r (it :: self) -> i_kind it = KModule m ->
  (exists x, In (x, it) (roots r) /\ self = []) \/
  (exists p k up, self = p :: up /\ place r self /\ i_kind p = KModule k /\ In it (items_of r k)).
Proof.
  intros P K. inversion P; subst.
  - left. eauto.
  - right. eauto 10.
  - discriminate.
Qed.
Lemma place_one r : tree r -> forall a s b t m,
  place r (a :: s) -> place r (b :: t) -> i_kind a = KModule m -> i_kind b = KModule m -> a :: s = b :: t.
Proof.
  intros (T1 & T2 & T3 & T4) a s. revert a.
  induction s as [| p s IH]; intros a b t m P Q A B.
  - destruct (place_module_inv _ _ _ _ P A) as [(x & I & _) | (? & ? & ? & ? & _)]; [|discriminate].
    destruct (place_module_inv _ _ _ _ Q B) as [(y & J & ->) | (q & k & up & -> & _ & K & J)].
    + now rewrite (T3 _ _ _ _ _ I J A B).
    + exfalso. eapply T4; eauto.
  - destruct (place_module_inv _ _ _ _ P A) as [(x & I & ?) | (p' & k & up & [= <- <-] & PP & K & J)]; [discriminate|].
    destruct (place_module_inv _ _ _ _ Q B) as [(y & J' & ->) | (q & k' & up' & -> & PQ & K' & J')].
    + exfalso. eapply T4; eauto.
    + destruct (T1 _ _ _ _ _ J J' A B) as [-> <-].
      now rewrite (IH _ _ _ _ PP PQ K K').
Qed.

(** ** What one lookup does, given what the lookups inside it do *)
Lemma before_inr self x n m : before self x n = inr m -> top_module self = Some m /\ reserved x = false.
Proof.
  unfold before, reserved, k_super, k_crate. destruct (bytes_eqb x (S_ "super")); [discriminate|].
  destruct (bytes_eqb x (S_ "crate")); [discriminate|]. destruct self as [| it s]; [discriminate|].
  cbn [top_module]. destruct (i_kind it); try discriminate. now intros [= <-].
Qed.
Lemma top_at self m x n : top_module self = Some m -> reserved x = false -> before self x n = inr m.
Proof.
  unfold before, reserved, k_super, k_crate. destruct (bytes_eqb x (S_ "super")); [discriminate|].
  destruct (bytes_eqb x (S_ "crate")); [discriminate|]. destruct self as [| it s]; [discriminate|].
  cbn [top_module]. destruct (i_kind it); try discriminate. now intros [= <-].
Qed.

Definition okay (r : ir) (self : rpath) (x : str) (n : ns) (o : out rpath) : Prop :=
  match o with
  | Found q => place r q /\ may_mean r self x n q
  | Fail NotFound => undeclared r self x n
  | Fail _ => True
  end.
Lemma okay_fail r self x n e : e <> NotFound -> okay r self x n (Fail e).
Proof. now destruct e. Qed.
Lemma before_okay r self x n o : place r self -> before self x n = inl o -> okay r self x n o.
Proof.
  intros P. unfold before, k_super, k_crate.
  destruct (bytes_eqb x (S_ "super")) eqn:E1.
  - apply eqb_eq in E1. intros [= <-]. destruct self as [| a [| b up]].
    + apply okay_fail. intro H. now apply at_not_found in H.
    + apply okay_fail. intro H. now apply at_not_found in H.
    + cbn [tl okay]. split.
      * eapply place_tail; eauto. discriminate.
      * now constructor.
  - destruct (bytes_eqb x (S_ "crate")) eqn:E2.
    + apply eqb_eq in E2. intros [= <-]. destruct (the_root self) as [it |] eqn:R.
      * cbn [okay]. split; [eapply place_root_of; eauto|]. now constructor.
      * apply okay_fail. intro H. now apply at_not_found in H.
    + destruct self as [| it s]; [now apply place_not_nil in P|].
      intro H.
      assert (N : top_module (it :: s) = None) by (cbn; destruct (i_kind it); congruence).
      destruct (i_kind it) eqn:K; try discriminate H; injection H as <-;
      unfold at_; destruct existsb; try exact I; cbn [okay];
      (split; [unfold reserved; now rewrite E1, E2 | intros m C; congruence]).
Qed.

Section Unary.
  Variable r : ir.
  Variable T : Type.
  Variable ask : rpath -> str -> ns -> M T rpath.
  Variable J : T -> Prop.
  Hypothesis H : forall self x n s o s', place r self -> J s -> ask self x n s = Some (o, s') ->
    J s' /\ okay r self x n o.

  Lemma walk_unary l : forall cur n s o s', place r cur -> J s -> walk ask cur l n s = Some (o, s') ->
    J s' /\ (forall q, o = Found q -> place r q /\ may_go r cur l n q).
  Proof.
    induction l as [| x l IH]; intros cur n s o s' P I E; cbn [walk] in E.
    - injection E as <- <-. split; auto. intros q [= <-]. split; auto. constructor.
    - unfold bind in E. destruct (ask cur x (last_ns l n) s) as [[[q|e] s1]|] eqn:A; try discriminate.
      + destruct (H _ _ _ _ _ _ P I A) as [I1 [Q1 Q2]].
        destruct (IH _ _ _ _ _ Q1 I1 E) as [I2 G]. split; auto.
        intros q' E'. destruct (G _ E') as [G1 G2]. split; auto. econstructor; eauto.
      + injection E as <- <-. destruct (H _ _ _ _ _ _ P I A). split; auto. congruence.
  Qed.
  Lemma global_unary self p n s o s' : place r self -> goes_out r self p n -> J s ->
    global r ask self p n s = Some (o, s') ->
    J s' /\ (forall q, o = Found q -> place r q /\ may_refer r self p n q).
  Proof.
    intros P GO I E. unfold global in E. destruct (segs p) as [| x rest] eqn:SG.
    { injection E as <- <-. split; auto. congruence. }
    destruct (udl_at_root r self (x :: rest)) as [[q|]|e] eqn:U.
    - injection E as <- <-. split; auto. intros ? [= <-].
      unfold udl_at_root in U. destruct rest; [|discriminate].
      destruct (the_root self) as [it|] eqn:R; [|discriminate].
      destruct (i_kind it) as [m| | | | | | | | | | | | | |] eqn:K; try discriminate.
      destruct (find (is_udl x) (items_of r m)) as [u|] eqn:F; [|discriminate]. injection U as <-.
      apply find_some in F as [F1 F2]. split.
      + econstructor; eauto. eapply place_root_of; eauto.
      + eapply may_from_udl; eauto.
    - destruct (find_root (roots r) x) as [root|] eqn:F.
      + apply find_root_in in F.
        assert (P' : place r [root]) by (econstructor; eauto).
        destruct (walk_unary _ _ _ _ _ _ P' I E) as [I' G]. split; auto.
        intros q E'. destruct (G _ E') as [G1 G2]. split; auto. eapply may_from_crate; eauto.
      + destruct (std_of (x :: rest)) as [b|] eqn:B; injection E as <- <-; split; auto; [|congruence].
        intros q [= <-]. split; [constructor|]. apply may_be_known; auto. now rewrite SG.
    - injection E as <- <-. split; auto. congruence.
  Qed.
  Lemma resolve_unary self p n s o s' : place r self -> J s -> resolve r ask self p n s = Some (o, s') ->
    J s' /\ (forall q, o = Found q -> place r q /\ may_refer r self p n q).
  Proof.
    intros P I E. unfold resolve in E. destruct (lead p) eqn:L; cbn [orb] in E.
    { apply global_unary in E; auto. intro C. congruence. }
    destruct self as [| it0 s0]; [now apply place_not_nil in P|]. set (self := it0 :: s0) in *.
    destruct (segs p) as [| x rest] eqn:SG.
    { injection E as <- <-. split; auto. congruence. }
    unfold catch in E. destruct (ask self x (last_ns rest n) s) as [[[q|e] s1]|] eqn:A; try discriminate.
    - destruct (H _ _ _ _ _ _ P I A) as [I1 [Q1 Q2]].
      destruct (walk_unary _ _ _ _ _ _ Q1 I1 E) as [I2 G]. split; auto.
      intros q' E'. destruct (G _ E') as [G1 G2]. split; auto. apply may_from_here; auto; [congruence|].
      rewrite SG. econstructor; eauto.
    - destruct (H _ _ _ _ _ _ P I A) as [I1 Q].
      destruct e; try (injection E as <- <-; split; auto; congruence).
      apply global_unary in E; auto. intros _ _ x' rest' E'. rewrite SG in E'. injection E' as <- <-. exact Q.
  Qed.

  Definition decl_of (x : str) (n : ns) (l : list item) : list item :=
    filter (fun it => calls x it && matches n it) l.
  Definition uses_of (x : str) (l : list item) : list path :=
    flat_map (fun it => match i_kind it with KUse p => if bytes_eqb (i_name it) x then [p] else [] | _ => [] end) l.
  Definition stars_of (l : list item) : list path :=
    flat_map (fun it => match i_kind it with KGlob p => [p] | _ => [] end) l.
  Definition upto (self : rpath) (x : str) (n : ns) (pre : list item) (f : found) : Prop :=
    match f with
    | FNone => decl_of x n pre = []
    | FItem it => decl_of x n pre = [it]
    | FUse q => decl_of x n pre = [] /\ place r q /\ is_in n q = true /\
                exists p, In p (uses_of x pre) /\ may_refer r self p n q
    end.
  Lemma decl_app x n a b : decl_of x n (a ++ b) = decl_of x n a ++ decl_of x n b.
  Proof. apply filter_app. Qed.
  Lemma uses_app x a b : uses_of x (a ++ b) = uses_of x a ++ uses_of x b.
  Proof. apply flat_map_app. Qed.
  Lemma upto_skip self x n pre f it : decl_of x n [it] = [] -> upto self x n pre f -> upto self x n (pre ++ [it]) f.
  Proof.
    intros D. destruct f; cbn [upto]; rewrite decl_app, D, app_nil_r; auto.
    intros (A & B & C & p & F & G). repeat split; auto. exists p. rewrite uses_app, in_app_iff. auto.
  Qed.
  Lemma decl_one x n it : decl_of x n [it] = if calls x it && matches n it then [it] else [].
  Proof. reflexivity. Qed.

  Lemma explicit_unary self x n its : forall pre f s o s', place r self -> J s -> upto self x n pre f ->
    explicit r ask self x n its f s = Some (o, s') ->
    J s' /\ o <> Fail NotFound /\ (forall f', o = Found f' -> upto self x n (pre ++ its) f').
  Proof.
    induction its as [| it its IH]; intros pre f s o s' P I F E; cbn [explicit] in E.
    { injection E as <- <-. rewrite app_nil_r. repeat split; auto; congruence. }
    assert (STEP : forall f' s1, J s1 -> upto self x n (pre ++ [it]) f' ->
      explicit r ask self x n its f' s1 = Some (o, s') ->
      J s' /\ o <> Fail NotFound /\ (forall f', o = Found f' -> upto self x n (pre ++ it :: its) f')).
    { intros f' s1 I1 F1 E1. change (it :: its) with ([it] ++ its). rewrite app_assoc. eapply IH; eauto. }
    destruct (ident it) as [y|] eqn:ID.
    - destruct (bytes_eqb y x && matches n it) eqn:B.
      + destruct f; try (injection E as <- <-; repeat split; auto;
          [intros [= C]; now apply at_not_found in C | congruence]).
        eapply STEP; eauto. cbn [upto] in *. rewrite decl_app, F, decl_one. unfold calls. now rewrite ID, B.
      + eapply STEP; eauto. apply upto_skip; auto. rewrite decl_one. unfold calls. now rewrite ID, B.
    - assert (ND : decl_of x n [it] = []) by (rewrite decl_one; unfold calls; now rewrite ID).
      destruct (i_kind it) as [| | | | | | | | | p | | | | |] eqn:K; try exact (STEP _ _ I (upto_skip _ _ _ _ _ _ ND F) E).
      destruct (bytes_eqb (i_name it) x) eqn:B; [|exact (STEP _ _ I (upto_skip _ _ _ _ _ _ ND F) E)].
      destruct (resolve r ask self p n s) as [[[q|e] s1]|] eqn:R; try discriminate.
      + destruct (resolve_unary _ _ _ _ _ _ P I R) as [I1 G].
        destruct (G _ eq_refl) as [G1 G2].
        destruct q as [| i q]; [now apply place_not_nil in G1|].
        destruct (matches n i) eqn:MN; [|exact (STEP _ _ I1 (upto_skip _ _ _ _ _ _ ND F) E)].
        destruct f as [| |q'].
        * eapply STEP; eauto. cbn [upto] in *. rewrite decl_app, F, ND. repeat split; auto.
          exists p. split; auto. rewrite uses_app, in_app_iff. right. cbn. rewrite K, B. now left.
        * injection E as <- <-. repeat split; auto; [intros [= C]; now apply at_not_found in C | congruence].
        * destruct (same q' (i :: q)); [exact (STEP _ _ I1 (upto_skip _ _ _ _ _ _ ND F) E)|].
          injection E as <- <-. repeat split; auto; [intros [= C]; now apply at_not_found in C | congruence].
      + destruct (resolve_unary _ _ _ _ _ _ P I R) as [I1 _].
        destruct e; try exact (STEP _ _ I1 (upto_skip _ _ _ _ _ _ ND F) E);
        injection E as <- <-; repeat split; auto; congruence.
  Qed.
  Lemma globs_unary self x n its : forall f s o s', place r self -> J s ->
    (forall q, f = Some q -> place r q /\ exists p, In p (stars_of its) /\ may_refer r self (within p x) n q \/
       exists p m, top_module self = Some m /\ In p (stars r m) /\ may_refer r self (within p x) n q) ->
    (exists m, top_module self = Some m /\ incl (stars_of its) (stars r m)) ->
    globs r ask self x n its f s = Some (o, s') ->
    J s' /\ o <> Fail NotFound /\
    (forall q, o = Found (Some q) -> place r q /\
       exists p m, top_module self = Some m /\ In p (stars r m) /\ may_refer r self (within p x) n q).
  Proof.
    induction its as [| it its IH]; intros f s o s' P I F (m & TM & IN) E; cbn [globs] in E.
    { injection E as <- <-. repeat split; auto; try congruence.
      - injection H0 as ->. now destruct (F _ eq_refl).
      - injection H0 as ->. destruct (F _ eq_refl) as [_ [p [[[] _] | (p' & m' & F')]]]. eauto. }
    assert (IN' : incl (stars_of its) (stars r m)).
    { intros p' Ip. apply IN. cbn. apply in_or_app. now right. }
    assert (STEP : forall f' s1, J s1 ->
      (forall q, f' = Some q -> place r q /\
         exists p m, top_module self = Some m /\ In p (stars r m) /\ may_refer r self (within p x) n q) ->
      globs r ask self x n its f' s1 = Some (o, s') ->
      J s' /\ o <> Fail NotFound /\
      (forall q, o = Found (Some q) -> place r q /\
         exists p m, top_module self = Some m /\ In p (stars r m) /\ may_refer r self (within p x) n q)).
    { intros f' s1 I1 F1 E1. eapply IH; eauto.
      intros q Eq. destruct (F1 _ Eq) as [A (p & m' & B)]. split; auto. exists p. right. eauto. }
    assert (F0 : forall q, f = Some q -> place r q /\
         exists p m, top_module self = Some m /\ In p (stars r m) /\ may_refer r self (within p x) n q).
    { intros q Eq. destruct (F _ Eq) as [A [p [[B C]|B]]]; split; auto.
      exists p, m. repeat split; auto. }
    destruct (i_kind it) as [| | | | | | | | | | p | | | |] eqn:K; try exact (STEP _ _ I F0 E).
    assert (Ip : In p (stars r m)) by (apply IN; cbn; rewrite K; now left).
    change (Path (lead p) (segs p ++ [x])) with (within p x) in E.
    destruct (resolve r ask self (within p x) n s) as [[[q|e] s1]|] eqn:R; try discriminate.
    - destruct (resolve_unary _ _ _ _ _ _ P I R) as [I1 G]. destruct (G _ eq_refl) as [G1 G2].
      destruct f as [q'|].
      + destruct (same q' q); [exact (STEP _ _ I1 F0 E)|].
        injection E as <- <-. repeat split; auto; try congruence. intros [= C]; now apply at_not_found in C.
      + apply (STEP (Some q) s1 I1); [intros q' [= <-]; split; eauto | exact E].
    - destruct (resolve_unary _ _ _ _ _ _ P I R) as [I1 _].
      destruct e; try exact (STEP _ _ I1 F0 E); injection E as <- <-; repeat split; auto; congruence.
  Qed.

  Lemma all_globs self m x n s o s' : place r self -> J s -> top_module self = Some m ->
    globs r ask self x n (items_of r m) None s = Some (o, s') ->
    J s' /\ o <> Fail NotFound /\
    (forall q, o = Found (Some q) -> place r q /\
       exists p m, top_module self = Some m /\ In p (stars r m) /\ may_refer r self (within p x) n q).
  Proof.
    intros P I TM E. eapply globs_unary; eauto; [congruence|].
    exists m. split; auto. intros ? ?; auto.
  Qed.

  Lemma specials_described m x n : specials r m x n = described r m x n.
  Proof.
    unfold specials, described, declared. induction (items_of r m) as [| it l IH]; cbn [filter]; auto.
    change (named x it) with (calls x it). rewrite IH.
    destruct (calls x it), (matches n it); cbn [andb filter]; destruct (special it); auto.
  Qed.
  Lemma udl_first m x n :
    match match find (is_udl x) (items_of r m) with
          | Some u => if matches n u then Some u else None
          | None => None
          end with
    | Some u => In u (in_udl r m x n) /\ forall v, in_udl r m x n = [v] -> u = v
    | None => in_udl r m x n = []
    end.
  Proof.
    unfold in_udl. induction (items_of r m) as [| it l IH]; cbn [find filter]; auto.
    change (udl_called x it) with (is_udl x it).
    destruct (is_udl x it) eqn:U; cbn [andb].
    - destruct (matches n it) eqn:MN; [split; [now left | congruence]|].
      assert (forall j, In j l -> is_udl x j = true -> matches n j = false).
      { intros j _ Uj. unfold is_udl in *. unfold matches in *.
        destruct (i_kind it); try discriminate. destruct (i_kind j); try discriminate. auto. }
      clear -H0. induction l as [| j l IH]; cbn [filter]; auto.
      change (udl_called x j) with (is_udl x j).
      destruct (is_udl x j) eqn:U; cbn [andb].
      + rewrite (H0 j); auto; [|now left]. apply IH. intros; apply H0; auto; now right.
      + apply IH. intros; apply H0; auto; now right.
    - exact IH.
  Qed.

  Lemma body_unary self m x n s o s' : place r self -> J s -> top_module self = Some m -> reserved x = false ->
    body r ask self m x n s = Some (o, s') -> J s' /\ okay r self x n o.
  Proof.
    intros P I TM RS E. unfold body in E. pose proof (udl_first m x n) as UF.
    assert (APP : forall it, In it (items_of r m) -> place r (it :: self)).
    { intros it Ii. destruct self as [| p self]; [discriminate|]. cbn [top_module] in TM.
      destruct (i_kind p) as [k| | | | | | | | | | | | | |] eqn:K; try discriminate. injection TM as ->.
      econstructor; eauto. }
    destruct (match find (is_udl x) (items_of r m) with
              | Some u => if matches n u then Some u else None | None => None end) as [u|].
    { injection E as <- <-. destruct UF as [UF _]. split; auto. cbn [okay]. split.
      - apply APP. unfold in_udl in UF. now apply filter_In in UF.
      - eapply may_udl; eauto. }
    rewrite specials_described in E.
    destruct (described r m x n) as [| it [| it' l]] eqn:DS.
    3:{ injection E as <- <-. split; auto. apply okay_fail. intro C; now apply at_not_found in C. }
    - unfold bind in E. destruct (explicit r ask self x n (items_of r m) FNone s) as [[[f|e] s1]|] eqn:EX; try discriminate.
      + destruct (explicit_unary self x n (items_of r m) [] FNone s _ _ P I eq_refl EX) as (I1 & _ & G).
        specialize (G _ eq_refl). cbn [app] in G. destruct f as [| it | q].
        * cbn [upto] in G. change (declared r m x n = []) in G.
          destruct (globs r ask self x n (items_of r m) None s1) as [[[g|e] s2]|] eqn:GL; try discriminate.
          -- destruct (all_globs _ _ _ _ _ _ _ P I1 TM GL) as (I2 & _ & G2).
             destruct g as [q|].
             ++ injection E as <- <-. split; auto. cbn [okay]. destruct (G2 _ eq_refl) as [A (p & m' & TM' & B & C)].
                split; auto. rewrite TM in TM'. injection TM' as <-. eapply may_star; eauto.
             ++ injection E as <- <-. split; auto. rewrite (at_module _ _ _ TM). cbn [okay]. split; auto.
                intros m' TM'. rewrite TM in TM'. injection TM' as <-. split; auto.
          -- destruct (all_globs _ _ _ _ _ _ _ P I1 TM GL) as (I2 & NF & _).
             injection E as <- <-. split; auto. apply okay_fail. congruence.
        * injection E as <- <-. split; auto. cbn [okay upto] in *. change (declared r m x n = [it]) in G.
          assert (Ii : In it (declared r m x n)) by (rewrite G; now left).
          unfold declared in Ii. apply filter_In in Ii as [Ii _]. split; auto.
          eapply may_decl; eauto. intros p K.
          assert (In it (described r m x n)).
          { unfold described. apply filter_In. split; [rewrite G; now left|]. unfold special. now rewrite K. }
          rewrite DS in H0. destruct H0.
        * injection E as <- <-. split; auto. cbn [okay upto] in *. destruct G as (A & B & C & p & D & F).
          split; auto. eapply may_use; eauto.
      + destruct (explicit_unary self x n (items_of r m) [] FNone s _ _ P I eq_refl EX) as (I1 & NF & _).
        injection E as <- <-. split; auto. apply okay_fail. congruence.
    - assert (Ii : In it (declared r m x n) /\ special it = true).
      { apply filter_In. change (In it (described r m x n)). rewrite DS. now left. }
      destruct Ii as [Ii Sp]. pose proof Ii as Ii'. unfold declared in Ii'. apply filter_In in Ii' as [Ij _].
      destruct (i_kind it) as [| | | | | | | | | | | p | | |] eqn:K;
      try (injection E as <- <-; split; auto; cbn [okay]; split; auto; eapply may_decl; eauto; congruence).
      destruct (resolve_unary _ _ _ _ _ _ P I E) as [I1 G]. split; auto.
      destruct o as [q|e]; cbn [okay].
      + destruct (G _ eq_refl) as [A B]. split; auto. eapply may_remote; eauto.
      + destruct e; auto. split; auto. intros m' TM'. rewrite TM in TM'. injection TM' as <-. split; auto.
        right. eauto.
  Qed.
End Unary.

(** ** Lookups with a cache are sound *)
Lemma ns_eqb_eq a b : ns_eqb a b = true -> a = b.
Proof. destruct a, b; cbn; congruence. Qed.
Lemma key_eqb_eq a b : key_eqb a b = true -> a = b.
Proof.
  destruct a as [[m x] n], b as [[m' x'] n']. cbn. rewrite !andb_true_iff. intros [[A B] C].
  apply Nat.eqb_eq in A. apply eqb_eq in B. apply ns_eqb_eq in C. now subst.
Qed.
Lemma key_eqb_refl a : key_eqb a a = true.
Proof. destruct a as [[m x] n]. cbn. rewrite Nat.eqb_refl, eqb_refl. now destruct n. Qed.
Lemma known_cons k o l k' : known ((k, o) :: l) k' = if key_eqb k k' then Some o else known l k'.
Proof. reflexivity. Qed.

Lemma top_place r self m : place r self -> top_module self = Some m ->
  exists it s, self = it :: s /\ i_kind it = KModule m.
Proof.
  intros P. destruct self as [| it s]; [discriminate|]. cbn. destruct (i_kind it) eqn:K; try discriminate.
  intros [= <-]. eauto.
Qed.
Lemma place_key r m a b : tree r -> place r a -> place r b -> top_module a = Some m -> top_module b = Some m -> a = b.
Proof.
  intros T P Q A B. destruct (top_place _ _ _ P A) as (i & s & -> & K). destruct (top_place _ _ _ Q B) as (j & t & -> & L).
  eapply place_one; eauto.
Qed.

Definition sound_cache (r : ir) (c : cache) : Prop :=
  forall m x n o self, known (c_known c) (m, x, n) = Some o -> place r self -> top_module self = Some m ->
    okay r self x n o.
Lemma child_sound r : tree r -> forall d self x n c o c', place r self -> sound_cache r c ->
  child r d self x n c = Some (o, c') -> sound_cache r c' /\ okay r self x n o.
Proof.
  intros T d. induction d as [| d IH]; intros self x n c o c' P I E; cbn [child] in E; [discriminate|].
  destruct (before self x n) as [o0 | m] eqn:B.
  { injection E as <- <-. split; auto. eapply before_okay; eauto. }
  apply before_inr in B as [TM RS].
  cbv zeta in E. destruct (existsb (key_eqb (m, x, n)) (c_busy c)) eqn:BU.
  { injection E as <- <-. split; auto. apply okay_fail. intro C; now apply at_not_found in C. }
  destruct (known (c_known c) (m, x, n)) as [o0|] eqn:KN.
  { injection E as <- <-. split; auto. eapply I; eauto. }
  destruct (body r (child r d) self m x n (Cache (c_known c) ((m, x, n) :: c_busy c))) as [[o0 c0]|] eqn:BO; [|discriminate].
  injection E as <- <-.
  assert (I' : sound_cache r (Cache (c_known c) ((m, x, n) :: c_busy c))) by exact I.
  destruct (body_unary r _ (child r d) (sound_cache r) IH self m x n _ _ _ P I' TM RS BO) as [I1 OK].
  split; auto. intros m' x' n' o' self' KN' P' TM'. cbn [c_known] in KN'. rewrite known_cons in KN'.
  destruct (key_eqb (m, x, n) (m', x', n')) eqn:KE; [|eapply I1; eauto].
  apply key_eqb_eq in KE. injection KE as <- <- <-. injection KN' as <-.
  now rewrite (place_key _ _ _ _ T P' P TM' TM).
Qed.
Lemma lookup_sound r d self p n c o c' : tree r -> place r self -> sound_cache r c ->
  lookup r d self p n c = Some (o, c') ->
  sound_cache r c' /\ (forall q, o = Found q -> place r q /\ may_refer r self p n q).
Proof.
  intros T P I E. eapply resolve_unary; eauto. intros. eapply child_sound; eauto.
Qed.
Lemma sound_fresh r : sound_cache r fresh.
Proof. intros ? ? ? ? ? E. discriminate. Qed.
Lemma sound_proof : sound_statement.
Proof.
  intros r d qs os c T. generalize (sound_fresh r). generalize fresh. revert os c.
  induction qs as [| [[self p] n] qs IH]; intros os c c0 I FP E; cbn [session] in E.
  { injection E as <- <-. constructor. }
  destruct (lookup r d self p n c0) as [[o c1]|] eqn:L; [|discriminate].
  destruct (session r d qs c1) as [[os' c2]|] eqn:SS; [|discriminate]. injection E as <- <-.
  assert (P : place r self) by (apply (FP self p n); now left).
  destruct (lookup_sound _ _ _ _ _ _ _ _ T P I L) as [I1 G].
  constructor; [intros i Ei; now apply G|].
  eapply IH; eauto. intros s' p' n' In'. apply (FP s' p' n'). now right.
Qed.

Lemma twice_proof : twice_statement.
Proof.
  intros r d qs os c T FP E. pose proof (sound_proof r d qs os c T FP E) as F.
  clear E. induction F as [| [[self p] n] o qs os A F IH]; constructor.
  - intros m x a b l SG L RS TM U D i Ei. destruct (A i Ei) as [_ R]. clear -SG L RS TM U D R.
    assert (ND : described r m x n <> [] -> declared r m x n <> []).
    { unfold described. destruct (declared r m x n); cbn; congruence. }
    assert (NU : ~ undeclared r self x n).
    { intros [_ V]. destruct (V _ TM) as [_ [V1 | (it & k & V1 & _)]].
      - destruct D as [[_ D] | D]; [congruence|]. apply ND; congruence.
      - destruct D as [[D1 D] | D]; congruence. }
    assert (SN : self <> []) by (now destruct self).
    assert (NO : ~ goes_out r self p n).
    { intro G. apply NU. apply (G L SN x []). exact SG. }
    inversion R; subst; try contradiction.
    rewrite SG in *. inversion H1; subst. clear H1. cbn [ns_of] in *.
    inversion H5; subst; try (now vm_compute in RS); try congruence;
    match goal with H : top_module self = Some ?k |- _ => rewrite TM in H; injection H as <- end.
    + rewrite U in *. contradiction.
    + destruct D as [[D1 D] | D]; match goal with H : _ \/ _ |- _ => destruct H as [? | [? ?]] end; congruence.
    + destruct D as [[D1 D] | D]; congruence.
    + destruct D as [[D1 D] | D]; [congruence | apply ND; congruence].
    + destruct D as [[D1 D] | D]; [congruence | apply ND; congruence].
  - apply IH. intros s' p' n' In'. apply (FP s' p' n'). now right.
Qed.

(** ** Lookups without a cache, and what the cache changes *)
Fixpoint pure (r : ir) (d : nat) (self : rpath) (x : str) (n : ns) : M unit rpath :=
  match d with
  | O => fun _ => None
  | S d =>
      match before self x n with
      | inl o => fun c => Some (o, c)
      | inr m => body r (pure r d) self m x n
      end
  end.
Lemma pure_sound r d : forall self x n c o c', place r self -> True ->
  pure r d self x n c = Some (o, c') -> True /\ okay r self x n o.
Proof.
  induction d as [| d IH]; intros self x n c o c' P _ E; cbn [pure] in E; [discriminate|].
  destruct (before self x n) as [o0 | m] eqn:B.
  { injection E as <- <-. split; auto. eapply before_okay; eauto. }
  apply before_inr in B as [TM RS].
  eapply (body_unary r unit (pure r d) (fun _ => True) IH); eauto.
Qed.

(** More depth changes nothing. *)
Section Extend.
  Variable r : ir.
  Variable T : Type.
  Variables ask1 ask2 : rpath -> str -> ns -> M T rpath.
  Hypothesis H : forall self x n s v, ask1 self x n s = Some v -> ask2 self x n s = Some v.
  Lemma walk_ext l : forall cur n s v, walk ask1 cur l n s = Some v -> walk ask2 cur l n s = Some v.
  Proof.
    induction l as [| x l IH]; intros cur n s v E; cbn [walk] in *; auto.
    unfold bind in *. destruct (ask1 cur x (last_ns l n) s) as [[[q|e] s1]|] eqn:A; try discriminate;
    rewrite (H _ _ _ _ _ A); auto.
  Qed.
  Lemma global_ext self p n s v : global r ask1 self p n s = Some v -> global r ask2 self p n s = Some v.
  Proof.
    unfold global. destruct (segs p) as [| x rest]; auto.
    destruct udl_at_root as [[|]|]; auto. destruct find_root; auto. apply walk_ext.
  Qed.
  Lemma resolve_ext self p n s v : resolve r ask1 self p n s = Some v -> resolve r ask2 self p n s = Some v.
  Proof.
    unfold resolve. destruct (_ || _); [apply global_ext|]. destruct (segs p) as [| x rest]; auto.
    unfold catch. destruct (ask1 self x (last_ns rest n) s) as [[[q|e] s1]|] eqn:A; try discriminate;
    rewrite (H _ _ _ _ _ A); [apply walk_ext|]. destruct e; auto. apply global_ext.
  Qed.
  Lemma explicit_ext self x n its : forall f s v,
    explicit r ask1 self x n its f s = Some v -> explicit r ask2 self x n its f s = Some v.
  Proof.
    induction its as [| it its IH]; intros f s v E; cbn [explicit] in *; auto.
    destruct (ident it); [destruct (_ && _); [destruct f|]; auto|].
    destruct (i_kind it); auto. destruct bytes_eqb; auto.
    destruct (resolve r ask1 self p n s) as [[[q|e] s1]|] eqn:R; try discriminate;
    rewrite (resolve_ext _ _ _ _ _ R).
    - destruct q as [| i q]; auto. destruct matches; auto. destruct f; auto. destruct same; auto.
    - destruct e; auto.
  Qed.
  Lemma globs_ext self x n its : forall f s v,
    globs r ask1 self x n its f s = Some v -> globs r ask2 self x n its f s = Some v.
  Proof.
    induction its as [| it its IH]; intros f s v E; cbn [globs] in *; auto.
    destruct (i_kind it); auto.
    destruct (resolve r ask1 self _ n s) as [[[q|e] s1]|] eqn:R; try discriminate;
    rewrite (resolve_ext _ _ _ _ _ R).
    - destruct f; auto. destruct same; auto.
    - destruct e; auto.
  Qed.
  Lemma body_ext self m x n s v : body r ask1 self m x n s = Some v -> body r ask2 self m x n s = Some v.
  Proof.
    unfold body. destruct (match find _ _ with Some u => _ | None => None end); auto.
    destruct (specials r m x n) as [| it [| ? ?]]; auto.
    - unfold bind. destruct (explicit r ask1 self x n (items_of r m) FNone s) as [[[f|e] s1]|] eqn:E; try discriminate;
      rewrite (explicit_ext _ _ _ _ _ _ _ E); auto. destruct f; auto.
      destruct (globs r ask1 self x n (items_of r m) None s1) as [[[g|e] s2]|] eqn:G; try discriminate;
      rewrite (globs_ext _ _ _ _ _ _ _ G); auto.
    - destruct (i_kind it); auto. apply resolve_ext.
  Qed.
End Extend.
Lemma pure_more r d : forall self x n s v, pure r d self x n s = Some v -> pure r (S d) self x n s = Some v.
Proof.
  induction d as [| d IH]; intros self x n s v E; [discriminate|].
  change (pure r (S (S d)) self x n s) with
    (match before self x n with inl o => fun c => Some (o, c) | inr m => body r (pure r (S d)) self m x n end s).
  cbn [pure] in E. destruct (before self x n); auto. eapply body_ext; eauto.
Qed.
Lemma pure_mono r d e self x n s v : (d <= e)%nat -> pure r d self x n s = Some v -> pure r e self x n s = Some v.
Proof. induction 1; auto. intro E. apply pure_more. auto. Qed.

(** Side by side. *)
Section Binary.
  Variable r : ir.
  Variable T : Type.
  Variable ask1 : rpath -> str -> ns -> M unit rpath.
  Variable ask2 : rpath -> str -> ns -> M T rpath.
  Variable J : T -> Prop.
  Hypothesis H1 : forall self x n s o s', place r self -> True -> ask1 self x n s = Some (o, s') -> True /\ okay r self x n o.
  Hypothesis H2 : forall self x n s o u o' s', place r self -> J s -> ask1 self x n tt = Some (o, u) ->
    ask2 self x n s = Some (o', s') -> o' = o /\ J s'.
  Lemma walk_two l : forall cur n s o u o' s', place r cur -> J s -> walk ask1 cur l n tt = Some (o, u) ->
    walk ask2 cur l n s = Some (o', s') -> o' = o /\ J s'.
  Proof.
    induction l as [| x l IH]; intros cur n s o u o' s' P I E F; cbn [walk] in *.
    { injection E as <- <-. now injection F as <- <-. }
    unfold bind in *. destruct (ask1 cur x (last_ns l n) tt) as [[o1 []]|] eqn:A; [|discriminate].
    destruct (ask2 cur x (last_ns l n) s) as [[o2 s1]|] eqn:B; [|discriminate].
    destruct (H2 _ _ _ _ _ _ _ _ P I A B) as [-> I1]. destruct o1 as [q|e].
    - destruct (H1 _ _ _ _ _ _ P Logic.I A) as [_ [Pq _]]. exact (IH _ _ _ _ _ _ _ Pq I1 E F).
    - injection E as <- <-. now injection F as <- <-.
  Qed.
  Lemma global_two self p n s o u o' s' : place r self -> J s -> global r ask1 self p n tt = Some (o, u) ->
    global r ask2 self p n s = Some (o', s') -> o' = o /\ J s'.
  Proof.
    intros P I E F. unfold global in *. destruct (segs p) as [| x rest].
    { injection E as <- <-. now injection F as <- <-. }
    destruct udl_at_root as [[|]|].
    1,3: injection E as <- <-; now injection F as <- <-.
    destruct (find_root (roots r) x) as [root|] eqn:FR.
    - refine (walk_two _ _ _ _ _ _ _ _ _ I E F). apply find_root_in in FR. econstructor; eauto.
    - destruct std_of; injection E as <- <-; now injection F as <- <-.
  Qed.
  Lemma resolve_two self p n s o u o' s' : place r self -> J s -> resolve r ask1 self p n tt = Some (o, u) ->
    resolve r ask2 self p n s = Some (o', s') -> o' = o /\ J s'.
  Proof.
    intros P I E F. unfold resolve in *. destruct (_ || _); [eapply global_two; eauto|].
    destruct (segs p) as [| x rest].
    { injection E as <- <-. now injection F as <- <-. }
    unfold catch in *. destruct (ask1 self x (last_ns rest n) tt) as [[o1 []]|] eqn:A; [|discriminate].
    destruct (ask2 self x (last_ns rest n) s) as [[o2 s1]|] eqn:B; [|discriminate].
    destruct (H2 _ _ _ _ _ _ _ _ P I A B) as [-> I1]. destruct o1 as [q|e].
    - destruct (H1 _ _ _ _ _ _ P Logic.I A) as [_ [Pq _]]. exact (walk_two _ _ _ _ _ _ _ _ Pq I1 E F).
    - destruct e; try (injection E as <- <-; now injection F as <- <-). eapply global_two; eauto.
  Qed.
  Lemma explicit_two self x n its : forall f s o u o' s', place r self -> J s ->
    explicit r ask1 self x n its f tt = Some (o, u) -> explicit r ask2 self x n its f s = Some (o', s') ->
    o' = o /\ J s'.
  Proof.
    induction its as [| it its IH]; intros f s o u o' s' P I E F; cbn [explicit] in *.
    { injection E as <- <-. now injection F as <- <-. }
    destruct (ident it).
    { destruct (_ && _); [|eapply IH; eauto]. destruct f; [eapply IH; eauto| |];
      injection E as <- <-; now injection F as <- <-. }
    destruct (i_kind it); try (eapply IH; eauto; fail). destruct bytes_eqb; [|eapply IH; eauto].
    destruct (resolve r ask1 self p n tt) as [[o1 []]|] eqn:A; [|discriminate].
    destruct (resolve r ask2 self p n s) as [[o2 s1]|] eqn:B; [|destruct o1 as [|[]]; discriminate].
    destruct (resolve_two _ _ _ _ _ _ _ _ P I A B) as [-> I1]. destruct o1 as [q|e].
    - destruct q as [| i q].
      { injection E as <- <-. now injection F as <- <-. }
      destruct matches; [|eapply IH; eauto].
      destruct f; [eapply IH; eauto | |].
      { injection E as <- <-. now injection F as <- <-. }
      destruct same; [eapply IH; eauto|]. injection E as <- <-. now injection F as <- <-.
    - destruct e; try (eapply IH; eauto; fail); injection E as <- <-; now injection F as <- <-.
  Qed.
  Lemma globs_two self x n its : forall f s o u o' s', place r self -> J s ->
    globs r ask1 self x n its f tt = Some (o, u) -> globs r ask2 self x n its f s = Some (o', s') ->
    o' = o /\ J s'.
  Proof.
    induction its as [| it its IH]; intros f s o u o' s' P I E F; cbn [globs] in *.
    { injection E as <- <-. now injection F as <- <-. }
    destruct (i_kind it); try (eapply IH; eauto; fail).
    destruct (resolve r ask1 self _ n tt) as [[o1 []]|] eqn:A; [|discriminate].
    destruct (resolve r ask2 self _ n s) as [[o2 s1]|] eqn:B; [|destruct o1 as [|[]]; discriminate].
    destruct (resolve_two _ _ _ _ _ _ _ _ P I A B) as [-> I1]. destruct o1 as [q|e].
    - destruct f; [|eapply IH; eauto]. destruct same; [eapply IH; eauto|].
      injection E as <- <-. now injection F as <- <-.
    - destruct e; try (eapply IH; eauto; fail); injection E as <- <-; now injection F as <- <-.
  Qed.
  Lemma body_two self m x n s o u o' s' : place r self -> J s -> body r ask1 self m x n tt = Some (o, u) ->
    body r ask2 self m x n s = Some (o', s') -> o' = o /\ J s'.
  Proof.
    intros P I E F. unfold body in *. destruct (match find _ _ with Some u => _ | None => None end).
    { injection E as <- <-. now injection F as <- <-. }
    destruct (specials r m x n) as [| it [| ? ?]].
    - unfold bind in *.
      destruct (explicit r ask1 self x n (items_of r m) FNone tt) as [[f1 []]|] eqn:A; [|discriminate].
      destruct (explicit r ask2 self x n (items_of r m) FNone s) as [[f2 s1]|] eqn:B; [|discriminate].
      destruct (explicit_two _ _ _ _ _ _ _ _ _ _ P I A B) as [-> I1]. destruct f1 as [f|e].
      + destruct f; try (injection E as <- <-; now injection F as <- <-).
        destruct (globs r ask1 self x n (items_of r m) None tt) as [[g1 []]|] eqn:C; [|discriminate].
        destruct (globs r ask2 self x n (items_of r m) None s1) as [[g2 s2]|] eqn:D; [|discriminate].
        destruct (globs_two _ _ _ _ _ _ _ _ _ _ P I1 C D) as [-> I2].
        destruct g1 as [[|]|]; injection E as <- <-; now injection F as <- <-.
      + injection E as <- <-. now injection F as <- <-.
    - destruct (i_kind it); try (injection E as <- <-; now injection F as <- <-). eapply resolve_two; eauto.
    - injection E as <- <-. now injection F as <- <-.
  Qed.
End Binary.

Definition exact_cache (r : ir) (E : nat) (c : cache) : Prop :=
  forall m x n o self, known (c_known c) (m, x, n) = Some o -> place r self -> top_module self = Some m ->
    forall o1 u, pure r E self x n tt = Some (o1, u) -> o = o1.
Definition high (r : ir) (E : nat) (busy : list key) (self : rpath) (x : str) (n : ns) : Prop :=
  forall m' x' n' self' e, In (m', x', n') busy -> place r self' -> top_module self' = Some m' -> (e <= E)%nat ->
    pure r e self' x' n' tt <> None -> exists e', (e' < e)%nat /\ pure r e' self x n tt <> None.

Lemma least r self x n E : pure r E self x n tt <> None ->
  exists e, (e <= E)%nat /\ pure r e self x n tt <> None /\ forall e', (e' < e)%nat -> pure r e' self x n tt = None.
Proof.
  induction E as [| E IH]; intro N; [now cbn in N|].
  destruct (pure r E self x n tt) as [v|] eqn:P.
  - destruct IH as (e & A & B & C); [congruence|]. exists e. repeat split; auto.
  - exists (S E). repeat split; auto. intros e' L.
    destruct (pure r e' self x n tt) as [w|] eqn:Q; auto.
    rewrite (pure_mono r e' E self x n tt w) in P; [discriminate | lia | auto].
Qed.
Lemma pure_none_below r e E self x n : (e <= E)%nat -> pure r E self x n tt = None -> pure r e self x n tt = None.
Proof.
  intros L N. destruct (pure r e self x n tt) as [w|] eqn:Q; auto.
  rewrite (pure_mono r e E self x n tt w) in N; [discriminate | auto | auto].
Qed.
Lemma filter_not_key k l : existsb (key_eqb k) l = false -> filter (fun k' => negb (key_eqb k k')) l = l.
Proof.
  induction l as [| a l IH]; cbn; auto. destruct (key_eqb k a); [discriminate|]. cbn. intro H. now rewrite IH.
Qed.
Lemma existsb_key k l : existsb (key_eqb k) l = true -> In k l.
Proof. intro H. apply existsb_exists in H as (k' & I & E). apply key_eqb_eq in E. now subst. Qed.

Lemma child_exact r E : tree r -> forall d self x n c o' c', place r self ->
  sound_cache r c -> exact_cache r E c -> high r E (c_busy c) self x n ->
  child r d self x n c = Some (o', c') ->
  exact_cache r E c' /\ c_busy c' = c_busy c /\ (forall o u, pure r E self x n tt = Some (o, u) -> o' = o).
Proof.
  intros T d. induction d as [| d IH]; intros self x n c o' c' P SC EC HI CH; [discriminate|].
  cbn [child] in CH. destruct (before self x n) as [o0 | m] eqn:B.
  { injection CH as <- <-. repeat split; auto. intros o u PU. destruct E as [| E]; [discriminate|].
    cbn [pure] in PU. rewrite B in PU. congruence. }
  pose proof (before_inr _ _ _ _ B) as [TM RS].
  cbv zeta in CH. destruct (existsb (key_eqb (m, x, n)) (c_busy c)) eqn:BU.
  { injection CH as <- <-. repeat split; auto. intros o u PU. exfalso.
    apply existsb_key in BU.
    assert (NO : forall e, (e <= E)%nat -> pure r e self x n tt = None).
    { intro e. induction e as [e IHe] using lt_wf_ind. intro L.
      destruct (pure r e self x n tt) as [w|] eqn:Q; auto.
      destruct (HI m x n self e BU P TM L) as (e' & L' & N'); [congruence|].
      elim N'. apply IHe; lia. }
    rewrite (NO E) in PU; [discriminate | lia]. }
  destruct (known (c_known c) (m, x, n)) as [o0|] eqn:KN.
  { injection CH as <- <-. repeat split; auto. intros o u PU. eapply EC; eauto. }
  set (c1 := Cache (c_known c) ((m, x, n) :: c_busy c)) in *.
  destruct (body r (child r d) self m x n c1) as [[o0 c0]|] eqn:BO; [|discriminate].
  injection CH as <- <-.
  assert (SC1 : sound_cache r c1) by exact SC.
  assert (EC1 : exact_cache r E c1) by exact EC.
  set (J := fun s : cache => (sound_cache r s /\ exact_cache r E s) /\ c_busy s = (m, x, n) :: c_busy c).
  assert (R : J c0 /\ (forall o u, pure r E self x n tt = Some (o, u) -> o0 = o)).
  { destruct (pure r E self x n tt) as [[o u]|] eqn:PU.
    - (* in step with the lookup without a cache *)
      destruct (least r self x n E) as (e & LE & NE & ME); [congruence|].
      destruct e as [| e]; [now cbn in NE|].
      destruct (pure r (S e) self x n tt) as [[o1 u1]|] eqn:PE; [|congruence].
      pose proof (pure_mono _ _ _ _ _ _ _ _ LE PE) as PE'. rewrite PU in PE'. injection PE' as <- <-.
      cbn [pure] in PE. rewrite B in PE.
      assert (HH : forall self2 x2 n2, pure r e self2 x2 n2 tt <> None ->
                high r E ((m, x, n) :: c_busy c) self2 x2 n2).
      { intros self2 x2 n2 N2 m' x' n' self' e1 [K | K] P' TM' L1 N1.
        - injection K as <- <- <-. rewrite (place_key _ _ _ _ T P' P TM' TM) in N1.
          exists e. split; auto. destruct (Nat.le_gt_cases (S e) e1) as [C | C]; [lia|].
          rewrite (ME e1 C) in N1. congruence.
        - destruct (HI _ _ _ _ _ K P' TM' L1 N1) as (e2 & L2 & N2').
          exists e. split; auto. destruct (Nat.le_gt_cases (S e) e2) as [C | C]; [lia|].
          rewrite (ME e2 C) in N2'. congruence. }
      destruct (body_two r cache (pure r e) (child r d) J (pure_sound r e)) with
        (self := self) (m := m) (x := x) (n := n) (s := c1) (o := o) (u := u) (o' := o0) (s' := c0) as [-> J0]; auto.
      + intros self2 x2 n2 s o2 u2 o2' s' P2 ((S2 & E2) & B2) A1 A2.
        assert (H2 : high r E (c_busy s) self2 x2 n2) by (rewrite B2; apply HH; congruence).
        destruct (IH _ _ _ _ _ _ P2 S2 E2 H2 A2) as (X1 & X2 & X3).
        destruct (child_sound r T _ _ _ _ _ _ _ P2 S2 A2) as [X4 _].
        split.
        * eapply X3. eapply pure_mono; [|exact A1]. lia.
        * repeat split; auto. congruence.
      + repeat split; auto.
      + split; auto. congruence.
    - (* the lookup without a cache does not end: nothing to keep in step with *)
      assert (HH : forall self2 x2 n2, high r E ((m, x, n) :: c_busy c) self2 x2 n2).
      { intros self2 x2 n2 m' x' n' self' e1 [K | K] P' TM' L1 N1; exfalso.
        - injection K as <- <- <-. rewrite (place_key _ _ _ _ T P' P TM' TM) in N1.
          apply N1. eapply pure_none_below; eauto.
        - destruct (HI _ _ _ _ _ K P' TM' L1 N1) as (e2 & L2 & N2').
          apply N2'. eapply pure_none_below; [|exact PU]. lia. }
      split; [|discriminate].
      assert (J1 : J c1) by (repeat split; auto).
      refine (proj1 (body_unary r cache (child r d) J _ self m x n c1 o0 c0 P J1 TM RS BO)).
      intros self2 x2 n2 s o2 s' P2 ((S2 & E2) & B2) A2.
      destruct (child_sound r T _ _ _ _ _ _ _ P2 S2 A2) as [X4 X5]. split; auto.
      assert (H2 : high r E (c_busy s) self2 x2 n2) by (rewrite B2; apply HH).
      destruct (IH _ _ _ _ _ _ P2 S2 E2 H2 A2) as (X1 & X2 & X3).
      repeat split; auto. congruence. }
  destruct R as [((S0 & E0) & B0) R].
  assert (EQ : exact_cache r E (Cache (((m, x, n), o0) :: c_known c0)
                 (filter (fun k' => negb (key_eqb (m, x, n) k')) (c_busy c0)))).
  { intros m' x' n' o self' KN' P' TM' o1 u1 PU. cbn [c_known] in KN'. rewrite known_cons in KN'.
    destruct (key_eqb (m, x, n) (m', x', n')) eqn:KE; [|eapply E0; eauto].
    apply key_eqb_eq in KE. injection KE as <- <- <-. injection KN' as <-.
    rewrite (place_key _ _ _ _ T P' P TM' TM) in PU. eauto. }
  assert (BQ : filter (fun k' => negb (key_eqb (m, x, n) k')) (c_busy c0) = c_busy c).
  { rewrite B0. generalize dependent (m, x, n). intros k **. cbn [filter]. rewrite key_eqb_refl. cbn [negb].
    now apply filter_not_key. }
  split; [exact EQ | split; [exact BQ | exact R]].
Qed.

Lemma lookup_exact r E d self p n c o' c' : tree r -> place r self ->
  sound_cache r c -> exact_cache r E c -> c_busy c = [] -> lookup r d self p n c = Some (o', c') ->
  (exact_cache r E c' /\ c_busy c' = []) /\ (forall o u, resolve r (pure r E) self p n tt = Some (o, u) -> o' = o).
Proof.
  intros T P SC EC BU L. unfold lookup in L.
  set (J := fun s : cache => (sound_cache r s /\ exact_cache r E s) /\ c_busy s = []).
  assert (HI : forall s self2 x2 n2, c_busy s = [] -> high r E (c_busy s) self2 x2 n2).
  { intros s self2 x2 n2 -> ? ? ? ? ? []. }
  assert (J0 : J c) by (repeat split; auto).
  split.
  - destruct (resolve_unary r cache (child r d) J) with (self := self) (p := p) (n := n) (s := c) (o := o') (s' := c')
      as [((_ & X) & Y) _]; auto.
    intros self2 x2 n2 s o2 s' P2 ((S2 & E2) & B2) A2.
    destruct (child_sound r T _ _ _ _ _ _ _ P2 S2 A2) as [X4 X5]. split; auto.
    destruct (child_exact r E T _ _ _ _ _ _ _ P2 S2 E2 (HI _ _ _ _ B2) A2) as (X1 & X2 & X3).
    repeat split; auto. congruence.
  - intros o u RP.
    destruct (resolve_two r cache (pure r E) (child r d) J (pure_sound r E)) with
      (self := self) (p := p) (n := n) (s := c) (o := o) (u := u) (o' := o') (s' := c') as [-> _]; auto.
    intros self2 x2 n2 s o2 u2 o2' s' P2 ((S2 & E2) & B2) A1 A2.
    destruct (child_exact r E T _ _ _ _ _ _ _ P2 S2 E2 (HI _ _ _ _ B2) A2) as (X1 & X2 & X3).
    destruct (child_sound r T _ _ _ _ _ _ _ P2 S2 A2) as [X4 _].
    split; [eapply X3; eauto | repeat split; auto; congruence].
Qed.
Lemma session_exact r E d : tree r -> forall qs os c c0, from_places r qs ->
  sound_cache r c0 -> exact_cache r E c0 -> c_busy c0 = [] -> session r d qs c0 = Some (os, c) ->
  Forall2 (fun (q : query) o => match q with (self, p, n) =>
     forall o1 u, resolve r (pure r E) self p n tt = Some (o1, u) -> o = o1 end) qs os.
Proof.
  intros T qs. induction qs as [| [[self p] n] qs IH]; intros os c c0 FP SC EC BU SS; cbn [session] in SS.
  { injection SS as <- <-. constructor. }
  destruct (lookup r d self p n c0) as [[o c1]|] eqn:L; [|discriminate].
  destruct (session r d qs c1) as [[os' c2]|] eqn:S2; [|discriminate]. injection SS as <- <-.
  assert (P : place r self) by (apply (FP self p n); now left).
  destruct (lookup_sound _ _ _ _ _ _ _ _ T P SC L) as [SC1 _].
  destruct (lookup_exact _ E _ _ _ _ _ _ _ T P SC EC BU L) as [[EC1 BU1] X].
  constructor; auto. eapply IH; eauto. intros s' p' n' In'. apply (FP s' p' n'). now right.
Qed.

(** ** Meanings are found without a cache *)
Section Runs.
  Variable r : ir.
  Variable ask : rpath -> str -> ns -> M unit rpath.
  Variable keep : rpath -> bool.
  Fixpoint runs (self : rpath) (n : ns) (ps : list path) : option (list rpath) :=
    match ps with
    | [] => Some []
    | p :: ps =>
        match resolve r ask self p n tt with
        | Some (Fail NotFound, _) => runs self n ps
        | Some (Found [], _) => None
        | Some (Found q, _) => match runs self n ps with Some l => Some (if keep q then q :: l else l) | None => None end
        | _ => None
        end
    end.
End Runs.
Lemma calls_ident x n it : decl_of x n [it] = [] -> ident it <> None ->
  exists y, ident it = Some y /\ bytes_eqb y x && matches n it = false.
Proof.
  rewrite decl_one. unfold calls. destruct (ident it) as [y|]; [|congruence].
  destruct (bytes_eqb y x && matches n it) eqn:B; [discriminate|]. eauto.
Qed.
Lemma uses_named x it : ident it <> None -> uses_of x [it] = [].
Proof. unfold ident, uses_of. cbn [flat_map]. intro H. destruct (i_kind it); auto. now elim H. Qed.
Lemma decl_cons x n it its : decl_of x n (it :: its) = decl_of x n [it] ++ decl_of x n its.
Proof. unfold decl_of. cbn. destruct (_ && _); reflexivity. Qed.
Lemma uses_cons x it its : uses_of x (it :: its) = uses_of x [it] ++ uses_of x its.
Proof. unfold uses_of. cbn. now rewrite app_nil_r. Qed.

Lemma explicit_use r ask self x n its : forall q0 l,
  decl_of x n its = [] -> runs r ask (is_in n) self n (uses_of x its) = Some l ->
  (forall q, In q l -> same q0 q = true) ->
  explicit r ask self x n its (FUse q0) tt = Some (Found (FUse q0), tt).
Proof.
  induction its as [| it its IH]; intros q0 l D R A; cbn [explicit]; auto.
  rewrite decl_cons in D. apply app_eq_nil in D as [D1 D2]. rewrite uses_cons in R.
  destruct (ident it) as [y|] eqn:ID.
  - destruct (calls_ident x n it D1) as (y' & E & B); [congruence|].
    rewrite ID in E. injection E as <-. rewrite B. rewrite uses_named in R by congruence. eauto.
  - unfold uses_of in R at 1. cbn [flat_map] in R.
    destruct (i_kind it) as [| | | | | | | | | p | | | | |] eqn:K; cbn [app] in R; eauto.
    destruct (bytes_eqb (i_name it) x) eqn:B; cbn [app] in R; eauto.
    cbn [runs] in R. destruct (resolve r ask self p n tt) as [[[q|e] []]|] eqn:RP; try discriminate.
    + destruct q as [| i q]; [discriminate|].
      destruct (runs r ask (is_in n) self n (uses_of x its)) as [l'|] eqn:RS; [|discriminate].
      injection R as <-. cbn [is_in] in *. destruct (matches n i).
      * rewrite (A (i :: q)) by now left. apply (IH q0 l'); auto. intros q' I'. apply A. now right.
      * apply (IH q0 l'); auto.
    + destruct e; try discriminate. eauto.
Qed.
Lemma explicit_none r ask self x n its : forall f,
  decl_of x n its = [] -> runs r ask (is_in n) self n (uses_of x its) = Some [] ->
  explicit r ask self x n its f tt = Some (Found f, tt).
Proof.
  induction its as [| it its IH]; intros f D R; cbn [explicit]; auto.
  rewrite decl_cons in D. apply app_eq_nil in D as [D1 D2]. rewrite uses_cons in R.
  destruct (ident it) as [y|] eqn:ID.
  - destruct (calls_ident x n it D1) as (y' & E & B); [congruence|].
    rewrite ID in E. injection E as <-. rewrite B. rewrite uses_named in R by congruence. eauto.
  - unfold uses_of in R at 1. cbn [flat_map] in R.
    destruct (i_kind it) as [| | | | | | | | | p | | | | |] eqn:K; cbn [app] in R; eauto.
    destruct (bytes_eqb (i_name it) x) eqn:B; cbn [app] in R; eauto.
    cbn [runs] in R. destruct (resolve r ask self p n tt) as [[[q|e] []]|] eqn:RP; try discriminate.
    + destruct q as [| i q]; [discriminate|].
      destruct (runs r ask (is_in n) self n (uses_of x its)) as [l'|] eqn:RS; [|discriminate].
      cbn [is_in] in *. destruct (matches n i); [discriminate|]. injection R as ->. auto.
    + destruct e; try discriminate. eauto.
Qed.
Lemma explicit_item r ask self x n its : forall j,
  decl_of x n its = [j] -> runs r ask (is_in n) self n (uses_of x its) = Some [] ->
  explicit r ask self x n its FNone tt = Some (Found (FItem j), tt).
Proof.
  induction its as [| it its IH]; intros j D R; cbn [explicit]; [discriminate|].
  rewrite decl_cons in D. rewrite uses_cons in R.
  destruct (ident it) as [y|] eqn:ID.
  - rewrite uses_named in R by congruence. cbn [app] in R.
    rewrite decl_one in D. unfold calls in D. rewrite ID in D.
    destruct (bytes_eqb y x && matches n it); cbn [app] in D; eauto.
    injection D as <- D. apply explicit_none; auto.
  - rewrite decl_one in D. unfold calls in D. rewrite ID in D. cbn [andb app] in D.
    unfold uses_of in R at 1. cbn [flat_map] in R.
    destruct (i_kind it) as [| | | | | | | | | p | | | | |] eqn:K; cbn [app] in R; eauto.
    destruct (bytes_eqb (i_name it) x) eqn:B; cbn [app] in R; eauto.
    cbn [runs] in R. destruct (resolve r ask self p n tt) as [[[q|e] []]|] eqn:RP; try discriminate.
    + destruct q as [| i q]; [discriminate|].
      destruct (runs r ask (is_in n) self n (uses_of x its)) as [l'|] eqn:RS; [|discriminate].
      cbn [is_in] in *. destruct (matches n i); [discriminate|]. injection R as ->. auto.
    + destruct e; try discriminate. eauto.
Qed.
Lemma explicit_first r ask self x n its : forall q0 l,
  decl_of x n its = [] -> runs r ask (is_in n) self n (uses_of x its) = Some (q0 :: l) ->
  (forall q, In q l -> same q0 q = true) ->
  explicit r ask self x n its FNone tt = Some (Found (FUse q0), tt).
Proof.
  induction its as [| it its IH]; intros q0 l D R A; cbn [explicit]; [discriminate|].
  rewrite decl_cons in D. apply app_eq_nil in D as [D1 D2]. rewrite uses_cons in R.
  destruct (ident it) as [y|] eqn:ID.
  - destruct (calls_ident x n it D1) as (y' & E & B); [congruence|].
    rewrite ID in E. injection E as <-. rewrite B. rewrite uses_named in R by congruence. eauto.
  - unfold uses_of in R at 1. cbn [flat_map] in R.
    destruct (i_kind it) as [| | | | | | | | | p | | | | |] eqn:K; cbn [app] in R; eauto.
    destruct (bytes_eqb (i_name it) x) eqn:B; cbn [app] in R; eauto.
    cbn [runs] in R. destruct (resolve r ask self p n tt) as [[[q|e] []]|] eqn:RP; try discriminate.
    + destruct q as [| i q]; [discriminate|].
      destruct (runs r ask (is_in n) self n (uses_of x its)) as [l'|] eqn:RS; [|discriminate].
      cbn [is_in] in *. destruct (matches n i).
      * injection R as <- <-. eapply explicit_use; eauto.
      * injection R as ->. eauto.
    + destruct e; try discriminate. eauto.
Qed.
Lemma stars_cons it its : stars_of (it :: its) = stars_of [it] ++ stars_of its.
Proof. unfold stars_of. cbn. now rewrite app_nil_r. Qed.
Definition anything (q : rpath) : bool := true.
Lemma globs_same r ask self x n its : forall q0 l,
  runs r ask anything self n (map (fun p => within p x) (stars_of its)) = Some l ->
  (forall q, In q l -> same q0 q = true) ->
  globs r ask self x n its (Some q0) tt = Some (Found (Some q0), tt).
Proof.
  induction its as [| it its IH]; intros q0 l R A; cbn [globs]; auto.
  rewrite stars_cons, map_app in R. unfold stars_of in R at 1. cbn [flat_map] in R.
  destruct (i_kind it) as [| | | | | | | | | | p | | | |] eqn:K; cbn [app map] in R; eauto.
  cbn [runs] in R. change (Path (lead p) (segs p ++ [x])) with (within p x).
  destruct (resolve r ask self (within p x) n tt) as [[[q|e] []]|] eqn:RP; try discriminate.
  - destruct q as [| i q]; [discriminate|].
    destruct (runs r ask anything self n (map (fun p => within p x) (stars_of its))) as [l'|] eqn:RS; [|discriminate].
    cbn [anything] in R. injection R as <-. rewrite (A (i :: q)) by now left.
    apply (IH q0 l'); auto. intros q' I'. apply A. now right.
  - destruct e; try discriminate. eauto.
Qed.
Lemma globs_first r ask self x n its : forall l,
  runs r ask anything self n (map (fun p => within p x) (stars_of its)) = Some l ->
  (forall q0 q, hd_error l = Some q0 -> In q (tl l) -> same q0 q = true) ->
  globs r ask self x n its None tt = Some (Found (hd_error l), tt).
Proof.
  induction its as [| it its IH]; intros l R A; cbn [globs].
  { injection R as <-. reflexivity. }
  rewrite stars_cons, map_app in R. unfold stars_of in R at 1. cbn [flat_map] in R.
  destruct (i_kind it) as [| | | | | | | | | | p | | | |] eqn:K; cbn [app map] in R; eauto.
  cbn [runs] in R. change (Path (lead p) (segs p ++ [x])) with (within p x).
  destruct (resolve r ask self (within p x) n tt) as [[[q|e] []]|] eqn:RP; try discriminate.
  - destruct q as [| i q]; [discriminate|].
    destruct (runs r ask anything self n (map (fun p => within p x) (stars_of its))) as [l'|] eqn:RS; [|discriminate].
    cbn [anything] in R. injection R as <-. cbn [hd_error].
    apply (globs_same _ _ _ _ _ _ _ l'); auto.
  - destruct e; try discriminate. eauto.
Qed.
Lemma one_same q l : one_item (q :: l) -> forall q', In q' l -> same q q' = true.
Proof.
  intros O q' I'. destruct (O q q') as (i & j & s & t & -> & -> & E); [now left | now right|]. exact E.
Qed.

Scheme means_i := Induction for means Sort Prop
  with used_i := Induction for used Sort Prop
  with starred_i := Induction for starred Sort Prop
  with refers_i := Induction for refers Sort Prop
  with goes_i := Induction for goes Sort Prop
  with outside_i := Induction for outside Sort Prop.
Combined Scheme meaning_i from means_i, used_i, starred_i, refers_i, goes_i, outside_i.

Definition ev (P : nat -> Prop) : Prop := exists e, forall e', (e <= e')%nat -> P e'.
Lemma ev_now (P : nat -> Prop) : (forall e, P (S e)) -> ev P.
Proof. intro H. exists 1%nat. intros [| e'] L; [lia|]. apply H. Qed.
Lemma ev_and (P Q R : nat -> Prop) : ev P -> ev Q -> (forall e, P e -> Q e -> R e) -> ev R.
Proof.
  intros [a A] [b B] H. exists (a + b)%nat. intros e' L. apply H; [apply A | apply B]; lia.
Qed.
Lemma ev_map (P Q : nat -> Prop) : ev P -> (forall e, P e -> Q e) -> ev Q.
Proof. intros [a A] H. exists a. auto. Qed.
Lemma ev_step (P Q : nat -> Prop) : ev P -> (forall e, P e -> Q (S e)) -> ev Q.
Proof. intros [a A] H. exists (S a). intros [| e'] L; [lia|]. apply H. apply A. lia. Qed.
Lemma ev_some (P : nat -> Prop) : ev P -> exists e, P e.
Proof. intros [a A]. exists a. auto. Qed.

Lemma means_not_nil r x n o : ~ means r [] x n o.
Proof. intro H. inversion H; subst; try discriminate. Qed.
Lemma crate_root_eq self : crate_of self = the_root self.
Proof. reflexivity. Qed.
Lemma find_filter {A} (f : A -> bool) l : find f l = hd_error (filter f l).
Proof. induction l as [| a l IH]; cbn; auto. destruct (f a); auto. Qed.
Lemma udl_none r m x n : in_udl r m x n = [] ->
  match find (is_udl x) (items_of r m) with
  | Some u => if matches n u then Some u else None
  | None => None
  end = None.
Proof.
  intro U. pose proof (udl_first r m x n) as F.
  destruct (match find _ _ with Some u => _ | None => None end); auto. destruct F as [F _]. rewrite U in F. destruct F.
Qed.
Lemma udl_some r m x n u : in_udl r m x n = [u] ->
  match find (is_udl x) (items_of r m) with
  | Some u => if matches n u then Some u else None
  | None => None
  end = Some u.
Proof.
  intro U. pose proof (udl_first r m x n) as F.
  destruct (match find _ _ with Some u => _ | None => None end).
  - destruct F as [_ F]. now rewrite (F _ U).
  - congruence.
Qed.
Lemma declared_described r m x n : declared r m x n = [] -> described r m x n = [].
Proof. unfold described. now intros ->. Qed.

Lemma meaning_found r :
  (forall self x n o, means r self x n o -> place r self ->
     ev (fun e => pure r e self x n tt = Some (answer o, tt))) /\
  (forall self n ps l, used r self n ps l -> place r self ->
     ev (fun e => runs r (pure r e) (is_in n) self n ps = Some l)) /\
  (forall self x n ps l, starred r self x n ps l -> place r self ->
     ev (fun e => runs r (pure r e) anything self n (map (fun p => within p x) ps) = Some l)) /\
  (forall self p n o, refers r self p n o -> place r self ->
     ev (fun e => resolve r (pure r e) self p n tt = Some (answer o, tt))) /\
  (forall q l n o, goes r q l n o -> place r q ->
     ev (fun e => walk (pure r e) q l n tt = Some (answer o, tt))) /\
  (forall self p n o, outside r self p n o -> place r self ->
     ev (fun e => global r (pure r e) self p n tt = Some (answer o, tt))).
Proof.
  assert (FOUND : forall self x n q, place r self -> ev (fun e => pure r e self x n tt = Some (Found q, tt)) -> place r q).
  { intros self x n q P EV. destruct (ev_some _ EV) as [e E].
    now destruct (pure_sound r e self x n tt _ _ P Logic.I E) as [_ [? _]]. }
  assert (RFOUND : forall self p n q, place r self -> ev (fun e => resolve r (pure r e) self p n tt = Some (Found q, tt)) -> place r q).
  { intros self p n q P EV. destruct (ev_some _ EV) as [e E].
    destruct (resolve_unary r unit (pure r e) (fun _ => True) (pure_sound r e) self p n tt _ _ P Logic.I E) as [_ G].
    now destruct (G _ eq_refl). }
  assert (KEY : forall self m x n o, top_module self = Some m -> reserved x = false ->
    ev (fun e => body r (pure r e) self m x n tt = Some (answer o, tt)) ->
    ev (fun e => pure r e self x n tt = Some (answer o, tt))).
  { intros self m x n o TM RS EV. refine (ev_step _ _ EV _). intros e E. cbn [pure].
    now rewrite (top_at self m x n TM RS). }
  apply meaning_i.
  - (* super *) intros it up x n X N P. apply ev_now. intro e. cbn [pure]. unfold before, k_super. rewrite X, eqb_refl.
    destruct up; [congruence|]. reflexivity.
  - (* crate *) intros self x n it X C P. apply ev_now. intro e. cbn [pure]. unfold before, k_super, k_crate.
    rewrite X. change (bytes_eqb (S_ "crate") (S_ "super")) with false. cbn iota. rewrite eqb_refl.
    now rewrite <- crate_root_eq, C.
  - (* leaf *) intros it self x n RS TM (k & m & Ik & K) P. apply ev_now. intro e. cbn [pure].
    unfold reserved in RS. apply orb_false_iff in RS as [R1 R2]. unfold before, k_super, k_crate. rewrite R1, R2.
    assert (AT : at_ (it :: self) NotFound = NotFound).
    { unfold at_. replace (existsb is_module (it :: self)) with true; auto. symmetry.
      apply existsb_exists. exists k. split; [now right|]. unfold is_module. now rewrite K. }
    rewrite AT. cbn [top_module] in TM. destruct (i_kind it); try reflexivity. discriminate.
  - (* udl *) intros self m x n u RS TM U P. apply (KEY _ m); auto. apply ev_now. intro e. unfold body.
    now rewrite (udl_some _ _ _ _ _ U).
  - (* described *) intros self m x n it RS TM U D N P. apply (KEY _ m); auto. apply ev_now. intro e. unfold body.
    rewrite (udl_none _ _ _ _ U), specials_described, D.
    destruct (i_kind it) eqn:K; try reflexivity. now elim (N p).
  - (* remote *) intros self m x n it p o RS TM U D K R IH P. apply (KEY _ m); auto.
    apply (ev_map _ _ (IH P)). intros e E. unfold body.
    now rewrite (udl_none _ _ _ _ U), specials_described, D, K.
  - (* declared *) intros self m x n it RS TM U D1 D2 R IH P. apply (KEY _ m); auto.
    apply (ev_map _ _ (IH P)). intros e E. unfold body.
    rewrite (udl_none _ _ _ _ U), specials_described, D1. unfold bind.
    now rewrite (explicit_item _ _ _ _ _ _ it D2 E).
  - (* used *) intros self m x n q l RS TM U D R IH O P. apply (KEY _ m); auto.
    apply (ev_map _ _ (IH P)). intros e E. unfold body.
    rewrite (udl_none _ _ _ _ U), specials_described, (declared_described _ _ _ _ D). unfold bind.
    now rewrite (explicit_first _ _ _ _ _ _ q l D E (one_same _ _ O)).
  - (* star *) intros self m x n q l RS TM U D R IH S1 IS O P. apply (KEY _ m); auto.
    apply (ev_and _ _ _ (IH P) (IS P)). intros e E F. unfold body.
    rewrite (udl_none _ _ _ _ U), specials_described, (declared_described _ _ _ _ D). unfold bind.
    rewrite (explicit_none _ _ _ _ _ _ FNone D E).
    rewrite (globs_first _ _ _ _ _ _ (q :: l) F); [reflexivity|].
    cbn [hd_error tl]. intros q0 q' [= <-] I'. exact (one_same _ _ O _ I').
  - (* nothing *) intros self m x n RS TM U D R IH S1 IS P. apply (KEY _ m _ _ None); auto.
    apply (ev_and _ _ _ (IH P) (IS P)). intros e E F. unfold body.
    rewrite (udl_none _ _ _ _ U), specials_described, (declared_described _ _ _ _ D). unfold bind.
    rewrite (explicit_none _ _ _ _ _ _ FNone D E).
    rewrite (globs_first _ _ _ _ _ _ [] F); [|discriminate]. cbn [hd_error].
    now rewrite (at_module _ _ _ TM).
  - (* no use *) intros self n P. apply ev_now. reflexivity.
  - intros self n p ps l R IR U IU P. apply (ev_and _ _ _ (IR P) (IU P)). intros e E F. cbn [runs]. now rewrite E.
  - intros self n p ps q l R IR K U IU P. pose proof (RFOUND _ _ _ _ P (IR P)) as Q.
    apply (ev_and _ _ _ (IR P) (IU P)). intros e E F. cbn [runs]. rewrite E. cbn [answer].
    destruct q; [now apply place_not_nil in Q|]. now rewrite F, K.
  - intros self n p ps q l R IR K U IU P. pose proof (RFOUND _ _ _ _ P (IR P)) as Q.
    apply (ev_and _ _ _ (IR P) (IU P)). intros e E F. cbn [runs]. rewrite E. cbn [answer].
    destruct q; [now apply place_not_nil in Q|]. now rewrite F, K.
  - (* no star *) intros self x n P. apply ev_now. reflexivity.
  - intros self x n p ps l R IR U IU P. apply (ev_and _ _ _ (IR P) (IU P)). intros e E F. cbn [runs map]. now rewrite E.
  - intros self x n p ps q l R IR U IU P. pose proof (RFOUND _ _ _ _ P (IR P)) as Q.
    apply (ev_and _ _ _ (IR P) (IU P)). intros e E F. cbn [runs map]. rewrite E. cbn [answer].
    destruct q; [now apply place_not_nil in Q|]. now rewrite F.
  - (* from here *) intros self p n x rest q o L SG Me IM G IG P.
    pose proof (FOUND _ _ _ _ P (IM P)) as Q. apply (ev_and _ _ _ (IM P) (IG Q)). intros e E F.
    unfold resolve. rewrite L. destruct self; [now apply place_not_nil in P|]. cbn [orb]. rewrite SG.
    unfold catch. change (last_ns rest n) with (ns_of rest n). now rewrite E.
  - (* out *) intros self p n x rest o L SG Me IM G IG P. apply (ev_and _ _ _ (IM P) (IG P)). intros e E F.
    unfold resolve. rewrite L. destruct self; [now apply place_not_nil in P|]. cbn [orb]. rewrite SG.
    unfold catch. change (last_ns rest n) with (ns_of rest n). now rewrite E.
  - (* lead *) intros self p n o L G IG P. apply (ev_map _ _ (IG P)). intros e E. unfold resolve. now rewrite L.
  - intros q n P. apply ev_now. reflexivity.
  - intros a b x rest n o Me IM G IG P. pose proof (FOUND _ _ _ _ P (IM P)) as Q.
    apply (ev_and _ _ _ (IM P) (IG Q)). intros e E F. cbn [walk]. unfold bind.
    change (last_ns rest n) with (ns_of rest n). now rewrite E.
  - intros a x rest n Me IM P. apply (ev_map _ _ (IM P)). intros e E. cbn [walk]. unfold bind.
    change (last_ns rest n) with (ns_of rest n). now rewrite E.
  - (* the UDL file *) intros self p n x root m u l SG C K F P. apply ev_now. intro e. unfold global. rewrite SG.
    unfold udl_at_root. rewrite <- crate_root_eq, C, K, find_filter.
    change (filter (is_udl x) (items_of r m)) with (filter (udl_called x) (items_of r m)). now rewrite F.
  - (* a crate *) intros self p n x rest root m c o SG C K U F G IG P.
    assert (PR : place r [root]) by (econstructor; eauto using find_root_in).
    apply (ev_map _ _ (IG PR)). intros e E. unfold global. rewrite SG.
    replace (udl_at_root r self (x :: rest)) with (@Found (option rpath) None); [now rewrite F|].
    destruct rest; auto. unfold udl_at_root. rewrite <- crate_root_eq, C, K, find_filter.
    change (filter (is_udl x) (items_of r m)) with (filter (udl_called x) (items_of r m)). now rewrite U.
  - (* known *) intros self p n x rest m c b SG C K U F B P. apply ev_now. intro e. unfold global. rewrite SG in *.
    replace (udl_at_root r self (x :: rest)) with (@Found (option rpath) None); [now rewrite F, B|].
    destruct rest; auto. unfold udl_at_root. rewrite <- crate_root_eq, C, K, find_filter.
    change (filter (is_udl x) (items_of r m)) with (filter (udl_called x) (items_of r m)). now rewrite U.
  - (* nothing *) intros self p n x rest m c SG C K U F B P. apply ev_now. intro e. unfold global. rewrite SG in *.
    replace (udl_at_root r self (x :: rest)) with (@Found (option rpath) None).
    + rewrite F, B. unfold fail, answer. f_equal. f_equal. f_equal. unfold at_.
      replace (existsb is_module self) with true; auto. symmetry. apply existsb_exists. exists c.
      split; [|unfold is_module; now rewrite K]. unfold crate_of in C.
      destruct (rev self) as [| a l] eqn:RV; [discriminate|]. injection C as ->.
      rewrite in_rev, RV. now left.
    + destruct rest; auto. unfold udl_at_root. rewrite <- crate_root_eq, C, K, find_filter.
      change (filter (is_udl x) (items_of r m)) with (filter (udl_called x) (items_of r m)). now rewrite U.
Qed.
Lemma refers_found r self p n o : refers r self p n o -> place r self ->
  exists E, resolve r (pure r E) self p n tt = Some (answer o, tt).
Proof. intros R P. destruct (meaning_found r) as (_ & _ & _ & H & _). exact (ev_some _ (H _ _ _ _ R P)). Qed.

Lemma found_proof : found_statement.
Proof.
  intros r d qs os c T FP SS.
  assert (A : forall E, Forall2 (fun (q : query) o => match q with (self, p, n) =>
     forall o1 u, resolve r (pure r E) self p n tt = Some (o1, u) -> o = o1 end) qs os).
  { intro E. eapply (session_exact r E d T qs os c fresh); eauto using sound_fresh. intros ? ? ? ? ? K. discriminate. }
  clear SS. revert os A. induction qs as [| [[self p] n] qs IH]; intros os A.
  - specialize (A O). inversion A. constructor.
  - pose proof (A O) as A0. inversion A0 as [| ? o ? os' _ F]; subst. constructor.
    + intros i R. destruct (refers_found _ _ _ _ _ R) as [E RE]; [apply (FP self p n); now left|].
      pose proof (A E) as AE. inversion AE; subst. eauto.
    + apply IH.
      * intros s' p' n' In'. apply (FP s' p' n'). now right.
      * intro E. specialize (A E). now inversion A.
Qed.
Lemma one_meaning_proof : one_meaning_statement.
Proof.
  intros r self p n a b T P A B. destruct (meaning_found r) as (_ & _ & _ & H & _).
  destruct (ev_some _ (ev_and _ _ (fun e => answer a = answer b) (H _ _ _ _ A P) (H _ _ _ _ B P) ltac:(congruence))) as [_ E].
  destruct a, b; cbn in E; congruence.
Qed.

(** ** Lookups end *)
Section Total.
  Variable r : ir.
  Variable T : Type.
  Variable ask : rpath -> str -> ns -> M T rpath.
  Variable J : T -> Prop.
  Variable U : list str.
  Hypothesis H : forall self x n s, In x U -> J s -> exists o s', ask self x n s = Some (o, s') /\ J s'.
  Lemma walk_total l : forall cur n s, incl l U -> J s -> exists o s', walk ask cur l n s = Some (o, s') /\ J s'.
  Proof.
    induction l as [| x l IH]; intros cur n s I Js; cbn [walk].
    { exists (Found cur), s. auto. }
    unfold bind. destruct (H cur x (last_ns l n) s) as (o & s1 & E & J1); [apply I; now left | auto|].
    rewrite E. destruct o as [q|e]; [|eauto]. apply IH; auto. intros y Iy. apply I. now right.
  Qed.
  Lemma global_total self p n s : incl (segs p) U -> J s -> exists o s', global r ask self p n s = Some (o, s') /\ J s'.
  Proof.
    intros I Js. unfold global. destruct (segs p) as [| x rest] eqn:SG; [unfold fail; eauto|].
    destruct udl_at_root as [[|]|]; try (unfold fail, ret; eauto; fail).
    destruct find_root; [|destruct std_of; unfold fail, ret; eauto].
    apply walk_total; auto. intros y Iy. apply I. now right.
  Qed.
  Lemma resolve_total self p n s : incl (segs p) U -> J s -> exists o s', resolve r ask self p n s = Some (o, s') /\ J s'.
  Proof.
    intros I Js. unfold resolve. destruct (_ || _); [apply global_total; auto|].
    destruct (segs p) as [| x rest] eqn:SG; [unfold fail; eauto|]. unfold catch.
    destruct (H self x (last_ns rest n) s) as (o & s1 & E & J1); [apply I; now left | auto|].
    rewrite E. destruct o as [q|e].
    - apply walk_total; auto. intros y Iy. apply I. now right.
    - destruct e; try (unfold fail; eauto; fail). apply global_total; auto. now rewrite SG.
  Qed.
  Lemma explicit_total self x n its : forall f s, (forall it, In it its -> incl (path_names it) U) -> J s ->
    exists o s', explicit r ask self x n its f s = Some (o, s') /\ J s'.
  Proof.
    induction its as [| it its IH]; intros f s I Js; cbn [explicit]; [unfold ret; eauto|].
    assert (I' : forall it, In it its -> incl (path_names it) U) by (intros; apply I; now right).
    destruct (ident it).
    { destruct (_ && _); auto. destruct f; auto; unfold fail; eauto. }
    destruct (i_kind it) eqn:K; auto. destruct bytes_eqb; auto.
    destruct (resolve_total self p n s) as (o & s1 & E & J1); auto.
    { specialize (I it (or_introl eq_refl)). unfold path_names in I. now rewrite K in I. }
    rewrite E. destruct o as [q|e].
    - destruct q as [| i q]; [eauto|]. destruct matches; auto. destruct f; auto; [eauto|]. destruct same; [auto | eauto].
    - destruct e; eauto.
  Qed.
  Lemma globs_total self x n its : forall f s, In x U -> (forall it, In it its -> incl (path_names it) U) -> J s ->
    exists o s', globs r ask self x n its f s = Some (o, s') /\ J s'.
  Proof.
    induction its as [| it its IH]; intros f s X I Js; cbn [globs]; [unfold ret; eauto|].
    assert (I' : forall it, In it its -> incl (path_names it) U) by (intros; apply I; now right).
    destruct (i_kind it) eqn:K; auto.
    destruct (resolve_total self (Path (lead p) (segs p ++ [x])) n s) as (o & s1 & E & J1); auto.
    { specialize (I it (or_introl eq_refl)). unfold path_names in I. rewrite K in I.
      cbn [segs]. intros y Iy. apply in_app_or in Iy as [Iy | [<- | []]]; auto. }
    rewrite E. destruct o as [q|e].
    - destruct f; auto. destruct same; [auto | eauto].
    - destruct e; eauto.
  Qed.
  Lemma body_total self m x n s : In x U -> (forall it, In it (items_of r m) -> incl (path_names it) U) -> J s ->
    exists o s', body r ask self m x n s = Some (o, s') /\ J s'.
  Proof.
    intros X I Js. unfold body. destruct (match find _ _ with Some u => _ | None => None end); [unfold ret; eauto|].
    destruct (specials r m x n) as [| it [| ? ?]] eqn:SP; [| |unfold fail; eauto].
    - unfold bind. destruct (explicit_total self x n (items_of r m) FNone s I Js) as (o & s1 & E & J1). rewrite E.
      destruct o as [f|e]; [|eauto]. destruct f; try (unfold ret; eauto; fail).
      destruct (globs_total self x n (items_of r m) None s1 X I J1) as (o & s2 & E2 & J2). rewrite E2.
      destruct o as [[q|]|e]; unfold ret, fail; eauto.
    - destruct (i_kind it) eqn:K; try (unfold ret; eauto; fail). apply resolve_total; auto.
      assert (In it (specials r m x n)) as Is by (rewrite SP; now left).
      unfold specials in Is. apply filter_In in Is as [Is _]. specialize (I it Is). unfold path_names in I. now rewrite K in I.
  Qed.
End Total.

Definition all_keys (r : ir) (U : list str) : list key :=
  list_prod (list_prod (map fst (mods r)) U) [NsValue; NsType; NsMacro; NsNonUniffi].
Lemma all_keys_length r U : length (all_keys r U) = (length (mods r) * length U * 4)%nat.
Proof.
  unfold all_keys. etransitivity; [apply prod_length|].
  etransitivity; [apply f_equal2; [apply prod_length | reflexivity]|]. now rewrite map_length.
Qed.
Lemma items_none r m : ~ In m (map fst (mods r)) -> items_of r m = [].
Proof.
  unfold items_of. induction (mods r) as [| [k its] l IH]; cbn; auto. intro N.
  destruct (Nat.eqb_spec k m); [elim N; now left|]. apply IH. auto.
Qed.
Lemma items_in r m it : In it (items_of r m) -> exists its, In (m, its) (mods r) /\ In it its.
Proof.
  unfold items_of. induction (mods r) as [| [k its] l IH]; cbn; [intros []|].
  destruct (Nat.eqb_spec k m); [subst; eauto|]. intro I. destruct (IH I) as (its' & A & B). eauto.
Qed.
Lemma key_in r U m x n : In m (map fst (mods r)) -> In x U -> In (m, x, n) (all_keys r U).
Proof. intros A B. unfold all_keys. apply in_prod; [now apply in_prod | destruct n; cbn; auto]. Qed.
Lemma existsb_key_false k l : existsb (key_eqb k) l = false -> ~ In k l.
Proof.
  intros E I. assert (existsb (key_eqb k) l = true); [|congruence].
  apply existsb_exists. exists k. split; auto. apply key_eqb_refl.
Qed.

Lemma child_total r U : (forall m it, In it (items_of r m) -> incl (path_names it) U) ->
  forall d self x n c, In x U -> NoDup (c_busy c) -> incl (c_busy c) (all_keys r U) ->
  (length (all_keys r U) + 2 <= d + length (c_busy c))%nat ->
  exists o c', child r d self x n c = Some (o, c') /\ c_busy c' = c_busy c.
Proof.
  intros IU d. induction d as [| d IH]; intros self x n c X ND IN LE.
  { pose proof (NoDup_incl_length ND IN). lia. }
  cbn [child]. destruct (before self x n) as [o | m] eqn:B; [eauto|].
  cbv zeta. destruct (existsb (key_eqb (m, x, n)) (c_busy c)) eqn:BU; [eauto|].
  destruct (known (c_known c) (m, x, n)) as [o|] eqn:KN; [eauto|].
  set (c1 := Cache (c_known c) ((m, x, n) :: c_busy c)).
  assert (R : exists o c0, body r (child r d) self m x n c1 = Some (o, c0) /\ c_busy c0 = (m, x, n) :: c_busy c).
  { destruct (in_dec Nat.eq_dec m (map fst (mods r))) as [IM | NM].
    - pose proof (existsb_key_false _ _ BU) as NI.
      assert (ND1 : NoDup ((m, x, n) :: c_busy c)) by (constructor; auto).
      assert (IN1 : incl ((m, x, n) :: c_busy c) (all_keys r U)).
      { intros k [<- | Ik]; [apply key_in; auto | auto]. }
      apply (body_total r cache (child r d) (fun s => c_busy s = (m, x, n) :: c_busy c) U); auto.
      + intros self2 x2 n2 s X2 B2. destruct (IH self2 x2 n2 s X2) as (o & c' & E & B3).
        * now rewrite B2.
        * now rewrite B2.
        * rewrite B2. cbn [length]. lia.
        * exists o, c'. split; auto. congruence.
      + intros it Ii. eapply IU; eauto.
    - unfold body, specials. rewrite (items_none r m NM). cbn. unfold fail. eauto. }
  destruct R as (o & c0 & E & B0). rewrite E. eexists _, _. split; [reflexivity|].
  assert (BQ : filter (fun k' => negb (key_eqb (m, x, n) k')) (c_busy c0) = c_busy c).
  { rewrite B0. generalize dependent (m, x, n). intros k **. cbn [filter]. rewrite key_eqb_refl. cbn [negb].
    now apply filter_not_key. }
  exact BQ.
Qed.
Lemma ends_proof : ends_statement.
Proof.
  intros r qs d L. set (U := all_names r qs).
  assert (IU : forall m it, In it (items_of r m) -> incl (path_names it) U).
  { intros m it I y Iy. apply items_in in I as (its & A & B). unfold U, all_names. apply in_or_app. left.
    apply in_flat_map. exists (m, its). split; auto. cbn [snd]. apply in_flat_map. eauto. }
  assert (QU : forall self p n, In (self, p, n) qs -> incl (segs p) U).
  { intros self p n I y Iy. unfold U, all_names. apply in_or_app. right. apply in_flat_map. exists (self, p, n). auto. }
  assert (LD : (length (all_keys r U) + 2 <= d)%nat).
  { rewrite all_keys_length. unfold depth_bound in L. fold U in L. lia. }
  assert (G : forall c, c_busy c = [] -> exists os c', session r d qs c = Some (os, c')).
  { clear L. clearbody U. induction qs as [| [[self p] n] qs IH]; intros c B; cbn [session]; [eauto|].
    destruct (resolve_total r cache (child r d) (fun s => c_busy s = []) U) with (self := self) (p := p) (n := n) (s := c)
      as (o & c1 & E & B1); auto.
    - intros self2 x2 n2 s X2 B2. destruct (child_total r U IU d self2 x2 n2 s X2) as (o & c' & E & B3).
      + rewrite B2. constructor.
      + rewrite B2. intros ? [].
      + lia.
      + exists o, c'. split; auto. congruence.
    - apply (QU self p n). now left.
    - unfold lookup. rewrite E. destruct (IH ltac:(intros; eapply QU; right; eauto) c1 B1) as (os & c2 & E2). rewrite E2. eauto. }
  exact (G fresh eq_refl).
Qed.
