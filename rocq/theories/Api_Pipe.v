(** What the converter holds after reading the items. *)
From Verif Require Import Base Meta_Types Meta_Eq Group_Model Api_Types Api_Spec Api_Model Api_Accept Api_Iface Api_Said.
From Coq Require Import Permutation Sorted.
From Verif Require Univ_Model Univ_Proofs Names_Model.

(** ** One stream of items *)

Definition group_stream (g : group) : list metadata := MNamespace (g_crate g) (g_namespace g) :: g_items g.
Definition stream (gs : list group) : list metadata := flat_map group_stream gs.

Lemma add_all_app l l' st : add_all (l ++ l') st = bind (add_all l st) (add_all l').
Proof.
  revert st. induction l as [|m l IH]; intros st; [reflexivity|]. cbn [app add_all].
  destruct (add_metadata_item m st); cbn [bind]; auto.
Qed.

Lemma add_groups_stream gs : forall st, add_groups gs st = add_all (stream gs) st.
Proof.
  induction gs as [|g gs IH]; intros st; [reflexivity|].
  cbn [add_groups stream flat_map]. unfold group_stream at 1. cbn [app add_all].
  destruct (add_metadata_item _ st) as [st'| | |]; cbn [bind]; auto.
  rewrite add_all_app. destruct (add_all (g_items g) st'); cbn [bind]; auto.
Qed.

(** ** Keys *)

Lemma find_key_in k l m : find_key k l = Some m -> In (k, m) l.
Proof.
  induction l as [|[k' m'] l IH]; cbn [find_key]; [discriminate|].
  destruct (key_eq_dec k' k) as [-> | N]; [intros H; injection H as ->; left; reflexivity | right; auto].
Qed.
Lemma find_key_none k l : find_key k l = None -> ~ In k (map fst l).
Proof.
  induction l as [|[k' m'] l IH]; cbn [find_key map fst]; [intros _ []|].
  destruct (key_eq_dec k' k) as [-> | N]; [discriminate|]. intros H [X | X]; [congruence | exact (IH H X)].
Qed.
Lemma in_find_key k l m : NoDup (map fst l) -> In (k, m) l -> find_key k l = Some m.
Proof.
  induction l as [|[k' m'] l IH]; intros N I; [destruct I|]. cbn [map fst] in N.
  apply NoDup_cons_iff in N as [N0 N]. cbn [find_key]. destruct I as [I | I].
  - injection I as -> ->. destruct (key_eq_dec k k); [reflexivity | contradiction].
  - destruct (key_eq_dec k' k) as [-> | NE]; [|exact (IH N I)].
    exfalso. apply N0. apply in_map_iff. exists (k, m). auto.
Qed.
Lemma set_key_keys k m l : map fst (set_key k m l) = map fst l.
Proof.
  induction l as [|[k' m'] l IH]; [reflexivity|]. cbn [set_key].
  destruct (key_eq_dec k' k); cbn [map fst]; [reflexivity | rewrite IH; reflexivity].
Qed.
Lemma set_key_in k m l k' m' : NoDup (map fst l) -> In k (map fst l) ->
  (In (k', m') (set_key k m l) <-> (k' = k /\ m' = m) \/ (k' <> k /\ In (k', m') l)).
Proof.
  induction l as [|[k1 m1] l IH]; intros N I; [destruct I|]. cbn [map fst] in *.
  apply NoDup_cons_iff in N as [N0 N]. cbn [set_key]. destruct (key_eq_dec k1 k) as [-> | NE].
  - split.
    + intros [X | X]; [injection X as <- <-; auto|]. right. split; [|right; exact X].
      intros ->. apply N0. apply in_map_iff. exists (k, m'). auto.
    + intros [[-> ->] | [NE [X | X]]]; [left; reflexivity | congruence | right; exact X].
  - destruct I as [X | I]; [contradiction|]. specialize (IH N I). split.
    + intros [X | X]; [injection X as <- <-; right; split; [exact NE | left; reflexivity]|].
      apply IH in X. destruct X as [X | [X Y]]; [left; exact X | right; split; [exact X | right; exact Y]].
    + intros [X | [X [Y | Y]]].
      * right. apply IH. left. exact X.
      * left. exact Y.
      * right. apply IH. right. auto.
Qed.

(** ** The invariant *)

Definition documented (m : metadata) : bool := match m with MCustom _ _ _ (Some _) => true | _ => false end.
(** [first_docs], for one key. *)
Definition first_of_key (seen : list metadata) (d : metadata) : Prop :=
  if documented d
  then exists pre post, seen = pre ++ d :: post /\
       forall m, In m pre -> key_of m = key_of d -> documented m = false
  else forall m, In m seen -> key_of m = key_of d -> documented m = false.

Record inv (seen : list metadata) (st : converter) : Prop := {
  i_keys : NoDup (map fst (c_entries st));
  i_entry : forall k m, In (k, m) (c_entries st) -> In m seen /\ key_of m = Some k;
  i_first : forall k m, In (k, m) (c_entries st) -> first_of_key seen m;
  i_all : forall m k, In m seen -> key_of m = Some k -> exists m', In (k, m') (c_entries st) /\ stands_for m' m;
  i_named : forall m, In m seen -> is_namespace m = true \/ key_of m <> None \/ exists a b c, m = MUdlFile a b c;
  i_origs : forall e, In e (c_origs st) <-> exists m, In m seen /\ renamed m = Some e;
  i_paths : forall c n, In (c, n) (c_paths st) <-> In (MNamespace c n) seen;
  i_spaces : NoDup (map fst (c_spaces st));
  i_space : forall c n, In (n, c) (c_spaces st) <-> In (MNamespace c n) seen }.

Lemma inv_nil : inv [] (Converter [] [] [] []).
Proof.
  constructor; cbn [c_entries c_origs c_paths c_spaces map].
  - constructor.
  - intros ? ? [].
  - intros ? ? [].
  - intros ? ? [].
  - intros ? [].
  - intros e. split; [intros [] | intros (m & [] & _)].
  - intros c n. split; intros [].
  - constructor.
  - intros c n. split; intros [].
Qed.

Lemma find_str_in n l x : find_str n l = Some x -> In (n, x) l.
Proof.
  induction l as [|[n' x'] l IH]; cbn [find_str]; [discriminate|].
  destruct (bytes_eqb_spec n' n) as [-> | N]; [intros H; injection H as ->; left; reflexivity | right; auto].
Qed.
Lemma find_str_none n l : find_str n l = None -> ~ In n (map fst l).
Proof.
  induction l as [|[k' m'] l IH]; cbn [find_str map fst]; [intros _ []|].
  destruct (bytes_eqb_spec k' n) as [-> | N]; [discriminate|]. intros H [X | X]; [congruence | exact (IH H X)].
Qed.
Lemma in_find_str n l x : In (n, x) l -> exists x', find_str n l = Some x'.
Proof.
  intros I. destruct (find_str n l) as [x'|] eqn:F; [eauto|]. exfalso. apply (find_str_none _ _ F).
  apply in_map_iff. exists (n, x). auto.
Qed.

Lemma NoDup_snoc {A} (l : list A) a : NoDup l -> ~ In a l -> NoDup (l ++ [a]).
Proof.
  intros N I. apply NoDup_app2; [exact N | repeat constructor; intros [] |]. intros x J [<- | []]. contradiction.
Qed.

Lemma first_of_key_snoc seen m d : first_of_key seen d -> In d seen ->
  (documented d = false -> key_of m = key_of d -> documented m = false) -> first_of_key (seen ++ [m]) d.
Proof.
  unfold first_of_key. intros F I X. destruct (documented d) eqn:D.
  - destruct F as (p & q & -> & F). exists p, (q ++ [m]). rewrite <- app_assoc. auto.
  - intros x J E. apply in_app_or in J. destruct J as [J | [<- | []]]; [exact (F x J E) | exact (X eq_refl E)].
Qed.

Lemma documented_key m : documented m = true -> exists c n, key_of m = Some (KCustom c n).
Proof. destruct m; try discriminate. intros _. cbn [key_of]. eauto. Qed.

Lemma key_custom m c n : key_of m = Some (KCustom c n) -> is_custom m = true.
Proof.
  destruct m; cbn [key_of]; try discriminate; try reflexivity.
  destruct (type_module_path t), (Univ_Model.type_name t); discriminate.
Qed.

Lemma custom_key m k : is_custom m = true -> key_of m = Some k -> exists c n, k = KCustom c n.
Proof. destruct m; try discriminate. cbn [key_of]. intros _ E. injection E as <-. eauto. Qed.

(** Everything but the entries. *)
Lemma rest_of_inv seen st m l : inv seen st -> is_namespace m = false ->
  (key_of m <> None \/ exists a b c, m = MUdlFile a b c) ->
  NoDup (map fst l) ->
  (forall k x, In (k, x) l -> In x (seen ++ [m]) /\ key_of x = Some k) ->
  (forall k x, In (k, x) l -> first_of_key (seen ++ [m]) x) ->
  (forall x k, In x (seen ++ [m]) -> key_of x = Some k -> exists m', In (k, m') l /\ stands_for m' x) ->
  inv (seen ++ [m]) (with_entries l (update_orig_names m st)).
Proof.
  intros [K E F A N OR P S SP] NM KM K' E' F' A'.
  assert (X : c_paths (update_orig_names m st) = c_paths st /\ c_spaces (update_orig_names m st) = c_spaces st)
    by (unfold update_orig_names; destruct (renamed m); split; reflexivity).
  destruct X as [XP XS].
  constructor; cbn [with_entries c_entries c_origs c_paths c_spaces]; try assumption.
  - intros x I. apply in_app_or in I. destruct I as [I | [<- | []]]; [exact (N x I)|]. right. exact KM.
  - intros e. assert (OR' : In e (c_origs (update_orig_names m st)) <-> In e (c_origs st) \/ renamed m = Some e).
    { unfold update_orig_names. destruct (renamed m) as [e0|].
      - cbn [c_origs]. split; [intros [<- | I]; auto | intros [I | I]; [right; exact I | injection I as <-; left; reflexivity]].
      - split; [auto | intros [I | I]; [exact I | discriminate]]. }
    rewrite OR', OR. split.
    + intros [(x & I & R) | R]; [exists x | exists m]; (split; [|exact R]); apply in_or_app; [left; exact I | right; left; reflexivity].
    + intros (x & I & R). apply in_app_or in I. destruct I as [I | [<- | []]]; [left; eauto | right; exact R].
  - intros c n. rewrite XP, P. split.
    + intros I. apply in_or_app. left. exact I.
    + intros I. apply in_app_or in I. destruct I as [I | [-> | []]]; [exact I | discriminate].
  - rewrite XS. exact S.
  - intros c n. rewrite XS, SP. split.
    + intros I. apply in_or_app. left. exact I.
    + intros I. apply in_app_or in I. destruct I as [I | [-> | []]]; [exact I | discriminate].
Qed.

Lemma stands_key d m : stands_for d m -> key_of d = key_of m.
Proof. intros [-> | (mp & n & b & doc & doc' & -> & ->)]; reflexivity. Qed.
Lemma stands_refl m : stands_for m m.
Proof. left. reflexivity. Qed.

Lemma add_namespace_inv seen st c n st' : inv seen st -> add_namespace c n st = Ok st' ->
  inv (seen ++ [MNamespace c n]) st'.
Proof.
  intros [K E F A N OR P S SP] H.
  assert (OLD : forall m, In m seen -> In m (seen ++ [MNamespace c n])) by (intros m I; apply in_or_app; left; exact I).
  assert (OLD' : forall m, In m (seen ++ [MNamespace c n]) -> is_namespace m = false -> In m seen).
  { intros m I X. apply in_app_or in I. destruct I as [I | [<- | []]]; [exact I | discriminate]. }
  assert (FF : forall k m, In (k, m) (c_entries st) -> first_of_key (seen ++ [MNamespace c n]) m).
  { intros k m I. apply first_of_key_snoc; [exact (F k m I) | exact (proj1 (E k m I)) | reflexivity]. }
  assert (AA : forall m k, In m (seen ++ [MNamespace c n]) -> key_of m = Some k -> exists m', In (k, m') (c_entries st) /\ stands_for m' m).
  { intros m k I X. apply in_app_or in I. destruct I as [I | [<- | []]]; [exact (A m k I X) | discriminate]. }
  assert (NN : forall m, In m (seen ++ [MNamespace c n]) -> is_namespace m = true \/ key_of m <> None \/ exists a b c, m = MUdlFile a b c).
  { intros m I. apply in_app_or in I. destruct I as [I | [<- | []]]; [exact (N m I) | left; reflexivity]. }
  assert (OO : forall e, In e (c_origs st) <-> exists m, In m (seen ++ [MNamespace c n]) /\ renamed m = Some e).
  { intros e. rewrite OR. split; intros (m & I & R); exists m; (split; [|exact R]); auto.
    apply in_app_or in I. destruct I as [I | [<- | []]]; [exact I | discriminate]. }
  assert (PP : forall c' n', In (c', n') ((c, n) :: c_paths st) <-> In (MNamespace c' n') (seen ++ [MNamespace c n])).
  { intros c' n'. cbn [In]. rewrite P, in_app_iff. cbn [In]. split.
    - intros [X | X]; [injection X as <- <-; right; left; reflexivity | left; exact X].
    - intros [X | [X | []]]; [right; exact X | injection X as <- <-; left; reflexivity]. }
  unfold add_namespace in H. destruct (find_str n (c_spaces st)) as [c'|] eqn:FS.
  - destruct (str_eq_dec c' c) as [-> | NE]; [|discriminate]. injection H as <-.
    constructor; cbn [c_entries c_origs c_paths c_spaces]; auto.
    + intros k m I. destruct (E k m I). auto.
    + intros c' n'. rewrite SP, in_app_iff. cbn [In]. split; [auto|]. intros [X | [X | []]]; [exact X|].
      injection X as <- <-. apply SP. exact (find_str_in _ _ _ FS).
  - injection H as <-. constructor; cbn [c_entries c_origs c_paths c_spaces]; auto.
    + intros k m I. destruct (E k m I). auto.
    + rewrite map_app. apply NoDup_snoc; [exact S | exact (find_str_none _ _ FS)].
    + intros c' n'. rewrite in_app_iff, SP, in_app_iff. cbn [In]. split.
      * intros [X | [X | []]]; [left; exact X | injection X as <- <-; right; left; reflexivity].
      * intros [X | [X | []]]; [left; exact X | injection X as <- <-; right; left; reflexivity].
Qed.

Lemma add_item_inv seen st m st' : inv seen st -> add_metadata_item m st = Ok st' -> inv (seen ++ [m]) st'.
Proof.
  intros I H. destruct (is_namespace m) eqn:NM.
  - destruct m; try discriminate. exact (add_namespace_inv _ _ _ _ _ I H).
  - destruct (key_of m) as [k|] eqn:KM.
    + assert (H' : bind ((if is_custom m then insert_custom else insert_unique) k m (c_entries st))
                        (fun l => Ok (with_entries l (update_orig_names m st))) = Ok st').
      { destruct m; try discriminate; cbn [add_metadata_item] in H; try rewrite KM in H; cbn [is_custom]; exact H. }
      clear H. apply bind_ok in H'. destruct H' as (l & H & E). injection E as <-.
      pose proof I as [K EN F A N OR P S SP].
      assert (NEW : In m (seen ++ [m])) by (apply in_or_app; right; left; reflexivity).
      assert (OLD : forall x, In x seen -> In x (seen ++ [m])) by (intros x J; apply in_or_app; left; exact J).
      (* a new key *)
      assert (ADD : find_key k (c_entries st) = None -> l = c_entries st ++ [(k, m)] ->
                    inv (seen ++ [m]) (with_entries l (update_orig_names m st))).
      { intros FK ->. assert (NK := find_key_none _ _ FK).
        assert (NS : forall x, In x seen -> key_of x <> Some k).
        { intros x J X. destruct (A x k J X) as (m' & J' & _). apply NK. apply in_map_iff. exists (k, m'). auto. }
        apply (rest_of_inv seen st m _ I NM); [left; congruence | | | |].
        - rewrite map_app. apply NoDup_snoc; assumption.
        - intros k' x J. apply in_app_or in J. destruct J as [J | [J | []]].
          + destruct (EN k' x J). auto.
          + injection J as <- <-. auto.
        - intros k' x J. apply in_app_or in J. destruct J as [J | [J | []]].
          + destruct (EN k' x J) as [J1 J2]. apply first_of_key_snoc; [exact (F k' x J) | exact J1|].
            intros _ X. exfalso. apply (NS x J1). congruence.
          + injection J as <- <-. unfold first_of_key. destruct (documented m) eqn:D.
            * exists seen, []. split; [reflexivity|]. intros x J X. exfalso. apply (NS x J). congruence.
            * intros x J X. apply in_app_or in J. destruct J as [J | [<- | []]]; [|exact D].
              exfalso. apply (NS x J). congruence.
        - intros x k' J X. apply in_app_or in J. destruct J as [J | [<- | []]].
          + destruct (A x k' J X) as (m' & J' & SF). exists m'. split; [apply in_or_app; left; exact J' | exact SF].
          + exists m. split; [|apply stands_refl]. apply in_or_app. right. left. congruence. }
      (* a key that is there already *)
      assert (KEEP : forall m0, find_key k (c_entries st) = Some m0 -> l = c_entries st ->
                     stands_for m0 m -> (documented m0 = false -> documented m = false) ->
                     inv (seen ++ [m]) (with_entries l (update_orig_names m st))).
      { intros m0 FK -> SF DD. assert (IK := find_key_in _ _ _ FK).
        apply (rest_of_inv seen st m _ I NM); [left; congruence | exact K | | |].
        - intros k' x J. destruct (EN k' x J). auto.
        - intros k' x J. destruct (EN k' x J) as [J1 J2]. apply first_of_key_snoc; [exact (F k' x J) | exact J1|].
          intros DX X. rewrite KM, J2 in X. injection X as <-.
          pose proof (in_find_key _ _ _ K J) as Y. rewrite FK in Y. injection Y as ->. auto.
        - intros x k' J X. apply in_app_or in J. destruct J as [J | [<- | []]]; [exact (A x k' J X)|].
          rewrite KM in X. injection X as <-. exists m0. auto. }
      destruct (is_custom m) eqn:CM.
      * unfold insert_custom in H. destruct (find_key k (c_entries st)) as [m0|] eqn:FK.
        -- assert (IK := find_key_in _ _ _ FK). destruct (EN _ _ IK) as [I0 K0].
           destruct m as [ | | | | | | | | | |mp n b doc| | ]; try discriminate.
           cbn [key_of] in KM. injection KM as <-.
           destruct m0 as [ | | | | | | | | | |mp' n' b' doc'| | ]; try discriminate.
           cbn [key_of] in K0. injection K0 as KC ->.
           destruct (ty_eq_dec b' b) as [-> | ]; [|discriminate]. destruct (str_eq_dec mp' mp) as [-> | ]; [|discriminate].
           destruct doc as [doc|].
           ++ destruct doc' as [doc'|].
              ** injection H as <-. apply (KEEP _ eq_refl eq_refl); [right; repeat eexists | discriminate].
              ** injection H as <-. 
                 assert (INK : In (KCustom (path_crate mp) n) (map fst (c_entries st)))
                   by (apply in_map_iff; exists (KCustom (path_crate mp) n, MCustom mp n b None); auto).
                 apply (rest_of_inv seen st _ _ I NM); [left; discriminate | | | |].
                 --- rewrite set_key_keys. exact K.
                 --- intros k' x J. apply set_key_in in J; [|exact K | exact INK].
                     destruct J as [[-> ->] | [_ J]]; [split; [exact NEW | reflexivity]|]. destruct (EN k' x J). auto.
                 --- intros k' x J. apply set_key_in in J; [|exact K | exact INK].
                     destruct J as [[-> ->] | [NE J]].
                     +++ unfold first_of_key. cbn [documented]. exists seen, []. split; [reflexivity|].
                         pose proof (F _ _ IK) as FI. unfold first_of_key in FI. cbn [documented] in FI.
                         intros x J X. apply (FI x J). rewrite X. reflexivity.
                     +++ destruct (EN k' x J) as [J1 J2]. apply first_of_key_snoc; [exact (F k' x J) | exact J1|].
                         intros _ X. rewrite J2 in X. injection X as <-. contradiction.
                 --- intros x k' J X. apply in_app_or in J. destruct J as [J | [<- | []]].
                     +++ destruct (A x k' J X) as (m' & J' & SF). destruct (key_eq_dec k' (KCustom (path_crate mp) n)) as [-> | NE].
                         *** pose proof (in_find_key _ _ _ K J') as Y. rewrite FK in Y. injection Y as <-.
                             exists (MCustom mp n b (Some doc)). split; [apply set_key_in; auto|].
                             destruct SF as [<- | (q1 & q2 & q3 & q4 & q5 & _ & Q)]; [right; repeat eexists | discriminate].
                         *** exists m'. split; [apply set_key_in; auto | exact SF].
                     +++ injection X as <-. exists (MCustom mp n b (Some doc)). split; [apply set_key_in; auto | apply stands_refl].
           ++ assert (l = c_entries st) by (destruct doc'; injection H as <-; reflexivity).
              apply (KEEP _ eq_refl); [assumption | destruct doc'; [right; repeat eexists | left; reflexivity] | reflexivity].
        -- injection H as <-. apply ADD; reflexivity.
      * unfold insert_unique in H. destruct (find_key k (c_entries st)) as [m0|] eqn:FK.
        -- destruct (metadata_eq_dec m0 m) as [-> | ]; [|discriminate]. injection H as <-.
           apply (KEEP _ eq_refl eq_refl (stands_refl m)). auto.
        -- injection H as <-. apply ADD; reflexivity.
    + destruct m; try discriminate; cbn [add_metadata_item] in H; try (rewrite KM in H; discriminate).
      injection H as <-. destruct I as [K EN F A N OR P S SP].
      assert (X : forall k m, In (k, m) (c_entries st) -> first_of_key (seen ++ [MUdlFile mp namespace file_stub]) m).
      { intros k m I. apply first_of_key_snoc; [exact (F k m I) | exact (proj1 (EN k m I)) | reflexivity]. }
      constructor; auto.
      * intros k m I. destruct (EN k m I). split; [apply in_or_app; left|]; assumption.
      * intros m k I Y. apply in_app_or in I. destruct I as [I | [<- | []]]; [exact (A m k I Y) | discriminate].
      * intros m I. apply in_app_or in I. destruct I as [I | [<- | []]]; [exact (N m I)|]. right. right. eauto.
      * intros e. rewrite OR. split; intros (m & I & R); exists m; (split; [|exact R]); [apply in_or_app; left; exact I|].
        apply in_app_or in I. destruct I as [I | [<- | []]]; [exact I | discriminate].
      * intros c n. rewrite P, in_app_iff. cbn [In]. split; [auto | intros [Y | [Y | []]]; [exact Y | discriminate]].
      * intros c n. rewrite SP, in_app_iff. cbn [In]. split; [auto | intros [Y | [Y | []]]; [exact Y | discriminate]].
Qed.

Lemma add_all_inv l : forall seen st st', inv seen st -> add_all l st = Ok st' -> inv (seen ++ l) st'.
Proof.
  induction l as [|m l IH]; intros seen st st' I H; cbn [add_all] in H.
  - injection H as <-. rewrite app_nil_r. exact I.
  - apply bind_ok in H. destruct H as (st1 & H1 & H2).
    pose proof (IH _ _ _ (add_item_inv _ _ _ _ I H1) H2) as X. rewrite <- app_assoc in X. exact X.
Qed.

Lemma converter_inv gs st : add_groups gs (Converter [] [] [] []) = Ok st -> inv (stream gs) st.
Proof. intros H. rewrite add_groups_stream in H. exact (add_all_inv _ [] _ _ inv_nil H). Qed.
