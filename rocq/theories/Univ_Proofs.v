(** Proofs for C38. *)
From Verif Require Import Base Meta_Types Meta_Eq Reach_Spec Univ_Model Univ_Spec.
From Verif Require Reach_Model Reach_Proofs Names_Model.

Lemma bytes_eqb_refl a : bytes_eqb a a = true.
Proof. destruct (bytes_eqb_spec a a); congruence. Qed.

(** ** Normalising *)

Lemma crate_name_prefix : forall mp, Names_Model.crate_name (Names_Model.crate_name mp) = Names_Model.crate_name mp.
Proof.
  induction mp as [|a mp IH]; [reflexivity|].
  destruct mp as [|b mp]; [reflexivity|].
  cbn [Names_Model.crate_name] in *.
  destruct (byte_eqb a x3a && byte_eqb b x3a) eqn:E; [reflexivity|].
  destruct mp as [|c mp]; cbn [Names_Model.crate_name] in *; [rewrite E; reflexivity|].
  destruct (byte_eqb b x3a && byte_eqb c x3a) eqn:E'.
  - reflexivity.
  - rewrite E. f_equal. exact IH.
Qed.

Lemma normalize_same t : same_type t (normalize t).
Proof.
  induction t; cbn [normalize]; try apply st_refl; try (constructor; auto);
    unfold same_crate, normalize_path; symmetry; apply crate_name_prefix.
Qed.

Lemma normalize_idem t : normalize (normalize t) = normalize t.
Proof.
  induction t; cbn [normalize]; unfold normalize_path; rewrite ?crate_name_prefix; congruence.
Qed.

(** ** The universe *)

(** Nothing is ever removed, and definitions are never changed. *)
Record grows (u v : universe) : Prop := {
  g_known : incl (known u) (known v);
  g_defs : forall n t, find_def n (type_definitions u) = Some t ->
                       find_def n (type_definitions v) = Some t }.

Lemma grows_refl u : grows u u.
Proof. split; [apply incl_refl | auto]. Qed.

Lemma grows_trans u v w : grows u v -> grows v w -> grows u w.
Proof. intros [A B] [C D]. split; [exact (incl_tran A C) | auto]. Qed.

(** [t] is in [u]: it is known, and if it has a name the name is defined as the same type. *)
Record holds (u : universe) (t : ty) : Prop := {
  h_known : In (normalize t) (known u);
  h_def : forall n, type_name t = Some n ->
          exists t', find_def n (type_definitions u) = Some t' /\ normalize t' = normalize t }.

Lemma holds_grows u v t : grows u v -> holds u t -> holds v t.
Proof.
  intros [A B] [K D]. split; [apply A; exact K|]. intros n N. destruct (D n N) as [t' [F E]].
  exists t'. auto.
Qed.

(** Every known type is normalised. *)
Definition normal (u : universe) : Prop := forall t, In t (known u) -> normalize t = t.

Lemma insert_grows t u : grows u (insert_known t u).
Proof.
  unfold insert_known. destruct (in_dec ty_eq_dec t (known u)); [apply grows_refl|].
  destruct (in_dec ty_eq_dec (normalize t) (known u)); [apply grows_refl|].
  split; [intros x I; right; exact I | auto].
Qed.

Lemma insert_normal t u : normal u -> normal (insert_known t u).
Proof.
  unfold insert_known. intros N. destruct (in_dec ty_eq_dec t (known u)); [exact N|].
  destruct (in_dec ty_eq_dec (normalize t) (known u)); [exact N|].
  intros x [<-|I]; [apply normalize_idem | auto].
Qed.

Lemma insert_in t u : normal u -> In (normalize t) (known (insert_known t u)).
Proof.
  unfold insert_known. intros N. destruct (in_dec ty_eq_dec t (known u)) as [I|_].
  - rewrite (N t I). exact I.
  - destruct (in_dec ty_eq_dec (normalize t) (known u)) as [I|_]; [exact I | left; reflexivity].
Qed.

Lemma add_def_ok n t u v : add_type_definition n t u = Ok v ->
  grows u v /\ known v = known u /\
  exists t', find_def n (type_definitions v) = Some t' /\ normalize t' = normalize t.
Proof.
  unfold add_type_definition. destruct (find_def n (type_definitions u)) as [cur|] eqn:F.
  - destruct (ty_eq_dec (normalize t) (normalize cur)) as [E|]; [|discriminate].
    intros H. injection H as <-. split; [apply grows_refl|]. split; [reflexivity|]. exists cur. auto.
  - intros H. injection H as <-. split; [|split; [reflexivity|]].
    + split; [apply incl_refl|]. intros m s Fm. cbn [type_definitions find_def].
      destruct (bytes_eqb_spec m n) as [->|]; [congruence | exact Fm].
    + exists t. cbn [type_definitions find_def]. rewrite bytes_eqb_refl. auto.
Qed.

(** What a successful operation did: grew the universe, kept it normal, and took in the types of
    [ts]. *)
Definition did (ts : list ty) (u v : universe) : Prop :=
  normal u -> normal v /\ grows u v /\ forall t, In t ts -> holds v t.

Lemma did_seq ts ts' u v w : did ts u v -> did ts' v w -> did (ts ++ ts') u w.
Proof.
  intros A B N. destruct (A N) as [N' [G H]]. destruct (B N') as [N'' [G' H']].
  split; [exact N''|]. split; [exact (grows_trans _ _ _ G G')|].
  intros t I. apply in_app_or in I as [I|I]; [exact (holds_grows _ _ _ G' (H t I)) | exact (H' t I)].
Qed.

Lemma did_weaken ts ts' u v : incl ts' ts -> did ts u v -> did ts' u v.
Proof. intros I D N. destruct (D N) as [A [B C]]. auto. Qed.

(** The nested types of a type, and the type with them. *)
Definition nested_of (t : ty) : list ty := tl (Reach_Model.iter_types t).

Lemma iter_types_cons t : Reach_Model.iter_types t = t :: nested_of t.
Proof. destruct t; reflexivity. Qed.

Lemma add_from_nested t :
  (forall u v, snd (add_and_nested t) u = Ok v -> did (nested_of t) u v) ->
  forall u v, fst (add_and_nested t) u = Ok v -> did (t :: nested_of t) u v.
Proof.
  intros NEST u v H.
  assert (E : fst (add_and_nested t) u =
    bind (snd (add_and_nested t) (insert_known t u)) (fun u =>
          match type_name t with
          | Some n => add_type_definition n t u
          | None => Ok u
          end)) by (destruct t; reflexivity).
  rewrite E in H. clear E. intros N.
  destruct (snd (add_and_nested t) (insert_known t u)) as [w| | |] eqn:S1; try discriminate.
  cbn [bind] in H.
  destruct (NEST _ _ S1 (insert_normal t u N)) as [Nw [Gw Hw]].
  assert (Kw : In (normalize t) (known w)) by (apply (g_known _ _ Gw); apply insert_in; exact N).
  assert (G0 : grows u w) by exact (grows_trans _ _ _ (insert_grows t u) Gw).
  destruct (type_name t) as [n|] eqn:TN.
  - destruct (add_def_ok n t w v H) as [G [K [t' [F Et]]]]. split; [|split].
    + intros x I. rewrite K in I. exact (Nw x I).
    + exact (grows_trans _ _ _ G0 G).
    + intros x [<-|I]; [|exact (holds_grows _ _ _ G (Hw x I))]. split.
      * apply (g_known _ _ G). exact Kw.
      * intros m M. rewrite TN in M. injection M as <-. exists t'. auto.
  - injection H as <-. split; [exact Nw|]. split; [exact G0|].
    intros x [<-|I]; [|exact (Hw x I)]. split; [exact Kw|]. intros m M. congruence.
Qed.

Lemma did_nil u : did [] u u.
Proof. intros N. split; [exact N|]. split; [apply grows_refl | intros t []]. Qed.

Lemma nested_ok : forall t u v, snd (add_and_nested t) u = Ok v -> did (nested_of t) u v.
Proof.
  assert (ONE : forall t, (forall u v, snd (add_and_nested t) u = Ok v -> did (nested_of t) u v) ->
            forall u v, bind (fst (add_and_nested t) u) (snd (add_and_nested t)) = Ok v ->
            did (Reach_Model.iter_types t) u v).
  { intros t NEST u v H. destruct (fst (add_and_nested t) u) as [w| | |] eqn:F; try discriminate.
    cbn [bind] in H. apply (add_from_nested t NEST) in F. apply NEST in H.
    rewrite iter_types_cons. apply (did_weaken ((t :: nested_of t) ++ nested_of t)).
    - intros x I. apply in_or_app. left. exact I.
    - exact (did_seq _ _ _ _ _ F H). }
  induction t; intros u v H.
  all: try (injection H as <-; apply did_nil).
  1-3, 5: cbn [nested_of tl Reach_Model.iter_types]; apply (ONE t IHt);
    revert H; cbn [add_and_nested snd]; destruct (add_and_nested t) as [add nested]; auto.
  cbn [nested_of tl Reach_Model.iter_types]. revert H. cbn [add_and_nested snd].
  assert (ONE1 := ONE t1 IHt1). assert (ONE2 := ONE t2 IHt2).
  destruct (add_and_nested t1) as [a1 n1], (add_and_nested t2) as [a2 n2]. cbn [fst snd] in *.
  intros H.
  destruct (a1 u) as [w1| | |] eqn:A1; try discriminate. cbn [bind] in H.
  destruct (n1 w1) as [w2| | |] eqn:N1; try discriminate. cbn [bind] in H.
  apply (did_seq _ _ u w2 v).
  - apply ONE1. rewrite A1. exact N1.
  - apply ONE2. exact H.
Qed.

Lemma add_known_type_ok t u v : add_known_type t u = Ok v -> did (Reach_Model.iter_types t) u v.
Proof. rewrite iter_types_cons. apply add_from_nested. apply nested_ok. Qed.

Lemma add_known_types_ok ts : forall u v, add_known_types ts u = Ok v ->
  did (flat_map Reach_Model.iter_types ts) u v.
Proof.
  induction ts as [|t ts IH]; intros u v H; cbn [add_known_types flat_map] in *.
  - injection H as <-. apply did_nil.
  - destruct (add_known_type t u) as [w| | |] eqn:A; try discriminate. cbn [bind] in H.
    exact (did_seq _ _ _ _ _ (add_known_type_ok _ _ _ A) (IH _ _ H)).
Qed.

(** ** Items *)

Definition idid (ts : list ty) (i j : iface) : Prop := did ts (types i) (types j).

Lemma iter_self t : In t (Reach_Model.iter_types t).
Proof. rewrite iter_types_cons. left. reflexivity. Qed.

Lemma add_types_ok ts i j : add_types ts i = Ok j -> idid (flat_map Reach_Model.iter_types ts) i j.
Proof.
  unfold add_types. destruct (add_known_types ts (types i)) as [u| | |] eqn:A; try discriminate.
  cbn [bind]. intros H. injection H as <-. exact (add_known_types_ok _ _ _ A).
Qed.

(** Adding a list of nested types takes in whatever is in the list. *)
Lemma add_types_in ts i j : add_types ts i = Ok j -> idid ts i j.
Proof.
  intros H. apply (did_weaken _ _ _ _) with (2 := add_types_ok _ _ _ H).
  intros t I. apply in_flat_map. exists t. auto using iter_self.
Qed.

(** The types an item adds. *)
Definition adds (m : metadata) : list ty := flat_map Reach_Model.iter_types (signature m).

Lemma callable_types_is f : callable_types f = flat_map Reach_Model.iter_types (signature_of f).
Proof. reflexivity. Qed.

Lemma fields_types_is fs : fields_types fs = flat_map Reach_Model.iter_types (map fd_ty fs).
Proof. unfold fields_types. rewrite flat_map_concat_map, flat_map_concat_map, map_map. reflexivity. Qed.

Lemma variants_types_is vs : flat_map (fun v => fields_types (v_fields v)) vs =
  flat_map Reach_Model.iter_types (flat_map (fun v => map fd_ty (v_fields v)) vs).
Proof.
  induction vs as [|v vs IH]; [reflexivity|]. cbn [flat_map]. rewrite IH, fields_types_is, flat_map_app.
  reflexivity.
Qed.

Ltac step H := match type of H with
  | bind ?x _ = Ok _ => let E := fresh "E" in destruct x eqn:E; try discriminate; cbn [bind] in H
  | (if ?x then _ else _) = Ok _ => let E := fresh "E" in destruct x eqn:E; try discriminate
  | match ?x with _ => _ end = Ok _ => let E := fresh "E" in destruct x eqn:E; try discriminate
  end.

Lemma constructor_types_is self f : f_ret f = None ->
  incl (adds (MConstructor self f)) (constructor_types self f).
Proof.
  intros R t I. unfold adds, constructor_types in *. apply in_flat_map in I as [x [Ix It]].
  apply in_flat_map. exists x. split; [|exact It]. cbn [signature] in Ix. unfold signature_of in Ix.
  rewrite R in Ix. cbn [optional app] in Ix. destruct Ix as [<-|Ix].
  - apply in_or_app. right. left. reflexivity.
  - apply in_app_or in Ix as [Ix|Ix]; apply in_or_app; [left; exact Ix | right; right; exact Ix].
Qed.

Lemma add_item_ok m i j : (forall self f, m = MConstructor self f -> f_ret f = None) ->
  add_item m i = Ok j -> idid (adds m) i j.
Proof.
  intros PC H. unfold adds. destruct m; cbn [add_item signature] in *.
  - discriminate.
  - injection H as <-. apply did_nil.
  - step H. step H. step H. injection H as <-. exact (add_types_in _ _ _ E1).
  - step H. injection H as <-. apply (did_weaken _ _ _ _) with (2 := add_types_ok _ _ _ E).
    intros t I. cbn [flat_map] in *. apply in_or_app. left. rewrite app_nil_r in I. exact I.
  - step H. injection H as <-. exact (add_types_ok _ _ _ E).
  - step H. step H. step H. injection H as <-.
    cbn [flat_map]. apply (did_seq _ _ _ (types a)).
    + assert (X := add_types_ok _ _ _ E). cbn [flat_map] in X. rewrite app_nil_r in X. exact X.
    + rewrite <- fields_types_is. exact (add_types_in _ _ _ E1).
  - step H. step H. step H. injection H as <-.
    cbn [flat_map]. apply (did_seq _ _ _ (types a)).
    + assert (X := add_types_ok _ _ _ E). cbn [flat_map] in X. rewrite app_nil_r in X. exact X.
    + rewrite <- variants_types_is. exact (add_types_in _ _ _ E1).
  - step H. apply (did_weaken _ _ _ _ (constructor_types_is self f (PC _ _ eq_refl))).
    exact (add_types_in _ _ _ H).
  - unfold add_method in H. step H. exact (add_types_in _ _ _ H).
  - step H.
    + step H. step H. injection H as <-. exact (add_types_in _ _ _ E1).
    + unfold add_method in H. step H. exact (add_types_in _ _ _ H).
  - step H. assert (X : idid (flat_map Reach_Model.iter_types [TCustom mp name builtin]) i a)
      by exact (add_types_ok _ _ _ E).
    step H.
    + destruct p as [b' mp']. step H. step H. injection H as <-. exact X.
    + injection H as <-. exact X.
  - step H. step H. step H. injection H as <-. assert (X := add_types_in _ _ _ E0).
    destruct u; cbn [utrait_types] in X; try exact X.
    rewrite flat_map_app. exact X.
  - apply did_weaken with (ts := []); [apply incl_refl|].
    step H. step H. injection H as <-. apply did_nil.
Qed.

Lemma add_items_ok items : forall i j, plain_constructors items ->
  add_items items i = Ok j -> idid (flat_map adds items) i j.
Proof.
  induction items as [|m items IH]; intros i j PC H; cbn [add_items flat_map] in *.
  - injection H as <-. apply did_nil.
  - step H. apply (did_seq _ _ _ (types a)).
    + apply add_item_ok; [|exact E]. intros self f Em. apply (PC self f). left. exact Em.
    + apply IH; [|exact H]. intros self f I. apply (PC self f). right. exact I.
Qed.

Lemma add_metadata_ok items i : plain_constructors items -> add_metadata items = Ok i ->
  normal (types i) /\ forall t, In t (flat_map adds items) -> holds (types i) t.
Proof.
  intros PC H. unfold add_metadata in H. step H. step H.
  unfold check_consistency in H. step H. injection H as <-.
  assert (N : normal (types empty)) by (intros t []).
  destruct (add_types_in _ _ _ E N) as [N1 _].
  destruct (add_items_ok _ _ _ PC E0 N1) as [N2 [_ HT]]. auto.
Qed.

Lemma mentioned_adds items u : mentioned_unboxed items u -> In u (flat_map adds items).
Proof.
  intros [m [t [Im [It [B I]]]]]. apply in_flat_map. exists m. split; [exact Im|].
  apply in_flat_map. exists t. split; [exact It|].
  apply Reach_Proofs.inside_in_iter; [|exact I]. clear -B. intros b J.
  induction t; cbn [boxless] in B; try discriminate; inversion J; subst; auto.
  - apply andb_true_iff in B as [B _]. auto.
  - apply andb_true_iff in B as [_ B]. auto.
Qed.

(** ** The statements *)

Lemma types_known items i u : plain_constructors items -> add_metadata items = Ok i ->
  mentioned_unboxed items u -> exists t, In t (known (types i)) /\ same_type u t.
Proof.
  intros PC H M. destruct (add_metadata_ok _ _ PC H) as [_ HT].
  exists (normalize u). split; [|apply normalize_same].
  apply (h_known _ _ (HT u (mentioned_adds _ _ M))).
Qed.

Lemma type_name_of t : type_name t = name_of t.
Proof. reflexivity. Qed.

Lemma normalize_sort t n : name_of t = Some n -> crate_and_sort (normalize t) = crate_and_sort t.
Proof.
  destruct t; cbn [name_of]; try discriminate; intros _;
    cbn [normalize crate_and_sort]; unfold normalize_path; rewrite crate_name_prefix; reflexivity.
Qed.

Lemma one_type items i t t' n : plain_constructors items -> add_metadata items = Ok i ->
  mentioned_unboxed items t -> mentioned_unboxed items t' ->
  name_of t = Some n -> name_of t' = Some n ->
  normalize t = normalize t'.
Proof.
  intros PC H M M' N N'. destruct (add_metadata_ok _ _ PC H) as [_ HT].
  destruct (h_def _ _ (HT t (mentioned_adds _ _ M)) n N) as [d [F E]].
  destruct (h_def _ _ (HT t' (mentioned_adds _ _ M')) n N') as [d' [F' E']]. congruence.
Qed.

Lemma one_type_per_name items i t t' n : plain_constructors items -> add_metadata items = Ok i ->
  mentioned_unboxed items t -> mentioned_unboxed items t' ->
  name_of t = Some n -> name_of t' = Some n ->
  crate_and_sort t = crate_and_sort t' /\ exists d, same_type t d /\ same_type t' d.
Proof.
  intros PC H M M' N N'. assert (E := one_type _ _ _ _ _ PC H M M' N N'). split.
  - rewrite <- (normalize_sort t n N), <- (normalize_sort t' n N'), E. reflexivity.
  - exists (normalize t). split; [apply normalize_same | rewrite E; apply normalize_same].
Qed.

(** Names of functions. *)
Lemma add_types_functions ts i j : add_types ts i = Ok j -> functions j = functions i.
Proof.
  unfold add_types. intros H. step H. injection H as <-. reflexivity.
Qed.

Lemma has_spec n l : has n l = true <-> In n l.
Proof.
  unfold has. rewrite existsb_exists. split.
  - intros [x [I E]]. destruct (bytes_eqb_spec n x); [subst; exact I | discriminate].
  - intros I. exists n. split; [exact I | apply bytes_eqb_refl].
Qed.

Definition function_name (m : metadata) : list str :=
  match m with MFunc f => [f_name f] | _ => [] end.

Lemma add_item_functions m i j : add_item m i = Ok j -> NoDup (functions i) ->
  NoDup (functions j) /\ functions j = function_name m ++ functions i.
Proof.
  intros H N. destruct m; cbn [add_item function_name app] in *; try discriminate.
  2: { step H. step H. step H. injection H as <-. cbn [functions].
    rewrite (add_types_functions _ _ _ E1). split; [|reflexivity]. constructor; [|exact N].
    intros I. apply has_spec in I. congruence. }
  all: assert (X : functions j = functions i); [| rewrite X; auto].
  all: unfold add_method in *; repeat first [step H | discriminate H].
  all: try injection H as <-; cbn [functions];
       repeat match goal with E : add_types _ _ = Ok _ |- _ => apply add_types_functions in E end;
       congruence.
Qed.

Lemma add_items_functions items : forall i j, add_items items i = Ok j -> NoDup (functions i) ->
  NoDup (functions j) /\ functions j = rev (flat_map function_name items) ++ functions i.
Proof.
  induction items as [|m items IH]; intros i j H N; cbn [add_items flat_map] in *.
  - injection H as <-. split; [exact N | reflexivity].
  - step H. destruct (add_item_functions _ _ _ E N) as [N1 F1].
    destruct (IH _ _ H N1) as [N2 F2]. split; [exact N2|].
    rewrite F2, F1, rev_app_distr, <- app_assoc. f_equal.
    destruct m; reflexivity.
Qed.

Lemma function_names_distinct items i : add_metadata items = Ok i ->
  NoDup (flat_map function_name items).
Proof.
  intros H. unfold add_metadata in H. step H. step H. apply add_types_functions in E.
  assert (N0 : NoDup (functions a)) by (rewrite E; constructor).
  destruct (add_items_functions _ _ _ E0 N0) as [N F]. rewrite E in F. cbn [functions empty] in F.
  rewrite app_nil_r in F. rewrite F in N. rewrite <- (rev_involutive (flat_map _ _)).
  apply NoDup_rev. exact N.
Qed.

Lemma function_not_type items i f t : plain_constructors items -> add_metadata items = Ok i ->
  In (MFunc f) items -> mentioned_unboxed items t -> name_of t <> Some (f_name f).
Proof.
  intros PC H I M N. destruct (add_metadata_ok _ _ PC H) as [_ HT].
  destruct (h_def _ _ (HT t (mentioned_adds _ _ M)) _ N) as [d [F _]].
  unfold add_metadata in H. step H. step H. unfold check_consistency in H. step H.
  injection H as <-. apply add_types_functions in E.
  assert (N0 : NoDup (functions a)) by (rewrite E; constructor).
  destruct (add_items_functions _ _ _ E0 N0) as [_ FN].
  assert (J : In (f_name f) (functions a0)).
  { rewrite FN. apply in_or_app. left. rewrite <- in_rev. apply in_flat_map.
    exists (MFunc f). split; [exact I | left; reflexivity]. }
  enough (X : existsb (fun f => match find_def f (type_definitions (types a0)) with
                       | Some _ => true | None => false end) (functions a0) = true) by congruence.
  apply existsb_exists. exists (f_name f). rewrite F. auto.
Qed.

(** Constructors of records and enums. *)
Lemma constructor_owner items i self f t : plain_constructors items -> add_metadata items = Ok i ->
  In (MConstructor self f) items -> mentioned_unboxed items t -> name_of t = Some self ->
  exists mp, t = TObject mp self IStruct /\ same_crate mp (f_mp f).
Proof.
  intros PC H I M N.
  assert (M' : mentioned_unboxed items (TObject (f_mp f) self IStruct)).
  { exists (MConstructor self f), (TObject (f_mp f) self IStruct).
    split; [exact I|]. split; [left; reflexivity|]. split; [reflexivity | apply in_self]. }
  assert (E := one_type _ _ _ _ _ PC H M M' N eq_refl).
  destruct t; cbn [normalize] in E; try discriminate.
  - injection E as E1 E2 E3. subst. eexists. split; [reflexivity | exact E1].
Qed.

(** ** Nothing else is known *)

Definition only (ts : list ty) (u v : universe) : Prop :=
  (forall t, In t (known v) -> In t (known u) \/ In t (map normalize ts)) /\
  (forall n t, find_def n (type_definitions v) = Some t ->
     find_def n (type_definitions u) = Some t \/ (In t ts /\ type_name t = Some n)).

Lemma only_refl u ts : only ts u u.
Proof. split; auto. Qed.

Lemma only_seq ts ts' u v w : only ts u v -> only ts' v w -> only (ts ++ ts') u w.
Proof.
  intros [A B] [C D]. split.
  - intros t I. rewrite map_app. destruct (C t I) as [J|J]; [destruct (A t J)|];
      auto using in_or_app.
  - intros n t F. destruct (D n t F) as [G|[J N]]; [destruct (B n t G) as [K|[K N]]|]; auto.
    + right. split; [apply in_or_app; auto | exact N].
    + right. split; [apply in_or_app; auto | exact N].
Qed.

Lemma only_weaken ts ts' u v : incl ts ts' -> only ts u v -> only ts' u v.
Proof.
  intros I [A B]. split.
  - intros t J. destruct (A t J) as [K|K]; [auto|]. right. apply in_map_iff in K as [x [<- K]].
    apply in_map. auto.
  - intros n t F. destruct (B n t F) as [G|[K N]]; auto.
Qed.

Lemma insert_only t u : only [t] u (insert_known t u).
Proof.
  unfold insert_known. destruct (in_dec ty_eq_dec t (known u)); [apply only_refl|].
  destruct (in_dec ty_eq_dec (normalize t) (known u)); [apply only_refl|].
  split; [|auto]. intros x [<-|I]; [right; left; reflexivity | auto].
Qed.

Lemma add_def_only n t u v : type_name t = Some n -> add_type_definition n t u = Ok v -> only [t] u v.
Proof.
  intros TN H. unfold add_type_definition in H. step H.
  - step H. injection H as <-. apply only_refl.
  - injection H as <-. split; [auto|]. intros m s. cbn [type_definitions find_def].
    destruct (bytes_eqb_spec m n) as [->|]; [|auto].
    intros F. injection F as <-. right. split; [left; reflexivity | exact TN].
Qed.

Lemma add_only_from_nested t :
  (forall u v, snd (add_and_nested t) u = Ok v -> only (nested_of t) u v) ->
  forall u v, fst (add_and_nested t) u = Ok v -> only (t :: nested_of t) u v.
Proof.
  intros NEST u v H.
  assert (E : fst (add_and_nested t) u =
    bind (snd (add_and_nested t) (insert_known t u)) (fun u =>
          match type_name t with
          | Some n => add_type_definition n t u
          | None => Ok u
          end)) by (destruct t; reflexivity).
  rewrite E in H. clear E. step H.
  apply (only_weaken ([t] ++ (nested_of t ++ [t]))).
  { intros x I. cbn [app] in I. destruct I as [<-|I]; [left; reflexivity|]. apply in_app_or in I as [I|I].
    - right. exact I.
    - destruct I as [<-|[]]. left. reflexivity. }
  apply (only_seq _ _ _ _ _ (insert_only t u)). apply (only_seq _ _ _ _ _ (NEST _ _ E)).
  destruct (type_name t) as [n|] eqn:TN.
  - exact (add_def_only _ _ _ _ TN H).
  - injection H as <-. apply only_refl.
Qed.

Lemma nested_only : forall t u v, snd (add_and_nested t) u = Ok v -> only (nested_of t) u v.
Proof.
  assert (ONE : forall t, (forall u v, snd (add_and_nested t) u = Ok v -> only (nested_of t) u v) ->
            forall u v, bind (fst (add_and_nested t) u) (snd (add_and_nested t)) = Ok v ->
            only (Reach_Model.iter_types t) u v).
  { intros t NEST u v H. destruct (fst (add_and_nested t) u) as [w| | |] eqn:F; try discriminate.
    cbn [bind] in H. apply (add_only_from_nested t NEST) in F. apply NEST in H.
    rewrite iter_types_cons. apply (only_weaken ((t :: nested_of t) ++ nested_of t)).
    - intros x I. apply in_app_or in I as [I|I]; [exact I | right; exact I].
    - exact (only_seq _ _ _ _ _ F H). }
  induction t; intros u v H.
  all: try (injection H as <-; apply only_refl).
  1-3, 5: cbn [nested_of tl Reach_Model.iter_types]; apply (ONE t IHt);
    revert H; cbn [add_and_nested snd]; destruct (add_and_nested t) as [add nested]; auto.
  cbn [nested_of tl Reach_Model.iter_types]. revert H. cbn [add_and_nested snd].
  assert (ONE1 := ONE t1 IHt1). assert (ONE2 := ONE t2 IHt2).
  destruct (add_and_nested t1) as [a1 n1], (add_and_nested t2) as [a2 n2]. cbn [fst snd] in *.
  intros H.
  destruct (a1 u) as [w1| | |] eqn:A1; try discriminate. cbn [bind] in H.
  destruct (n1 w1) as [w2| | |] eqn:N1; try discriminate. cbn [bind] in H.
  apply (only_seq _ _ u w2 v).
  - apply ONE1. rewrite A1. exact N1.
  - apply ONE2. exact H.
Qed.

Lemma add_known_types_only ts : forall u v, add_known_types ts u = Ok v ->
  only (flat_map Reach_Model.iter_types ts) u v.
Proof.
  induction ts as [|t ts IH]; intros u v H; cbn [add_known_types flat_map] in *.
  - injection H as <-. apply only_refl.
  - step H. apply (only_seq _ _ _ a); [|exact (IH _ _ H)].
    rewrite iter_types_cons. exact (add_only_from_nested t (nested_only t) _ _ E).
Qed.

Lemma add_types_only ts i j : add_types ts i = Ok j ->
  only (flat_map Reach_Model.iter_types ts) (types i) (types j).
Proof.
  unfold add_types. intros H. step H. injection H as <-. exact (add_known_types_only _ _ _ E).
Qed.

(** Nested types of nested types are nested. *)
Lemma iter_iter ts : incl (flat_map Reach_Model.iter_types (flat_map Reach_Model.iter_types ts))
                          (flat_map Reach_Model.iter_types ts).
Proof.
  intros x I. apply in_flat_map in I as [y [J I]]. apply in_flat_map in J as [z [K J]].
  apply in_flat_map. exists z. split; [exact K|]. clear K.
  revert x y I J. induction z; intros x y I J; cbn [Reach_Model.iter_types] in J;
    destruct J as [<-|J]; try exact I; try destruct J; cbn [Reach_Model.iter_types].
  all: try (right; eauto; fail).
  apply in_app_or in J as [J|J]; right; apply in_or_app; eauto.
Qed.

Lemma add_types_only' ts i j : add_types (flat_map Reach_Model.iter_types ts) i = Ok j ->
  only (flat_map Reach_Model.iter_types ts) (types i) (types j).
Proof. intros H. exact (only_weaken _ _ _ _ (iter_iter ts) (add_types_only _ _ _ H)). Qed.

Lemma add_item_only m i j : add_item m i = Ok j -> only (adds m) (types i) (types j).
Proof.
  intros H. unfold adds. destruct m; cbn [add_item signature] in *.
  - discriminate.
  - injection H as <-. apply only_refl.
  - step H. step H. step H. injection H as <-. exact (add_types_only' _ _ _ E1).
  - step H. injection H as <-. apply (only_weaken _ _ _ _) with (2 := add_types_only _ _ _ E).
    intros t I. cbn [flat_map] in *. rewrite app_nil_r in *. apply in_app_or in I as [I|I]; exact I.
  - step H. injection H as <-. exact (add_types_only _ _ _ E).
  - step H. step H. step H. injection H as <-.
    cbn [flat_map]. apply (only_seq _ _ _ (types a)).
    + assert (X := add_types_only _ _ _ E). cbn [flat_map] in X. rewrite app_nil_r in X. exact X.
    + rewrite fields_types_is in E1. exact (add_types_only' _ _ _ E1).
  - step H. step H. step H. injection H as <-.
    cbn [flat_map]. apply (only_seq _ _ _ (types a)).
    + assert (X := add_types_only _ _ _ E). cbn [flat_map] in X. rewrite app_nil_r in X. exact X.
    + rewrite variants_types_is in E1. exact (add_types_only' _ _ _ E1).
  - step H. apply (only_weaken (constructor_types self f)); [|exact (add_types_only' _ _ _ H)].
    unfold constructor_types. intros t I. apply in_flat_map in I as [x [I J]]. apply in_flat_map.
    exists x. split; [|exact J]. unfold signature_of.
    apply in_app_or in I as [I|[<-|I]]; [right; apply in_or_app; left; exact I | left; reflexivity |].
    right. apply in_or_app. right. apply in_or_app. right. exact I.
  - unfold add_method in H. step H. exact (add_types_only' _ _ _ H).
  - step H.
    + step H. step H. injection H as <-. exact (add_types_only' _ _ _ E1).
    + unfold add_method in H. step H. exact (add_types_only' _ _ _ H).
  - step H. assert (X := add_types_only _ _ _ E).
    step H.
    + destruct p as [b' mp']. step H. step H. injection H as <-. exact X.
    + injection H as <-. exact X.
  - step H. step H. step H. injection H as <-.
    destruct u; cbn [utrait_types] in E0; try exact (add_types_only' _ _ _ E0).
    unfold callable_types in E0. rewrite <- flat_map_app in E0. exact (add_types_only' _ _ _ E0).
  - step H. step H. injection H as <-. apply only_refl.
Qed.

Lemma add_items_only items : forall i j, add_items items i = Ok j ->
  only (flat_map adds items) (types i) (types j).
Proof.
  induction items as [|m items IH]; intros i j H; cbn [add_items flat_map] in *.
  - injection H as <-. apply only_refl.
  - step H. exact (only_seq _ _ _ _ _ (add_item_only _ _ _ E) (IH _ _ H)).
Qed.

Lemma nothing_else items i t : add_metadata items = Ok i -> In t (known (types i)) ->
  t = TString \/ exists u, mentioned items u /\ t = normalize u.
Proof.
  intros H I. unfold add_metadata in H. step H. step H.
  unfold check_consistency in H. step H. injection H as <-.
  destruct (add_types_only _ _ _ E) as [A _]. destruct (add_items_only _ _ _ E0) as [B _].
  destruct (B t I) as [J|J].
  - destruct (A t J) as [[]|[<-|[]]]. left. reflexivity.
  - right. apply in_map_iff in J as [u [<- J]]. exists u. split; [|reflexivity].
    apply in_flat_map in J as [m [Im J]]. apply in_flat_map in J as [s [Is J]].
    exists m, s. split; [exact Im|]. split; [exact Is | exact (Reach_Proofs.in_iter_inside _ _ J)].
Qed.

Lemma nothing_else_spec items i t : add_metadata items = Ok i -> In t (known (types i)) ->
  t = TString \/ exists u, mentioned items u /\ same_type u t.
Proof.
  intros H I. destruct (nothing_else _ _ _ H I) as [->|[u [M ->]]]; [auto|].
  right. exists u. auto using normalize_same.
Qed.

(** ** Owners, and the numbers of trait methods *)

Lemma add_types_rest ts i j : add_types ts i = Ok j ->
  records j = records i /\ enums j = enums i /\ objects j = objects i /\ callbacks j = callbacks i.
Proof. unfold add_types. intros H. step H. injection H as <-. auto. Qed.

Ltac rest :=
  repeat match goal with
  | E : add_types _ _ = Ok _ |- _ =>
      apply add_types_rest in E; destruct E as (? & ? & ? & ?)
  end.

Definition record_name (m : metadata) : list str := match m with MRecord r => [r_name r] | _ => [] end.
Definition enum_name (m : metadata) : list str := match m with MEnum e => [e_name e] | _ => [] end.
Definition object_name (m : metadata) : list str := match m with MObject o => [o_name o] | _ => [] end.

Lemma add_item_names m i j : add_item m i = Ok j ->
  records j = record_name m ++ records i /\ enums j = enum_name m ++ enums i /\
  objects j = object_name m ++ objects i.
Proof.
  intros H. destruct m; cbn [add_item record_name enum_name object_name app] in *; try discriminate;
    unfold add_method in *; repeat first [step H | discriminate H];
    try injection H as <-; cbn [records enums objects]; rest;
    repeat match goal with E : _ = _ |- _ => rewrite E end; repeat split; congruence.
Qed.

Lemma add_items_names items : forall i j, add_items items i = Ok j ->
  records j = rev (flat_map record_name items) ++ records i /\
  enums j = rev (flat_map enum_name items) ++ enums i /\
  objects j = rev (flat_map object_name items) ++ objects i.
Proof.
  induction items as [|m items IH]; intros i j H; cbn [add_items flat_map] in *.
  - injection H as <-. auto.
  - step H. destruct (add_item_names _ _ _ E) as (A1 & A2 & A3). destruct (IH _ _ H) as (B1 & B2 & B3).
    rewrite B1, B2, B3, A1, A2, A3, !rev_app_distr, <- !app_assoc.
    split; [|split]; f_equal; f_equal; destruct m; reflexivity.
Qed.

Lemma add_items_app l l' i : add_items (l ++ l') i = bind (add_items l i) (add_items l').
Proof.
  revert i. induction l as [|m l IH]; intro i; cbn [add_items app bind]; [reflexivity|].
  destruct (add_item m i); cbn [bind]; auto.
Qed.

Lemma add_metadata_items items i : add_metadata items = Ok i ->
  exists a, add_items items a = Ok i /\ records a = [] /\ enums a = [] /\ objects a = [] /\ callbacks a = [].
Proof.
  intros H. unfold add_metadata in H. step H. step H. rest. exists a.
  unfold check_consistency in H. step H. injection H as <-. auto.
Qed.

Lemma names_owner l a i self : add_items l a = Ok i ->
  records a = [] -> enums a = [] -> objects a = [] ->
  has self (objects i) || has self (records i) || has self (enums i) = true ->
  exists m, In m l /\ owner self m.
Proof.
  intros H R E O Q. destruct (add_items_names _ _ _ H) as (A1 & A2 & A3).
  rewrite R, app_nil_r in A1. rewrite E, app_nil_r in A2. rewrite O, app_nil_r in A3.
  apply orb_prop in Q. destruct Q as [Q | Q]; [apply orb_prop in Q; destruct Q as [Q | Q]|];
    apply has_spec in Q; rewrite ?A1, ?A2, ?A3 in Q; apply in_rev, in_flat_map in Q;
    destruct Q as (m & I & Q); exists m; (split; [exact I|]);
    destruct m; try contradiction; destruct Q as [Q | []]; exact Q.
Qed.

Lemma method_owned items i pre self f post : add_metadata items = Ok i ->
  items = pre ++ MMethod self f :: post -> exists m, In m pre /\ owner self m.
Proof.
  intros H ->. destruct (add_metadata_items _ _ H) as (a & A & R & E & O & _).
  rewrite add_items_app in A. destruct (add_items pre a) as [b| | |] eqn:P; cbn [bind] in A; try discriminate.
  cbn [add_items add_item] in A. unfold add_method in A.
  destruct (has self (objects b) || has self (records b) || has self (enums b)) eqn:Q; [|discriminate].
  exact (names_owner _ _ _ _ P R E O Q).
Qed.

Lemma add_item_once m i j : add_item m i = Ok j -> NoDup (records i) /\ NoDup (enums i) ->
  NoDup (records j) /\ NoDup (enums j).
Proof.
  intros H [N1 N2]. destruct (add_item_names _ _ _ H) as (A1 & A2 & _). rewrite A1, A2.
  destruct m; cbn [record_name enum_name app]; auto; cbn [add_item] in H; repeat step H; rest; split; auto;
    constructor; auto; intro I; apply has_spec in I; congruence.
Qed.
Lemma add_items_once items : forall i j, add_items items i = Ok j -> NoDup (records i) /\ NoDup (enums i) ->
  NoDup (records j) /\ NoDup (enums j).
Proof.
  induction items as [|m items IH]; intros i j H N; cbn [add_items] in H.
  - injection H as <-. exact N.
  - step H. exact (IH _ _ H (add_item_once _ _ _ E N)).
Qed.
Lemma definitions_once items i : add_metadata items = Ok i ->
  NoDup (flat_map record_name items) /\ NoDup (flat_map enum_name items).
Proof.
  intros H. destruct (add_metadata_items _ _ H) as (a & A & R & E & _).
  assert (N : NoDup (records a) /\ NoDup (enums a)) by (rewrite R, E; split; constructor).
  destruct (add_items_once _ _ _ A N) as [N1 N2]. destruct (add_items_names _ _ _ A) as (B1 & B2 & _).
  rewrite R, app_nil_r in B1. rewrite E, app_nil_r in B2. rewrite B1 in N1. rewrite B2 in N2.
  split; rewrite <- (rev_involutive (flat_map _ _)); apply NoDup_rev; assumption.
Qed.

Lemma find_bump n m l : find_callback n (bump m l) =
  if bytes_eqb m n then match find_callback n l with Some k => Some (k + 1)%Z | None => None end
  else find_callback n l.
Proof.
  induction l as [|[a k] l IH]; cbn [bump find_callback]; [destruct (bytes_eqb m n); reflexivity|].
  destruct (bytes_eqb_spec m a) as [-> | MA]; cbn [find_callback].
  - destruct (bytes_eqb_spec n a) as [-> | NA]; [rewrite bytes_eqb_refl; reflexivity|].
    destruct (bytes_eqb_spec a n); [congruence | reflexivity].
  - destruct (bytes_eqb_spec n a) as [-> | NA]; [|exact IH].
    destruct (bytes_eqb_spec m a); [congruence | reflexivity].
Qed.

Lemma add_item_numbers n m i j k : add_item m i = Ok j -> find_callback n (callbacks i) = Some k ->
  (forall mp doc, m <> MCallback mp n doc) ->
  (method_numbers n [m] = [] /\ find_callback n (callbacks j) = Some k) \/
  (method_numbers n [m] = [k] /\ find_callback n (callbacks j) = Some (k + 1)%Z).
Proof.
  intros H F NC. unfold method_numbers. cbn [flat_map]. rewrite app_nil_r.
  destruct m as [ | | | |mp' n' doc'| | | | |self index f| | | ]; cbn [add_item] in H; try discriminate.
  all: try (left; split; [reflexivity|]; unfold add_method in *; repeat first [step H | discriminate H];
            try injection H as <-; cbn [callbacks]; rest; congruence).
  - left. split; [reflexivity|]. step H. injection H as <-. cbn [callbacks find_callback]. rest.
    destruct (bytes_eqb_spec n n') as [-> | N]; [exfalso; exact (NC _ _ eq_refl) | congruence].
  - destruct (str_eq_dec self n) as [-> | N].
    + rewrite F in H. step H. apply Z.eqb_eq in E. subst index. step H. injection H as <-. rest.
      right. split; [reflexivity|]. cbn [callbacks]. rewrite find_bump, bytes_eqb_refl. 
      match goal with Q : callbacks _ = callbacks _ |- _ => rewrite Q, F end. reflexivity.
    + left. split; [reflexivity|]. destruct (find_callback self (callbacks i)).
      * step H. step H. injection H as <-. rest. cbn [callbacks]. rewrite find_bump.
        destruct (bytes_eqb_spec self n); [congruence|]. congruence.
      * unfold add_method in H. step H. rest. congruence.
Qed.

Lemma numbers_from n items : forall i j k, add_items items i = Ok j ->
  find_callback n (callbacks i) = Some (Z.of_nat k) -> no_callback n items ->
  method_numbers n items = map Z.of_nat (seq k (length (method_numbers n items))).
Proof.
  induction items as [|m items IH]; intros i j k H F NC; [reflexivity|].
  cbn [add_items] in H. step H. change (m :: items) with ([m] ++ items).
  assert (NC' : no_callback n items) by (intros mp doc I; apply (NC mp doc); right; exact I).
  assert (M : method_numbers n ([m] ++ items) = method_numbers n [m] ++ method_numbers n items)
    by (unfold method_numbers; apply flat_map_app).
  rewrite M. destruct (add_item_numbers n _ _ _ _ E F) as [[Q G] | [Q G]].
  - intros mp doc ->. apply (NC mp doc). left. reflexivity.
  - rewrite Q. exact (IH _ _ _ H G NC').
  - rewrite Q. cbn [app length seq map]. f_equal.
    replace (Z.of_nat k + 1)%Z with (Z.of_nat (S k)) in G by lia. exact (IH _ _ _ H G NC').
Qed.

Lemma trait_numbers items i pre mp n doc post : add_metadata items = Ok i ->
  items = pre ++ MCallback mp n doc :: post -> no_callback n post ->
  method_numbers n post = count_up (length (method_numbers n post)).
Proof.
  intros H -> NC. destruct (add_metadata_items _ _ H) as (a & A & _).
  rewrite add_items_app in A. destruct (add_items pre a) as [b| | |]; cbn [bind] in A; try discriminate.
  cbn [add_items add_item] in A. step A. step E. injection E as <-.
  refine (numbers_from n post _ _ 0 A _ NC).
  cbn [callbacks find_callback]. rewrite bytes_eqb_refl. reflexivity.
Qed.

(** A method of a callback interface does not come before it. *)
Lemma trait_method_first items i pre mp n doc post k f : plain_constructors items ->
  add_metadata items = Ok i -> items = pre ++ MCallback mp n doc :: post -> no_callback n pre ->
  ~ In (MTraitMethod n k f) pre.
Proof.
  intros PC H EI NC I.
  assert (OW : exists m, In m pre /\ owner n m).
  { apply in_split in I. destruct I as (p & q & ->).
    destruct (add_metadata_items _ _ H) as (a & A & R & EN & O & C). rewrite EI, <- app_assoc in A.
    rewrite add_items_app in A. destruct (add_items p a) as [b| | |] eqn:P; cbn [bind] in A; try discriminate.
    cbn [app add_items add_item] in A.
    assert (F : find_callback n (callbacks b) = None).
    { assert (NP : no_callback n p) by (intros mp' doc' J; apply (NC mp' doc'), in_or_app; left; exact J).
      assert (F0 : find_callback n (callbacks a) = None) by (rewrite C; reflexivity).
      clear - P NP F0. revert a P F0. induction p as [|m p IH]; intros a P F0; cbn [add_items] in P.
      - injection P as <-. exact F0.
      - step P. refine (IH _ _ P _); [intros mp' doc' J; apply (NP mp' doc'); right; exact J|].
        destruct m as [ | | | |mp' n' doc'| | | | |self index g| | | ]; cbn [add_item] in E; try discriminate;
          try (unfold add_method in *; repeat first [step E | discriminate E];
               try injection E as <-; cbn [callbacks]; rest; congruence).
        + step E. injection E as <-. rest. cbn [callbacks find_callback].
          destruct (bytes_eqb_spec n n') as [-> | N]; [|congruence].
          exfalso. apply (NP mp' doc'). left. reflexivity.
        + destruct (find_callback self (callbacks a)) eqn:FS.
          * step E. step E. injection E as <-. rest. cbn [callbacks]. rewrite find_bump.
            destruct (bytes_eqb_spec self n); congruence.
          * unfold add_method in E. step E. rest. congruence. }
    rewrite F in A. unfold add_method in A.
    destruct (has n (objects b) || has n (records b) || has n (enums b)) eqn:Q; [|discriminate].
    destruct (names_owner _ _ _ _ P R EN O Q) as (m & J & OM). exists m. split; [|exact OM].
    apply in_or_app. left. exact J. }
  destruct OW as (m & J & OM).
  assert (M1 : mentioned_unboxed items (TCallback mp n)).
  { exists (MCallback mp n doc), (TCallback mp n). split; [rewrite EI; apply in_or_app; right; left; reflexivity|].
    split; [left; reflexivity|]. split; [reflexivity | apply in_self]. }
  assert (IM : In m items) by (rewrite EI; apply in_or_app; left; exact J).
  assert (M2 : exists t, mentioned_unboxed items t /\ name_of t = Some n /\ crate_and_sort t <> crate_and_sort (TCallback mp n)).
  { destruct m as [ | | |o| |r|e| | | | | | ]; try contradiction; cbn [owner] in OM; subst n;
      [exists (TObject (o_mp o) (o_name o) (o_imp o)) | exists (TRecord (r_mp r) (r_name r))
      | exists (TEnum (e_mp e) (e_name e))]; (split; [|split; [reflexivity|]]).
    1,3,5: eexists; eexists; split; [exact IM|]; split; [left; reflexivity|]; split; [reflexivity | apply in_self].
    all: cbn [crate_and_sort]; intro X; injection X; discriminate. }
  destruct M2 as (t & M2 & N2 & D).
  destruct (one_type_per_name _ _ _ _ n PC H M2 M1 N2 eq_refl) as [X _]. exact (D X).
Qed.
