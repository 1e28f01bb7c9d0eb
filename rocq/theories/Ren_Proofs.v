(** Proofs for C39. *)
From Verif Require Import Base Meta_Types Reach_Spec Ren_Model Ren_Spec.
From Verif Require Names_Model.

(** ** Tables *)

Lemma assoc_in {A} k (l : list (str * A)) a : assoc k l = Some a -> In (k, a) l.
Proof.
  induction l as [|[k' b] l IH]; [discriminate|]. cbn [assoc].
  destruct (bytes_eqb_spec k k') as [->|]; intros H.
  - injection H as ->. left. reflexivity.
  - right. auto.
Qed.

Lemma in_assoc {A} k (l : list (str * A)) a : NoDup (map fst l) -> In (k, a) l -> assoc k l = Some a.
Proof.
  induction l as [|[k' b] l IH]; [intros _ []|]. cbn [map fst assoc]. intros N I.
  inversion N as [|x y N1 N2]; subst. destruct (bytes_eqb_spec k k') as [->|D].
  - destruct I as [E|I]; [congruence|]. exfalso. apply N1. apply in_map_iff. exists (k', a). auto.
  - destruct I as [E|I]; [congruence|]. auto.
Qed.

(** The name found in the table of a crate. *)
Definition found (rs : tables) (crate key : str) : option str :=
  match assoc crate rs with Some t => table_get key t | None => None end.

Lemma found_some rs c k n : found rs c k = Some n -> configured rs c k n.
Proof.
  unfold found, table_get. destruct (assoc c rs) as [t|] eqn:E; [|discriminate].
  destruct (assoc k t) as [[s|]|] eqn:F; intros H; try discriminate. injection H as <-.
  exists t. split; apply assoc_in; assumption.
Qed.

Lemma configured_found rs c k n : unique_keys rs -> configured rs c k n -> found rs c k = Some n.
Proof.
  intros [U V] [t [I J]]. unfold found, table_get.
  rewrite (in_assoc _ _ _ U I), (in_assoc _ _ _ (V _ _ I) J). reflexivity.
Qed.

Lemma right_found rs c k n : unique_keys rs -> right_name rs c k n (or_same (found rs c k) n).
Proof.
  intros U. destruct (found rs c k) as [m|] eqn:F; cbn [or_same].
  - left. apply found_some. exact F.
  - right. split; [reflexivity|]. intros m C. rewrite (configured_found _ _ _ _ U C) in F. discriminate.
Qed.

Lemma right_is_found rs c k n m : unique_keys rs -> right_name rs c k n m -> m = or_same (found rs c k) n.
Proof.
  intros U [C|[-> C]].
  - rewrite (configured_found _ _ _ _ U C). reflexivity.
  - destruct (found rs c k) as [x|] eqn:F; [|reflexivity]. destruct (C x (found_some _ _ _ _ F)).
Qed.

Lemma new_name_found rs mp k : new_name rs mp k = found rs (Names_Model.crate_name mp) k.
Proof. reflexivity. Qed.

(** ** Lists *)

Lemma Forall2_map_r {A B} (R : A -> B -> Prop) (f : A -> B) l :
  (forall x, In x l -> R x (f x)) -> Forall2 R l (map f l).
Proof.
  induction l as [|a l IH]; intros H; [apply Forall2_nil|]. apply Forall2_cons.
  - apply H. left. reflexivity.
  - apply IH. intros x I. apply H. right. exact I.
Qed.

Lemma flat_map_map {A B C} (f : B -> list C) (g : A -> B) l :
  flat_map f (map g l) = flat_map (fun x => f (g x)) l.
Proof. induction l as [|a l IH]; [reflexivity|]. cbn [map flat_map]. rewrite IH. reflexivity. Qed.

Lemma map_flat_map {A B C} (g : B -> C) (f : A -> list B) l :
  map g (flat_map f l) = flat_map (fun x => map g (f x)) l.
Proof. induction l as [|a l IH]; [reflexivity|]. cbn [flat_map]. rewrite map_app, IH. reflexivity. Qed.

Lemma flat_map_same {A B} (f g : A -> list B) l : (forall x, f x = g x) -> flat_map f l = flat_map g l.
Proof. intros E. induction l as [|a l IH]; [reflexivity|]. cbn [flat_map]. rewrite E, IH. reflexivity. Qed.

Lemma app_same {A} (a b c d : list A) : a = b -> c = d -> a ++ c = b ++ d.
Proof. intros -> ->. reflexivity. Qed.

Lemma opt_map f o : opt (option_map f o) = map f (opt o).
Proof. destruct o; reflexivity. Qed.

Lemma F2_flat {A A' B B'} (Q : A -> A' -> Prop) (R : B -> B' -> Prop) f g l l' :
  Forall2 Q l l' -> (forall a b, Q a b -> Forall2 R (f a) (g b)) ->
  Forall2 R (flat_map f l) (flat_map g l').
Proof.
  intros F H. induction F as [|a b l l' H1 H2 IH]; [apply Forall2_nil|].
  cbn [flat_map]. apply Forall2_app; auto.
Qed.

Lemma F2_map {A A' B B'} (Q : A -> A' -> Prop) (R : B -> B' -> Prop) f g l l' :
  Forall2 Q l l' -> (forall a b, Q a b -> R (f a) (g b)) -> Forall2 R (map f l) (map g l').
Proof.
  intros F H. induction F as [|a b l l' H1 H2 IH]; [apply Forall2_nil|].
  cbn [map]. apply Forall2_cons; auto.
Qed.

Lemma F2_weaken {A B} (Q R : A -> B -> Prop) l l' :
  (forall a b, Q a b -> R a b) -> Forall2 Q l l' -> Forall2 R l l'.
Proof. intros H F. induction F; [apply Forall2_nil | apply Forall2_cons; auto]. Qed.

(** ** Types *)

Notation crate := Names_Model.crate_name.

Lemma rename_recursive_right rs c0 : unique_keys rs -> forall t, no_box t ->
  (forall u mp, inside u t -> named_path u = Some mp -> crate mp = c0) ->
  renaming crate rs t (rename_recursive (fun n => or_same (found rs c0 n) n) t).
Proof.
  intros U. induction t; intros NB ONE; cbn [rename_recursive].
  all: try (apply rn_builtin; intros u I; inversion I; subst; reflexivity).
  all: try (specialize (ONE _ _ (in_self _) eq_refl) as E; subst c0).
  - apply rn_object. apply right_found. exact U.
  - apply rn_record. apply right_found. exact U.
  - apply rn_enum. apply right_found. exact U.
  - apply rn_callback. apply right_found. exact U.
  - destruct (NB t (in_self _)).
  - apply rn_option. apply IHt.
    + intros b I. apply (NB b). constructor. exact I.
    + intros u mp I. apply ONE. constructor. exact I.
  - apply rn_seq. apply IHt.
    + intros b I. apply (NB b). constructor. exact I.
    + intros u mp I. apply ONE. constructor. exact I.
  - apply rn_set. apply IHt.
    + intros b I. apply (NB b). constructor. exact I.
    + intros u mp I. apply ONE. constructor. exact I.
  - apply rn_map; [apply IHt1 | apply IHt2].
    + intros b I. apply (NB b). apply in_key. exact I.
    + intros u mp I. apply ONE. apply in_key. exact I.
    + intros b I. apply (NB b). apply in_value. exact I.
    + intros u mp I. apply ONE. apply in_value. exact I.
  - apply rn_custom; [apply right_found; exact U|]. apply IHt.
    + intros b I. apply (NB b). constructor. exact I.
    + intros u mp' I. apply ONE. constructor. exact I.
Qed.

Definition fine (this : str) (t : ty) : Prop := no_box t /\ one_crate this t.

Lemma visit_type_right rs this t : unique_keys rs -> fine this t ->
  renaming crate rs t (visit_type rs this t).
Proof.
  intros U [NB ONE]. unfold visit_type.
  apply (rename_recursive_right rs (crate (match type_path t with Some mp => mp | None => this end)));
    [exact U | exact NB |].
  intros u mp I P. rewrite (ONE u mp I P). change (named_path t) with (type_path t).
  destruct (type_path t); reflexivity.
Qed.

(** ** Mentions in the component interface *)

Lemma snd_visit_arg_types rs this l :
  map snd (visit_arg_types rs this l) = map (visit_type rs this) (map snd l).
Proof. unfold visit_arg_types. rewrite !map_map. reflexivity. Qed.

Lemma snd_visit_args rs this path l : map snd (visit_args rs this path l) = map snd l.
Proof. unfold visit_args. rewrite map_map. reflexivity. Qed.

Lemma snd_rename_fields rs mp path l : map snd (rename_fields rs mp path l) = map snd l.
Proof. unfold rename_fields. rewrite map_map. reflexivity. Qed.

Definition covered (c : ci) : list ty :=
  field_mentions c ++ function_mentions c ++ method_mentions c ++ constructor_arguments c ++
  callback_arguments c.

Lemma covered_renamed rs c : covered (rename rs c) = map (visit_type rs (ci_crate c)) (covered c).
Proof.
  unfold covered, field_mentions, function_mentions, method_mentions, constructor_arguments,
    callback_arguments.
  unfold rename. cbn [enums records functions objects callbacks].
  rewrite !map_app, !flat_map_map, !map_flat_map.
  assert (SIG : forall f, arg_types (visit_signature rs (ci_crate c) f) ++
                          outcome (visit_signature rs (ci_crate c) f) =
                          map (visit_type rs (ci_crate c)) (arg_types f ++ outcome f)).
  { intros f. unfold arg_types, outcome, visit_signature. cbn [c_args c_ret c_throws].
    rewrite !map_app, snd_visit_arg_types, !opt_map. reflexivity. }
  assert (ARG : forall f, arg_types (visit_arguments_only rs (ci_crate c) f) =
                          map (visit_type rs (ci_crate c)) (arg_types f)).
  { intros f. unfold arg_types, visit_arguments_only. cbn [c_args]. apply snd_visit_arg_types. }
  assert (MET : forall o f, arg_types (visit_method rs (ci_crate c) o f) = arg_types f /\
                            outcome (visit_method rs (ci_crate c) o f) = outcome f).
  { intros o f. unfold arg_types, outcome, visit_method. cbn [c_args c_ret c_throws].
    rewrite snd_visit_args. auto. }
  repeat apply app_same; apply flat_map_same; intros x.
  - unfold visit_enum. cbn [ed_variants]. rewrite flat_map_map, map_flat_map. apply flat_map_same.
    intros v. unfold visit_variant. cbn [vd_fields]. rewrite snd_visit_arg_types, snd_rename_fields.
    reflexivity.
  - unfold visit_record. cbn [rd_fields]. rewrite snd_visit_arg_types, snd_rename_fields. reflexivity.
  - rewrite SIG. f_equal. unfold visit_function, arg_types, outcome. cbn [c_args c_ret c_throws].
    rewrite snd_visit_args. reflexivity.
  - unfold visit_object. cbn [od_methods]. rewrite flat_map_map, map_flat_map. apply flat_map_same.
    intros m. rewrite SIG. destruct (MET (od_name x) m) as [-> ->]. reflexivity.
  - unfold visit_object. cbn [od_constructors]. rewrite flat_map_map, map_flat_map. apply flat_map_same.
    intros m. rewrite ARG. destruct (MET (od_name x) m) as [-> _]. reflexivity.
  - unfold visit_callback. cbn [cb_methods]. rewrite flat_map_map, map_flat_map. apply flat_map_same.
    intros m. rewrite ARG.
    destruct (MET (or_same (new_name rs (cb_mp x) (cb_name x)) (cb_name x)) m) as [-> _]. reflexivity.
Qed.

Lemma covered_right rs c : unique_keys rs ->
  Forall2 (fun t t' => no_box t -> one_crate (ci_crate c) t -> renaming crate rs t t')
          (covered c) (covered (rename rs c)).
Proof.
  intros U. rewrite covered_renamed. apply Forall2_map_r. intros t _ NB ONE.
  apply visit_type_right; [exact U | split; assumption].
Qed.

Lemma known_right rs c : unique_keys rs ->
  Forall2 (fun t t' => no_box t -> one_crate (ci_crate c) t -> renaming crate rs t t')
          (known c) (known (rename rs c)).
Proof.
  intros U. unfold rename. cbn [known]. apply Forall2_map_r. intros t _ NB ONE.
  apply visit_type_right; [exact U | split; assumption].
Qed.

(** ** Names in the component interface *)

Definition better (rs : tables) (s : slot) : str :=
  or_same (new_name rs (fst (fst s)) (snd (fst s))) (snd s).

Lemma better_right rs l l' : unique_keys rs -> map snd l' = map (better rs) l ->
  Forall2 (renames_slot crate rs) l l'.
Proof.
  intros U. revert l'. induction l as [|s l IH]; intros [|s' l'] E; try discriminate;
    [apply Forall2_nil|]. cbn [map] in E. injection E as E1 E2. apply Forall2_cons; [|auto].
  unfold renames_slot. rewrite E1. apply right_found. exact U.
Qed.

Lemma slots_fields rs this mp path mp' path' l :
  map snd (slots_of mp' path' (visit_arg_types rs this (rename_fields rs mp path l))) =
  map (better rs) (slots_of mp path l).
Proof.
  unfold slots_of, visit_arg_types, rename_fields. rewrite !map_map. apply map_ext. intros [n t].
  reflexivity.
Qed.

Lemma slots_args rs this path mp' path' l :
  map snd (slots_of mp' path' (visit_arg_types rs this (visit_args rs this path l))) =
  map (better rs) (slots_of this path l).
Proof. apply slots_fields. Qed.

Lemma callable_sig rs this path mp' path' c n : n = or_same (new_name rs this path) (c_name c) ->
  map snd (callable_slots mp' path'
    (visit_signature rs this (Callable n (visit_args rs this path (c_args c)) (c_ret c) (c_throws c) (c_self c)))) =
  map (better rs) (callable_slots this path c).
Proof.
  intros ->. unfold callable_slots, visit_signature. cbn [map c_name c_args snd].
  rewrite slots_args. reflexivity.
Qed.

Lemma callable_args rs this path mp' path' c n : n = or_same (new_name rs this path) (c_name c) ->
  map snd (callable_slots mp' path'
    (visit_arguments_only rs this (Callable n (visit_args rs this path (c_args c)) (c_ret c) (c_throws c) (c_self c)))) =
  map (better rs) (callable_slots this path c).
Proof.
  intros ->. unfold callable_slots, visit_arguments_only. cbn [map c_name c_args snd].
  rewrite slots_args. reflexivity.
Qed.

Lemma definition_names rs c :
  map snd (definition_slots (rename rs c)) = map (better rs) (definition_slots c).
Proof.
  unfold definition_slots, rename. cbn [enums records functions objects callbacks ci_crate].
  rewrite !map_app, !flat_map_map, !map_flat_map, !map_map.
  assert (EN : flat_map (fun x => map snd ((ed_mp (visit_enum rs (ci_crate c) x), ed_name (visit_enum rs (ci_crate c) x), ed_name (visit_enum rs (ci_crate c) x)) ::
    flat_map (fun v => (ed_mp (visit_enum rs (ci_crate c) x), dot (ed_name (visit_enum rs (ci_crate c) x)) (vd_name v), vd_name v) ::
       slots_of (ed_mp (visit_enum rs (ci_crate c) x)) (dot (ed_name (visit_enum rs (ci_crate c) x)) (vd_name v)) (vd_fields v)) (ed_variants (visit_enum rs (ci_crate c) x)))) (enums c) =
    flat_map (fun x => map (better rs) ((ed_mp x, ed_name x, ed_name x) ::
    flat_map (fun v => (ed_mp x, dot (ed_name x) (vd_name v), vd_name v) ::
       slots_of (ed_mp x) (dot (ed_name x) (vd_name v)) (vd_fields v)) (ed_variants x))) (enums c)).
  { apply flat_map_same. intros e. cbn [map]. f_equal. rewrite !map_flat_map.
    change (ed_variants (visit_enum rs (ci_crate c) e)) with
      (map (visit_variant rs (ci_crate c) (ed_mp e) (ed_name e)) (ed_variants e)).
    rewrite flat_map_map. apply flat_map_same. intros v. cbn [map]. f_equal. apply slots_fields. }
  assert (RE : flat_map (fun x => map snd ((rd_mp (visit_record rs (ci_crate c) x), rd_name (visit_record rs (ci_crate c) x), rd_name (visit_record rs (ci_crate c) x)) ::
    slots_of (rd_mp (visit_record rs (ci_crate c) x)) (rd_name (visit_record rs (ci_crate c) x)) (rd_fields (visit_record rs (ci_crate c) x)))) (records c) =
    flat_map (fun x => map (better rs) ((rd_mp x, rd_name x, rd_name x) ::
    slots_of (rd_mp x) (rd_name x) (rd_fields x))) (records c)).
  { apply flat_map_same. intros r. cbn [map]. f_equal. apply slots_fields. }
  rewrite EN, RE. apply app_same; [reflexivity|]. apply app_same; [reflexivity|]. repeat apply app_same.
  - apply flat_map_same. intros f. apply callable_sig. reflexivity.
  - apply flat_map_same. intros o. cbn [map]. f_equal. unfold method_slots.
    rewrite !flat_map_app, !map_app, !map_flat_map. unfold visit_object. cbn [od_constructors od_methods].
    rewrite !flat_map_map. f_equal; apply flat_map_same; intros m.
    + apply callable_args. reflexivity.
    + apply callable_sig. reflexivity.
  - apply map_ext. intros b. reflexivity.
Qed.

Lemma definition_names_right rs c : unique_keys rs ->
  Forall2 (renames_slot crate rs) (definition_slots c) (definition_slots (rename rs c)).
Proof. intros U. apply better_right; [exact U | apply definition_names]. Qed.

Lemma callback_names_right rs c : unique_keys rs ->
  (forall b n, In b (callbacks c) -> ~ configured rs (crate (cb_mp b)) (cb_name b) n) ->
  Forall2 (renames_slot crate rs) (callback_slots c) (callback_slots (rename rs c)).
Proof.
  intros U NO. apply better_right; [exact U|]. unfold callback_slots, rename. cbn [callbacks ci_crate].
  rewrite flat_map_map, !map_flat_map.
  assert (X : forall l, (forall b, In b l -> In b (callbacks c)) ->
    flat_map (fun x => map snd (method_slots (ci_crate c) (cb_name (visit_callback rs (ci_crate c) x)) (cb_methods (visit_callback rs (ci_crate c) x)))) l =
    flat_map (fun x => map (better rs) (method_slots (ci_crate c) (cb_name x) (cb_methods x))) l).
  { induction l as [|b l IH]; intros I; [reflexivity|]. cbn [flat_map].
    rewrite IH by (intros x J; apply I; right; exact J). f_equal.
    assert (E : new_name rs (cb_mp b) (cb_name b) = None).
    { destruct (new_name rs (cb_mp b) (cb_name b)) as [n|] eqn:F; [|reflexivity].
      destruct (NO b n (I b (or_introl eq_refl)) (found_some _ _ _ _ F)). }
    unfold visit_callback, method_slots. cbn [cb_name cb_methods]. rewrite E. cbn [or_same].
    rewrite !map_flat_map, flat_map_map. apply flat_map_same. intros m. apply callable_args. reflexivity. }
  apply X. auto.
Qed.

(** ** Definitions stay found *)

Lemma resolves_after rs c t t' : unique_keys rs -> resolves c t -> renaming crate rs t t' ->
  resolves (rename rs c) t'.
Proof.
  intros U RE RN. inversion RN as [mp n n' i H|mp n n' H|mp n n' H|mp n n' H|mp n n' s s' H RN'|
    s s' RN'|s s' RN'|s s' RN'|s s' RN'|k k' v v' R1 R2|s H]; subst; cbn [resolves] in *; try exact I.
  - destruct RE as [o [Io [En Ec]]]. exists (visit_object rs (ci_crate c) o). split.
    + unfold rename. cbn [objects]. apply in_map. exact Io.
    + split; [|exact Ec]. cbn [visit_object od_name]. rewrite new_name_found, Ec, En.
      symmetry. apply right_is_found; assumption.
  - destruct RE as [r [Ir [En Ec]]]. exists (visit_record rs (ci_crate c) r). split.
    + unfold rename. cbn [records]. apply in_map. exact Ir.
    + split; [|exact Ec]. cbn [visit_record rd_name]. rewrite new_name_found, Ec, En.
      symmetry. apply right_is_found; assumption.
  - destruct RE as [r [Ir [En Ec]]]. exists (visit_enum rs (ci_crate c) r). split.
    + unfold rename. cbn [enums]. apply in_map. exact Ir.
    + split; [|exact Ec]. cbn [visit_enum ed_name]. rewrite new_name_found, Ec, En.
      symmetry. apply right_is_found; assumption.
  - destruct RE as [r [Ir [En Ec]]]. exists (visit_callback rs (ci_crate c) r). split.
    + unfold rename. cbn [callbacks]. apply in_map. exact Ir.
    + split; [|exact Ec]. cbn [visit_callback cb_name]. rewrite new_name_found, Ec, En.
      symmetry. apply right_is_found; assumption.
  - destruct t'; cbn [resolves]; try exact I; discriminate (H _ (in_self _)).
Qed.

(** ** The pipeline *)

Ltac step H := match type of H with
  | bind ?x _ = Ok _ => let E := fresh "E" in destruct x eqn:E; try discriminate; cbn [bind] in H
  end.

Lemma p_rename_right rs ns key n n' : unique_keys rs -> p_rename rs ns key n = Ok n' ->
  right_name rs ns key n n'.
Proof.
  intros U H. unfold p_rename, p_new_name in H.
  assert (R := right_found rs ns key n U). unfold found in R.
  destruct (assoc ns rs); [|discriminate]. cbn [bind] in H. injection H as <-. exact R.
Qed.

Lemma builtin_renaming rs t : (forall u, inside u t -> named_path u = None) ->
  renaming (fun ns => ns) rs t t.
Proof. intros H. apply rn_builtin. exact H. Qed.

Lemma p_type_right rs : unique_keys rs -> forall t t', p_type rs t = Ok t' ->
  no_box t -> builtin_customs t -> renaming (fun ns => ns) rs t t'.
Proof.
  intros U. induction t; intros t' H NB BC; cbn [p_type] in H.
  all: try (injection H as <-; apply rn_builtin; intros u I; inversion I; subst; reflexivity).
  - step H. injection H as <-. apply rn_object. exact (p_rename_right _ _ _ _ _ U E).
  - step H. injection H as <-. apply rn_record. exact (p_rename_right _ _ _ _ _ U E).
  - step H. injection H as <-. apply rn_enum. exact (p_rename_right _ _ _ _ _ U E).
  - step H. injection H as <-. apply rn_callback. exact (p_rename_right _ _ _ _ _ U E).
  - destruct (NB t (in_self _)).
  - step H. injection H as <-. apply rn_option. apply IHt; [reflexivity| |].
    + intros b I. apply (NB b). constructor. exact I.
    + intros mp n b u I. apply (BC mp n). constructor. exact I.
  - step H. injection H as <-. apply rn_seq. apply IHt; [reflexivity| |].
    + intros b I. apply (NB b). constructor. exact I.
    + intros mp n b u I. apply (BC mp n). constructor. exact I.
  - step H. injection H as <-. apply rn_set. apply IHt; [reflexivity| |].
    + intros b I. apply (NB b). constructor. exact I.
    + intros mp n b u I. apply (BC mp n). constructor. exact I.
  - step H. step H. injection H as <-. apply rn_map; [apply IHt1 | apply IHt2]; try reflexivity.
    + intros b I. apply (NB b). apply in_key. exact I.
    + intros mp n b u I. apply (BC mp n). apply in_key. exact I.
    + intros b I. apply (NB b). apply in_value. exact I.
    + intros mp n b u I. apply (BC mp n). apply in_value. exact I.
  - step H. injection H as <-. apply rn_custom; [exact (p_rename_right _ _ _ _ _ U E)|].
    apply rn_builtin. intros u I. exact (BC _ _ _ _ (in_self _) I).
Qed.

Lemma mapM_F2 {A B} (f : A -> res B) l : forall l', mapM f l = Ok l' -> Forall2 (fun a b => f a = Ok b) l l'.
Proof.
  induction l as [|a l IH]; intros l' H; cbn [mapM] in H.
  - injection H as <-. apply Forall2_nil.
  - step H. step H. injection H as <-. apply Forall2_cons; auto.
Qed.

Definition p_right (rs : tables) (t t' : ty) : Prop :=
  no_box t -> builtin_customs t -> renaming (fun ns => ns) rs t t'.

Section P.
  Variable rs : tables.
  Variable ns : str.
  Hypothesis U : unique_keys rs.

  Lemma p_types l l' : mapM (p_type rs) l = Ok l' -> Forall2 (p_right rs) l l'.
  Proof.
    intros H. apply mapM_F2 in H. refine (F2_weaken _ _ _ _ _ H). intros t t' E NB BC.
    exact (p_type_right rs U t t' E NB BC).
  Qed.

  Lemma p_opt o o' : optM (p_type rs) o = Ok o' -> Forall2 (p_right rs) (opt o) (opt o').
  Proof.
    destruct o as [t|]; cbn [optM]; intros H.
    - step H. injection H as <-. apply Forall2_cons; [|apply Forall2_nil].
      intros NB BC. exact (p_type_right rs U t a E NB BC).
    - injection H as <-. apply Forall2_nil.
  Qed.

  Lemma p_item_type path a b : p_item rs ns path a = Ok b -> p_right rs (snd a) (snd b).
  Proof.
    unfold p_item. intros H. step H. step H. injection H as <-. intros NB BC.
    exact (p_type_right rs U _ _ E0 NB BC).
  Qed.

  Lemma p_items_types path l l' : mapM (p_item rs ns path) l = Ok l' ->
    Forall2 (p_right rs) (map snd l) (map snd l').
  Proof.
    intros H. apply mapM_F2 in H. refine (F2_map _ _ _ _ _ _ H _). apply p_item_type.
  Qed.

  Record callable_right (c c' : callable) : Prop := {
    cr_args : Forall2 (p_right rs) (arg_types c) (arg_types c');
    cr_ret : Forall2 (p_right rs) (opt (c_ret c)) (opt (c_ret c'));
    cr_throws : Forall2 (p_right rs) (opt (c_throws c)) (opt (c_throws c'));
    cr_self : Forall2 (p_right rs) (opt (c_self c)) (opt (c_self c')) }.

  Lemma p_callable_right path c c' : p_callable rs ns path c = Ok c' -> callable_right c c'.
  Proof.
    unfold p_callable. intros H. step H. step H. step H. step H. step H. injection H as <-.
    split; unfold arg_types; cbn [c_args c_ret c_throws c_self];
      [exact (p_items_types _ _ _ E0) | exact (p_opt _ _ E1) | exact (p_opt _ _ E2) | exact (p_opt _ _ E3)].
  Qed.

  Lemma cr_outcome c c' : callable_right c c' -> Forall2 (p_right rs) (outcome c) (outcome c').
  Proof. intros [A B C D]. unfold outcome. apply Forall2_app; assumption. Qed.
  Lemma cr_sig c c' : callable_right c c' ->
    Forall2 (p_right rs) (arg_types c ++ outcome c) (arg_types c' ++ outcome c').
  Proof. intros H. apply Forall2_app; [exact (cr_args _ _ H) | exact (cr_outcome _ _ H)]. Qed.
  Lemma cr_all c c' : callable_right c c' -> Forall2 (p_right rs) (all_types c) (all_types c').
  Proof.
    intros H. unfold all_types. apply Forall2_app; [exact (cr_args _ _ H)|].
    apply Forall2_app; [exact (cr_outcome _ _ H) | exact (cr_self _ _ H)].
  Qed.

  Lemma p_methods owner l l' : mapM (p_method rs ns owner) l = Ok l' -> Forall2 callable_right l l'.
  Proof.
    intros H. apply mapM_F2 in H. refine (F2_weaken _ _ _ _ _ H). intros a b. apply p_callable_right.
  Qed.

  Lemma p_enum_right e e' : p_enum rs ns e = Ok e' ->
    Forall2 (p_right rs) (flat_map (fun v => map snd (vd_fields v)) (ed_variants e))
                         (flat_map (fun v => map snd (vd_fields v)) (ed_variants e')) /\
    Forall2 callable_right (ed_methods e ++ ed_traits e) (ed_methods e' ++ ed_traits e').
  Proof.
    unfold p_enum. intros H. step H. step H. step H. step H. injection H as <-.
    cbn [ed_variants ed_methods ed_traits]. split.
    - apply mapM_F2 in E0. refine (F2_flat _ _ _ _ _ _ E0 _). intros v v' H. unfold p_variant in H.
      step H. step H. injection H as <-. cbn [vd_fields]. exact (p_items_types _ _ _ E4).
    - apply Forall2_app; [exact (p_methods _ _ _ E1) | exact (p_methods _ _ _ E2)].
  Qed.

  Lemma p_record_right e e' : p_record rs ns e = Ok e' ->
    Forall2 (p_right rs) (map snd (rd_fields e)) (map snd (rd_fields e')) /\
    Forall2 callable_right (rd_methods e ++ rd_traits e) (rd_methods e' ++ rd_traits e').
  Proof.
    unfold p_record. intros H. step H. step H. step H. step H. injection H as <-.
    cbn [rd_fields rd_methods rd_traits]. split; [exact (p_items_types _ _ _ E0)|].
    apply Forall2_app; [exact (p_methods _ _ _ E1) | exact (p_methods _ _ _ E2)].
  Qed.

  Lemma p_object_right o o' : p_object rs ns o = Ok o' ->
    Forall2 callable_right (od_constructors o) (od_constructors o') /\
    Forall2 callable_right (od_methods o) (od_methods o') /\
    Forall2 callable_right (od_traits o) (od_traits o') /\
    Forall2 (p_right rs) (od_trait_impls o) (od_trait_impls o').
  Proof.
    unfold p_object. intros H. step H. step H. step H. step H. step H. injection H as <-.
    cbn [od_constructors od_methods od_traits od_trait_impls].
    repeat split; try (eapply p_methods; eassumption). exact (p_types _ _ E3).
  Qed.

  Lemma p_callback_right o o' : p_callback rs ns o = Ok o' ->
    Forall2 callable_right (cb_methods o) (cb_methods o').
  Proof.
    unfold p_callback. intros H. step H. step H. injection H as <-. cbn [cb_methods].
    exact (p_methods _ _ _ E0).
  Qed.

  Lemma p_mentions c c' : p_namespace rs ns c = Ok c' ->
    Forall2 (p_right rs) (mentions c) (mentions c').
  Proof.
    unfold p_namespace. intros H. step H. step H. step H. step H. step H. injection H as <-.
    assert (EN := F2_weaken _ _ _ _ p_enum_right (mapM_F2 _ _ _ E)).
    assert (RE := F2_weaken _ _ _ _ p_record_right (mapM_F2 _ _ _ E0)).
    assert (FN := F2_weaken _ callable_right _ _ (fun f g => p_callable_right _ f g) (mapM_F2 _ _ _ E1)).
    assert (OB := F2_weaken _ _ _ _ p_object_right (mapM_F2 _ _ _ E2)).
    assert (CB := F2_weaken _ _ _ _ p_callback_right (mapM_F2 _ _ _ E3)).
    clear E E0 E1 E2 E3.
    unfold mentions, field_mentions, function_mentions, method_mentions, constructor_arguments,
      callback_arguments, constructor_results, constructor_errors, callback_outcomes,
      value_method_mentions, trait_mentions, other_self.
    cbn [enums records functions objects callbacks].
    repeat apply Forall2_app.
    - refine (F2_flat _ _ _ _ _ _ EN _). intros x y [A _]. exact A.
    - refine (F2_flat _ _ _ _ _ _ RE _). intros x y [A _]. exact A.
    - refine (F2_flat _ _ _ _ _ _ FN _). exact cr_sig.
    - refine (F2_flat _ _ _ _ _ _ OB _). intros x y [_ [A _]]. refine (F2_flat _ _ _ _ _ _ A _). exact cr_sig.
    - refine (F2_flat _ _ _ _ _ _ OB _). intros x y [A _]. refine (F2_flat _ _ _ _ _ _ A _). exact cr_args.
    - refine (F2_flat _ _ _ _ _ _ CB _). intros x y A. refine (F2_flat _ _ _ _ _ _ A _). exact cr_args.
    - refine (F2_flat _ _ _ _ _ _ OB _). intros x y [A _]. refine (F2_flat _ _ _ _ _ _ A _). exact cr_self.
    - refine (F2_flat _ _ _ _ _ _ OB _). intros x y [A _]. refine (F2_flat _ _ _ _ _ _ A _). exact cr_throws.
    - refine (F2_flat _ _ _ _ _ _ CB _). intros x y A. refine (F2_flat _ _ _ _ _ _ A _). exact cr_outcome.
    - refine (F2_flat _ _ _ _ _ _ EN _). intros x y [_ A]. refine (F2_flat _ _ _ _ _ _ A _). exact cr_all.
    - refine (F2_flat _ _ _ _ _ _ RE _). intros x y [_ A]. refine (F2_flat _ _ _ _ _ _ A _). exact cr_all.
    - refine (F2_flat _ _ _ _ _ _ OB _). intros x y [_ [_ [A B]]]. apply Forall2_app; [|exact B].
      refine (F2_flat _ _ _ _ _ _ A _). exact cr_all.
    - refine (F2_flat _ _ _ _ _ _ OB _). intros x y [_ [A _]]. refine (F2_flat _ _ _ _ _ _ A _). exact cr_self.
    - refine (F2_flat _ _ _ _ _ _ CB _). intros x y A. refine (F2_flat _ _ _ _ _ _ A _). exact cr_self.
    - refine (F2_flat _ _ _ _ _ _ FN _). exact cr_self.
    - refine (F2_flat _ _ _ _ _ _ OB _). intros x y [A _]. refine (F2_flat _ _ _ _ _ _ A _). exact cr_ret.
  Qed.

  (** Names: every one of them, under the key in original names. *)
  Definition p_slot (s s' : slot) : Prop := right_name rs ns (snd (fst s)) (snd s) (snd s').

  Lemma p_item_slots path mp mp' path' l l' : mapM (p_item rs ns path) l = Ok l' ->
    Forall2 p_slot (slots_of mp path l) (slots_of mp' path' l').
  Proof.
    intros H. apply mapM_F2 in H. refine (F2_map _ _ _ _ _ _ H _). intros a b E.
    unfold p_item in E. step E. step E. injection E as <-. exact (p_rename_right _ _ _ _ _ U E0).
  Qed.

  Lemma p_callable_slots path mp mp' path' c c' : p_callable rs ns path c = Ok c' ->
    Forall2 p_slot (callable_slots mp path c) (callable_slots mp' path' c').
  Proof.
    unfold p_callable. intros H. step H. step H. step H. step H. step H. injection H as <-.
    unfold callable_slots. cbn [c_name c_args]. apply Forall2_cons.
    - exact (p_rename_right _ _ _ _ _ U E).
    - exact (p_item_slots _ _ _ _ _ _ E0).
  Qed.

  Lemma p_method_slots owner mp mp' owner' l l' : mapM (p_method rs ns owner) l = Ok l' ->
    Forall2 p_slot (method_slots mp owner l) (method_slots mp' owner' l').
  Proof.
    intros H. apply mapM_F2 in H. refine (F2_flat _ _ _ _ _ _ H _). intros a b E.
    exact (p_callable_slots _ _ _ _ _ _ E).
  Qed.

  Lemma method_slots_app mp owner l l' :
    method_slots mp owner (l ++ l') = method_slots mp owner l ++ method_slots mp owner l'.
  Proof. apply flat_map_app. Qed.

  Lemma p_names c c' : p_namespace rs ns c = Ok c' ->
    Forall2 p_slot (definition_slots c ++ callback_slots c ++ value_method_slots c)
                   (definition_slots c' ++ callback_slots c' ++ value_method_slots c').
  Proof.
    unfold p_namespace. intros H. step H. step H. step H. step H. step H. injection H as <-.
    apply mapM_F2 in E, E0, E1, E2, E3.
    unfold definition_slots, callback_slots, value_method_slots.
    cbn [enums records functions objects callbacks ci_crate].
    repeat apply Forall2_app.
    - refine (F2_flat _ _ _ _ _ _ E _). intros e e' H. unfold p_enum in H.
      step H. step H. step H. step H. injection H as <-. cbn [ed_variants ed_mp ed_name].
      apply Forall2_cons; [exact (p_rename_right _ _ _ _ _ U E4)|].
      apply mapM_F2 in E5. refine (F2_flat _ _ _ _ _ _ E5 _). intros v v' H. unfold p_variant in H.
      step H. step H. injection H as <-. cbn [vd_fields vd_name].
      apply Forall2_cons; [exact (p_rename_right _ _ _ _ _ U E8) | exact (p_item_slots _ _ _ _ _ _ E9)].
    - refine (F2_flat _ _ _ _ _ _ E0 _). intros e e' H. unfold p_record in H.
      step H. step H. step H. step H. injection H as <-. cbn [rd_mp rd_name rd_fields].
      apply Forall2_cons; [exact (p_rename_right _ _ _ _ _ U E4) | exact (p_item_slots _ _ _ _ _ _ E5)].
    - refine (F2_flat _ _ _ _ _ _ E1 _). intros f f' H. exact (p_callable_slots _ _ _ _ _ _ H).
    - refine (F2_flat _ _ _ _ _ _ E2 _). intros o o' H. unfold p_object in H.
      step H. step H. step H. step H. step H. injection H as <-.
      cbn [od_mp od_name od_constructors od_methods].
      apply Forall2_cons; [exact (p_rename_right _ _ _ _ _ U E4)|]. rewrite !method_slots_app.
      apply Forall2_app; [exact (p_method_slots _ _ _ _ _ _ E5) | exact (p_method_slots _ _ _ _ _ _ E6)].
    - refine (F2_map _ _ _ _ _ _ E3 _). intros b b' H. unfold p_callback in H. step H. step H.
      injection H as <-. exact (p_rename_right _ _ _ _ _ U E4).
    - refine (F2_flat _ _ _ _ _ _ E3 _). intros b b' H. unfold p_callback in H. step H. step H.
      injection H as <-. exact (p_method_slots _ _ _ _ _ _ E5).
    - refine (F2_flat _ _ _ _ _ _ E _). intros e e' H. unfold p_enum in H.
      step H. step H. step H. step H. injection H as <-. cbn [ed_methods ed_traits ed_name].
      rewrite !method_slots_app.
      apply Forall2_app; [exact (p_method_slots _ _ _ _ _ _ E6) | exact (p_method_slots _ _ _ _ _ _ E7)].
    - refine (F2_flat _ _ _ _ _ _ E0 _). intros e e' H. unfold p_record in H.
      step H. step H. step H. step H. injection H as <-. cbn [rd_methods rd_traits rd_name].
      rewrite !method_slots_app.
      apply Forall2_app; [exact (p_method_slots _ _ _ _ _ _ E6) | exact (p_method_slots _ _ _ _ _ _ E7)].
  Qed.
End P.
