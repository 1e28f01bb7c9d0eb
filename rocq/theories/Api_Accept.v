(** What follows when the component interface accepts the items of a group. *)
From Verif Require Import Base Meta_Types Meta_Eq Group_Model Api_Types Api_Spec Api_Model.
From Verif Require Import Univ_Model Univ_Spec Univ_Proofs.
From Verif Require Names_Model.

(** The type an item defines. *)
Definition def_type (m : metadata) : option ty :=
  match m with
  | MRecord r => Some (TRecord (r_mp r) (r_name r))
  | MEnum e => Some (TEnum (e_mp e) (e_name e))
  | MObject o => Some (TObject (o_mp o) (o_name o) (o_imp o))
  | MCallback mp n _ => Some (TCallback mp n)
  | MCustom mp n b _ => Some (TCustom mp n b)
  | _ => None
  end.

Lemma def_type_defines m : def_type m = None <-> defines m = None.
Proof. destruct m; cbn; split; congruence. Qed.
Lemma def_type_name m t : def_type m = Some t -> name_of t = Some (def_name m).
Proof. destruct m; cbn; try discriminate; intros H; injection H as <-; reflexivity. Qed.

Lemma def_type_added m t : def_type m = Some t -> In t (adds m).
Proof.
  intros H. unfold adds. apply in_flat_map. exists t. split; [|apply iter_self].
  destruct m; cbn in H; try discriminate; injection H as <-; left; reflexivity.
Qed.

Lemma one_def items i m m' t t' : plain_constructors items -> add_metadata items = Ok i ->
  In m items -> In m' items -> def_type m = Some t -> def_type m' = Some t' ->
  def_name m = def_name m' -> normalize t = normalize t'.
Proof.
  intros PC H I I' T T' N. destruct (add_metadata_ok _ _ PC H) as [_ HT].
  assert (A : In t (flat_map adds items)) by (apply in_flat_map; exists m; eauto using def_type_added).
  assert (A' : In t' (flat_map adds items)) by (apply in_flat_map; exists m'; eauto using def_type_added).
  destruct (h_def _ _ (HT t A) _ (def_type_name _ _ T)) as [d [F E]].
  destruct (h_def _ _ (HT t' A') _ (def_type_name _ _ T')) as [d' [F' E']].
  rewrite N in F. congruence.
Qed.

Lemma function_not_def items i f m : plain_constructors items -> add_metadata items = Ok i ->
  In (MFunc f) items -> In m items -> defines m <> None -> f_name f <> def_name m.
Proof.
  intros PC H I J D N. destruct (add_metadata_ok _ _ PC H) as [_ HT].
  destruct (def_type m) as [t|] eqn:T; [|apply def_type_defines in T; contradiction].
  assert (A : In t (flat_map adds items)) by (apply in_flat_map; exists m; eauto using def_type_added).
  destruct (h_def _ _ (HT t A) _ (def_type_name _ _ T)) as [d [F _]]. rewrite <- N in F.
  unfold add_metadata in H. step H. step H. unfold check_consistency in H. step H.
  injection H as <-. apply add_types_functions in E.
  assert (N0 : NoDup (functions a)) by (rewrite E; constructor).
  destruct (add_items_functions _ _ _ E0 N0) as [_ FN].
  assert (K : In (f_name f) (functions a0)).
  { rewrite FN. apply in_or_app. left. rewrite <- in_rev. apply in_flat_map.
    exists (MFunc f). split; [exact I | left; reflexivity]. }
  enough (X : existsb (fun f => match find_def f (type_definitions (types a0)) with
                       | Some _ => true | None => false end) (functions a0) = true) by congruence.
  apply existsb_exists. exists (f_name f). rewrite F. auto.
Qed.

(** ** Crates *)

Lemma of_group_crate g m mp : of_group g -> In m (g_items g) -> module_path m = Ok mp -> crate_of mp = g_crate g.
Proof. intros [_ G] I M. destruct (G m I) as [(mp' & M' & C) _]. congruence. Qed.

Lemma defines_group g m : of_group g -> In m (g_items g) -> defines m <> None ->
  defines m = Some (g_crate g, def_name m).
Proof.
  intros G I D. destruct m; cbn in D; try contradiction; unfold defines; cbn [defined_at def_name];
    f_equal; f_equal; apply (of_group_crate g _ _ G I); reflexivity.
Qed.

Definition target (m : metadata) : str :=
  match m with
  | MConstructor self _ | MMethod self _ | MTraitMethod self _ _ => self
  | MUniffiTrait u => utrait_self u
  | MTraitImpl t _ => match type_name t with Some n => n | None => [] end
  | _ => []
  end.

Lemma crate_twice mp : crate_of (crate_of mp) = crate_of mp.
Proof. apply crate_name_prefix. Qed.

Lemma written_for_group g m : of_group g -> In m (g_items g) -> role_of m <> None ->
  written_for m = Some (g_crate g, target m).
Proof.
  intros G I D. pose proof (proj2 G m I) as [(mp & M & C) _].
  destruct m as [ | | | | | | |self f|self f|self k f| |u|t tt]; cbn in D; try contradiction;
    cbn [module_path] in M; cbn [written_for target].
  1-3: injection M as <-; rewrite C; reflexivity.
  - injection M as <-. destruct u; cbn [utrait_path] in C; rewrite C; reflexivity.
  - destruct t; cbn [type_module_path] in M; try discriminate; injection M as <-;
      unfold crate_of_path in C; fold (crate_of mp0) in C; rewrite crate_twice in C; rewrite C; reflexivity.
Qed.

Lemma written_for_defines g m d : of_group g -> In m (g_items g) -> In d (g_items g) ->
  role_of m <> None -> defines d <> None -> (written_for m = defines d <-> target m = def_name d).
Proof.
  intros G I J R D. rewrite (written_for_group _ _ G I R), (defines_group _ _ G J D).
  split; [intros H; injection H as H; exact H | intros ->; reflexivity].
Qed.

(** ** Definitions differ *)

Lemma flat_map_once {A B} (f : A -> list B) l : NoDup (flat_map f l) ->
  forall a a' x, In a l -> In a' l -> In x (f a) -> In x (f a') -> a = a'.
Proof.
  induction l as [|c l IH]; intros N a a' x I I' X X'; [destruct I|].
  cbn [flat_map] in N. 
  assert (D : forall y, In y (f c) -> In y (flat_map f l) -> False).
  { intros y Y Z. clear -N Y Z. induction (f c) as [|z r IHr]; [destruct Y|].
    cbn [app] in N. apply NoDup_cons_iff in N as [N0 N]. destruct Y as [-> | Y]; [|exact (IHr N Y)].
    apply N0, in_or_app. right. exact Z. }
  assert (N' : NoDup (flat_map f l)).
  { clear -N. induction (f c) as [|z r IHr]; [exact N|]. cbn [app] in N. apply NoDup_cons_iff in N as [_ N]. auto. }
  destruct I as [<- | I], I' as [<- | I']; [reflexivity | | |].
  - exfalso. apply (D x X). apply in_flat_map. eauto.
  - exfalso. apply (D x X'). apply in_flat_map. eauto.
  - exact (IH N' a a' x I I' X X').
Qed.

Definition is_custom (m : metadata) : bool := match m with MCustom _ _ _ _ => true | _ => false end.

Lemma defs_differ g i m m' : of_group g -> plain_constructors (g_items g) ->
  objects_differ (g_items g) -> add_metadata (g_items g) = Ok i ->
  In m (g_items g) -> In m' (g_items g) -> defines m <> None -> defines m' <> None ->
  def_name m = def_name m' -> m = m' \/ (is_custom m = true /\ is_custom m' = true).
Proof.
  intros G PC OD H I I' D D' N.
  destruct (def_type m) as [t|] eqn:T; [|apply def_type_defines in T; contradiction].
  destruct (def_type m') as [t'|] eqn:T'; [|apply def_type_defines in T'; contradiction].
  pose proof (one_def _ _ _ _ _ _ PC H I I' T T' N) as E.
  pose proof (OD m m' I I') as O. rewrite (defines_group g m G I D), (defines_group g m' G I' D'), N in O.
  specialize (O eq_refl).
  destruct (definitions_once _ _ H) as [RO EO].
  destruct m, m'; cbn in T, T'; try discriminate; injection T as <-; injection T' as <-;
    cbn [normalize] in E; try discriminate; cbn [def_name] in N; auto; left.
  - apply (flat_map_once _ _ RO _ _ (r_name r) I I'); [left; reflexivity | left; congruence].
  - apply (flat_map_once _ _ EO _ _ (e_name e) I I'); [left; reflexivity | left; congruence].
Qed.

(** ** Owners come first *)

Lemma add_types_customs ts i j : add_types ts i = Ok j -> customs j = customs i.
Proof. unfold add_types. intros H. step H. injection H as <-. reflexivity. Qed.

Lemma add_item_callbacks n m i j : add_item m i = Ok j ->
  find_callback n (callbacks j) <> None ->
  find_callback n (callbacks i) <> None \/ exists mp doc, m = MCallback mp n doc.
Proof.
  intros H F. destruct m as [ | | | |mp' n' doc'| | | | |self index f| | | ]; cbn [add_item] in H; try discriminate.
  all: try (left; unfold add_method in *; repeat first [step H | discriminate H];
            try injection H as <-; cbn [callbacks] in F; rest; congruence).
  - step H. injection H as <-. cbn [callbacks find_callback] in F. rest.
    destruct (bytes_eqb_spec n n') as [-> | N]; [right; eauto | left; congruence].
  - left. destruct (find_callback self (callbacks i)) eqn:FS.
    + step H. step H. injection H as <-. rest. cbn [callbacks] in F. rewrite find_bump in F.
      destruct (bytes_eqb_spec self n) as [-> | N]; congruence.
    + unfold add_method in H. step H. rest. congruence.
Qed.

Lemma add_items_callbacks n items : forall i j, add_items items i = Ok j ->
  find_callback n (callbacks j) <> None ->
  find_callback n (callbacks i) <> None \/ exists mp doc, In (MCallback mp n doc) items.
Proof.
  induction items as [|m items IH]; intros i j H F; cbn [add_items] in H.
  - injection H as <-. auto.
  - step H. destruct (IH _ _ H F) as [F' | (mp & doc & I)]; [|right; exists mp, doc; right; exact I].
    destruct (add_item_callbacks _ _ _ _ E F') as [F2 | (mp & doc & ->)]; [auto|].
    right. exists mp, doc. left. reflexivity.
Qed.

(** The sort of owner [add_item] looks for. *)
Lemma object_owner l a i n : add_items l a = Ok i -> objects a = [] -> has n (objects i) = true ->
  exists o, In (MObject o) l /\ o_name o = n.
Proof.
  intros H O Q. destruct (add_items_names _ _ _ H) as (_ & _ & A3). rewrite O, app_nil_r in A3.
  apply has_spec in Q. rewrite A3 in Q. apply in_rev, in_flat_map in Q. destruct Q as (m & I & Q).
  destruct m; try contradiction. destruct Q as [Q | []]. eauto.
Qed.

Lemma owner_takes n d r : owner n d -> r <> AnImpl -> def_name d = n /\ defines d <> None /\ takes d r.
Proof.
  destruct d; cbn; try contradiction; intros <- R; repeat split; try discriminate; destruct r; auto.
Qed.

Lemma owner_before items i pre m post r : add_metadata items = Ok i -> items = pre ++ m :: post ->
  role_of m = Some r ->
  exists d, In d pre /\ def_name d = target m /\ defines d <> None /\ takes d r.
Proof.
  intros H -> R. destruct (add_metadata_items _ _ H) as (a & A & RA & EA & OA & CA).
  rewrite add_items_app in A. destruct (add_items pre a) as [b| | |] eqn:P; cbn [bind] in A; try discriminate.
  cbn [add_items] in A. destruct (add_item m b) as [c| | |] eqn:S; cbn [bind] in A; try discriminate. clear A.
  assert (OWN : forall n, has n (objects b) || has n (records b) || has n (enums b) = true ->
                r <> AnImpl -> target m = n ->
                exists d, In d pre /\ def_name d = target m /\ defines d <> None /\ takes d r).
  { intros n Q RN TN. destruct (names_owner _ _ _ n P RA EA OA Q) as (d & I & O).
    destruct (owner_takes n d r O RN) as (X & Y & Z). exists d. repeat split; auto. congruence. }
  destruct m as [ | | | | | | |self f|self f|self k f| |u|t tt]; cbn in R; try discriminate; injection R as <-.
  - cbn [add_item] in S. step S. exact (OWN self E ltac:(discriminate) eq_refl).
  - cbn [add_item] in S. unfold add_method in S. step S. exact (OWN self E ltac:(discriminate) eq_refl).
  - cbn [add_item] in S. destruct (find_callback self (callbacks b)) eqn:F.
    + destruct (add_items_callbacks self pre a b P) as [X | (mp & doc & I)]; [congruence | rewrite CA in X; contradiction |].
      exists (MCallback mp self doc). repeat split; [exact I | discriminate].
    + unfold add_method in S. step S. exact (OWN self E ltac:(discriminate) eq_refl).
  - cbn [add_item] in S. step S. step S. cbv zeta in S. step S. rest.
    apply (OWN (utrait_self u)); [| discriminate | reflexivity].
    assert (EQ : has (utrait_self u) (objects b) || has (utrait_self u) (enums b) || has (utrait_self u) (records b) = true)
      by congruence.
    rewrite <- EQ. destruct (has _ (objects b)), (has _ (enums b)), (has _ (records b)); reflexivity.
  - cbn [add_item] in S. step S. step S. destruct (object_owner _ _ _ _ P OA E0) as (o & I & N).
    exists (MObject o). cbn [def_name target takes]. rewrite E. repeat split; auto. discriminate.
Qed.

Lemma accepted_owned g i : of_group g -> add_metadata (g_items g) = Ok i -> owned (g_items g).
Proof.
  intros G H m r I R. destruct (in_split _ _ I) as (pre & post & E).
  destruct (owner_before _ _ _ _ _ _ H E R) as (d & J & N & D & T). exists d.
  assert (J' : In d (g_items g)) by (rewrite E; apply in_or_app; left; exact J).
  repeat split; auto. apply (written_for_defines g m d G I J'); auto; congruence.
Qed.

(** ** Custom types agree *)

Lemma add_item_customs m i j n b mp : add_item m i = Ok j -> find_custom n (customs i) = Some (b, mp) ->
  find_custom n (customs j) = Some (b, mp).
Proof.
  intros H F. destruct m as [ | | | | | | | | | |mp' n' b' doc'| | ]; cbn [add_item] in H; try discriminate.
  all: try (unfold add_method in *; repeat first [step H | discriminate H]; try injection H as <-;
            cbn [customs]; repeat match goal with X : add_types _ _ = Ok _ |- _ => apply add_types_customs in X end;
            congruence).
  step H. apply add_types_customs in E. destruct (find_custom n' (customs a)) as [[b1 mp1]|] eqn:F1.
  - step H. step H. injection H as <-. congruence.
  - injection H as <-. cbn [customs find_custom]. destruct (bytes_eqb_spec n n') as [-> | N]; congruence.
Qed.

Lemma add_items_customs items : forall i j n b mp, add_items items i = Ok j ->
  find_custom n (customs i) = Some (b, mp) ->
  find_custom n (customs j) = Some (b, mp).
Proof.
  induction items as [|m items IH]; intros i j n b mp H F; cbn [add_items] in H.
  - injection H as <-. exact F.
  - step H. exact (IH _ _ _ _ _ H (add_item_customs _ _ _ _ _ _ E F)).
Qed.

Lemma customs_find items : forall i j n b mp doc, add_items items i = Ok j ->
  In (MCustom mp n b doc) items -> find_custom n (customs j) = Some (b, mp).
Proof.
  induction items as [|m items IH]; intros i j n b mp doc H I; [destruct I|].
  cbn [add_items] in H. step H. destruct I as [-> | I]; [|exact (IH _ _ _ _ _ _ H I)].
  apply (add_items_customs _ _ _ _ _ _ H). cbn [add_item] in E. step E.
  destruct (find_custom n (customs a0)) as [[b1 mp1]|] eqn:F1.
  - step E. step E. injection E as <-. congruence.
  - injection E as <-. cbn [customs find_custom]. rewrite bytes_eqb_refl. reflexivity.
Qed.

Lemma customs_agree items i n b mp doc b' mp' doc' : add_metadata items = Ok i ->
  In (MCustom mp n b doc) items -> In (MCustom mp' n b' doc') items -> b' = b /\ mp' = mp.
Proof.
  intros H I I'. destruct (add_metadata_items _ _ H) as (a & A & _).
  pose proof (customs_find _ _ _ _ _ _ _ A I). pose proof (customs_find _ _ _ _ _ _ _ A I'). split; congruence.
Qed.
