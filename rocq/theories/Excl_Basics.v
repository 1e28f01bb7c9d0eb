(** Lemmas about the items of a crate and its API. *)
From Verif Require Import Base Meta_Types Group_Model Api_Types Api_Spec Api_Model.
From Verif Require Import Reach_Spec Univ_Spec Names_Model Names_Proofs Excl_Types Excl_Spec Excl_Model.
From Verif Require Api_Iface.

Lemma contains_In l n : contains l n = true <-> In n l.
Proof.
  unfold contains. rewrite existsb_exists. split.
  - intros (x & Hx & E). apply Api_Iface.beq_true in E. now subst.
  - intros H. exists n. split; [exact H|apply Api_Iface.beq_refl].
Qed.
Lemma contains_not l n : contains l n = false <-> ~ In n l.
Proof. rewrite <- contains_In. destruct (contains l n); split; congruence. Qed.

Lemma filter_without {A} (P : A -> Prop) p (l : list A) :
  (forall x, In x l -> (p x = false <-> P x)) -> without P l (filter p l).
Proof.
  induction l as [|x l IH]; intros H; cbn [filter]; [constructor|].
  assert (T : without P l (filter p l)) by (apply IH; intros y Hy; apply H; right; exact Hy).
  destruct (p x) eqn:E.
  - apply wo_keep; [|exact T]. intros Px. apply (H x (or_introl eq_refl)) in Px. congruence.
  - apply wo_drop; [|exact T]. now apply (H x (or_introl eq_refl)).
Qed.
Lemma without_filter {A} (P : A -> Prop) p (l l' : list A) :
  (forall x, In x l -> (p x = false <-> P x)) -> without P l l' -> l' = filter p l.
Proof.
  intros H W. revert H. induction W as [|x l l' Px W IH|x l l' Px W IH]; intros H; cbn [filter]; [reflexivity| |].
  - rewrite (proj2 (H x (or_introl eq_refl)) Px). apply IH. intros y Hy. apply H. now right.
  - destruct (p x) eqn:E; [|destruct Px; now apply (H x (or_introl eq_refl))].
    f_equal. apply IH. intros y Hy. apply H. now right.
Qed.

Lemma defined_name m mp n : defined_at m = Some (mp, n) -> def_name m = n.
Proof. destruct m; cbn; intros E; try discriminate E; now injection E. Qed.
Lemma defines_name m cr n : defines m = Some (cr, n) -> def_name m = n.
Proof.
  unfold defines. destruct (defined_at m) as [[mp k]|] eqn:E; [|discriminate].
  intros H. injection H as _ <-. exact (defined_name _ _ _ E).
Qed.
Lemma key_definition m : defines m <> None -> key m = Some (def_name m).
Proof. unfold defines. destruct m; cbn; intros H; congruence. Qed.
Lemma left_out_definition c m : defines m <> None -> (left_out c m <-> In (def_name m) (excluded c)).
Proof.
  intros H. unfold left_out. rewrite (key_definition _ H). split.
  - intros (k & E & Hk). injection E as <-. exact Hk.
  - intros Hk. now exists (def_name m).
Qed.
Lemma definition_for m : defines m <> None -> written_for m = None.
Proof. unfold defines. destruct m; cbn; congruence. Qed.
Lemma key_member d m r : role_of m = Some r -> r <> ATrait -> r <> AnImpl -> written_for m = defines d ->
  key m = Some (def_name d ++ S_ "." ++ name_of m).
Proof.
  intros R Ht Hi W. destruct m; cbn in R; try discriminate R; injection R as <-; try congruence;
    cbn in W; symmetry in W; apply defines_name in W; rewrite W; reflexivity.
Qed.
Lemma key_trait m : role_of m = Some ATrait \/ role_of m = Some AnImpl -> key m = None.
Proof. destruct m; cbn; intros [E|E]; try discriminate E; reflexivity. Qed.

Lemma fn_crate mp n : fn_symbol_name (crate_of mp) n = fn_symbol_name mp n.
Proof. unfold fn_symbol_name, crate_of. now rewrite ns_idem. Qed.
Lemma constructor_crate mp o n : constructor_symbol_name (crate_of mp) o n = constructor_symbol_name mp o n.
Proof. unfold constructor_symbol_name, crate_of. now rewrite ns_idem. Qed.
Lemma method_crate mp o n : method_symbol_name (crate_of mp) o n = method_symbol_name mp o n.
Proof. unfold method_symbol_name, crate_of. now rewrite ns_idem. Qed.
Lemma clone_crate mp o : clone_fn_symbol_name (crate_of mp) o = clone_fn_symbol_name mp o.
Proof. unfold clone_fn_symbol_name, crate_of. now rewrite ns_idem. Qed.
Lemma free_crate mp o : free_fn_symbol_name (crate_of mp) o = free_fn_symbol_name mp o.
Proof. unfold free_fn_symbol_name, crate_of. now rewrite ns_idem. Qed.
Lemma init_crate mp o : init_callback_vtable_fn_symbol_name (crate_of mp) o = init_callback_vtable_fn_symbol_name mp o.
Proof. unfold init_callback_vtable_fn_symbol_name, crate_of. now rewrite ns_idem. Qed.
Lemma fn_sum_crate mp n : fn_checksum_symbol_name (crate_of mp) n = fn_checksum_symbol_name mp n.
Proof. unfold fn_checksum_symbol_name, crate_of. now rewrite ns_idem. Qed.
Lemma constructor_sum_crate mp o n :
  constructor_checksum_symbol_name (crate_of mp) o n = constructor_checksum_symbol_name mp o n.
Proof. unfold constructor_checksum_symbol_name, crate_of. now rewrite ns_idem. Qed.
Lemma method_sum_crate mp o n : method_checksum_symbol_name (crate_of mp) o n = method_checksum_symbol_name mp o n.
Proof. unfold method_checksum_symbol_name, crate_of. now rewrite ns_idem. Qed.

(** ** The API of a crate *)

Lemma item_crate g m mp : of_group g -> In m (g_items g) -> module_path m = Ok mp -> crate_of mp = g_crate g.
Proof. intros [_ OG] H E. destruct (OG m H) as [(mp' & E' & Hc) _]. rewrite E in E'. now injection E' as ->. Qed.

Section Crate.
  Variables (c : conf) (g : group) (a : api metadata).
  Hypotheses (OG : of_group g) (SA : says (g_items g) a).

  Lemma a_function m : In m (a_functions a) -> In m (g_items g) /\ exists f, m = MFunc f.
  Proof. destruct SA as ((_ & H) & _). apply H. Qed.
  Lemma a_view v : In v (a_types a) -> defines (v_item v) <> None /\ Api_Spec.describes (g_items g) v.
  Proof.
    destruct SA as (_ & _ & H & _). rewrite Forall_forall in H. intros Hv.
    destruct (H v Hv) as (A & B & _). exact (conj A B).
  Qed.
  Lemma a_item v : In v (a_types a) -> In (v_item v) (g_items g).
  Proof. intros Hv. exact (proj1 (proj2 (a_view v Hv))). Qed.
  Lemma a_defined d : In d (g_items g) -> defines d <> None ->
    exists v, In v (a_types a) /\ defines (v_item v) = defines d.
  Proof.
    destruct SA as (_ & _ & _ & H & _). intros Hd D. destruct (H d Hd D) as (v & Hv & St).
    exists v. split; [exact Hv|]. destruct St as [->|(mp & n & b & doc & doc' & -> & ->)]; reflexivity.
  Qed.
  Lemma a_unique v w : In v (a_types a) -> In w (a_types a) -> defines (v_item v) = defines (v_item w) -> v = w.
  Proof.
    destruct SA as (_ & H & _). revert H. generalize (a_types a). clear. intros l.
    induction l as [|x l IH]; intros N Hv Hw E; [destruct Hv|].
    cbn [map] in N. inversion N as [|? ? Nx Nl]; subst.
    destruct Hv as [->|Hv], Hw as [->|Hw].
    - reflexivity.
    - destruct Nx. rewrite E. apply (in_map (fun v => defines (v_item v))). exact Hw.
    - destruct Nx. rewrite <- E. apply (in_map (fun v => defines (v_item v))). exact Hv.
    - exact (IH Nl Hv Hw E).
  Qed.
  Lemma a_constructor v m : In v (a_types a) -> In m (v_constructors v) -> member (g_items g) (v_item v) AConstructor m.
  Proof. intros Hv Hm. destruct (a_view v Hv) as (_ & _ & (_ & H) & _). now apply H. Qed.
  Lemma a_method v m : In v (a_types a) -> In m (v_methods v) ->
    member (g_items g) (v_item v) AMethod m \/ member (g_items g) (v_item v) ATraitMethod m.
  Proof. intros Hv Hm. destruct (a_view v Hv) as (_ & _ & _ & (_ & H) & _). now apply H. Qed.
  Lemma a_trait v m : In v (a_types a) -> In m (v_traits v) -> member (g_items g) (v_item v) ATrait m.
  Proof. intros Hv Hm. destruct (a_view v Hv) as (_ & _ & _ & _ & (_ & H) & _). now apply H. Qed.
  Lemma a_impl v m : In v (a_types a) -> In m (v_impls v) -> member (g_items g) (v_item v) AnImpl m.
  Proof. intros Hv Hm. destruct (a_view v Hv) as (_ & _ & _ & _ & _ & (_ & H) & _). now apply H. Qed.

  (** What is left out, by name. *)
  Lemma left_function m : In m (a_functions a) -> (contains (excluded c) (name_of m) = true <-> left_out c m).
  Proof.
    intros H. destruct (a_function m H) as (_ & f & ->). rewrite contains_In. unfold left_out. cbn [key name_of]. split.
    - intros Hk. now exists (f_name f).
    - intros (k & E & Hk). now injection E as <-.
  Qed.
  Lemma left_view v : In v (a_types a) -> (contains (excluded c) (def_name (v_item v)) = true <-> left_out c (v_item v)).
  Proof. intros H. rewrite contains_In. symmetry. apply left_out_definition. exact (proj1 (a_view v H)). Qed.
  Lemma left_member v m : In v (a_types a) -> In m (v_constructors v ++ v_methods v) ->
    (contains (excluded c) (def_name (v_item v) ++ S_ "." ++ name_of m) = true <-> left_out c m).
  Proof.
    intros Hv Hm. rewrite contains_In. unfold left_out.
    assert (K : key m = Some (def_name (v_item v) ++ S_ "." ++ name_of m)).
    { apply in_app_or in Hm. destruct Hm as [Hm|Hm].
      - destruct (a_constructor v m Hv Hm) as (_ & R & W).
        apply (key_member (v_item v) m AConstructor R); [discriminate|discriminate|exact W].
      - destruct (a_method v m Hv Hm) as [(_ & R & W)|(_ & R & W)];
          apply (key_member (v_item v) m _ R); first [discriminate|exact W]. }
    rewrite K. split.
    - intros Hk. eexists. split; [reflexivity|exact Hk].
    - intros (k & E & Hk). injection E as <-. exact Hk.
  Qed.

  Lemma stays_function m : In m (a_functions a) -> ~ left_out c m -> stays c (g_items g) m.
  Proof.
    intros H L. destruct (a_function m H) as (Hi & f & E). refine (conj Hi (conj L _)).
    intros d _ D W. subst m. cbn in W. congruence.
  Qed.
  Lemma stays_view v : In v (a_types a) -> ~ left_out c (v_item v) -> stays c (g_items g) (v_item v).
  Proof.
    intros H L. refine (conj (a_item v H) (conj L _)).
    intros d _ D W. rewrite (definition_for _ (proj1 (a_view v H))) in W. congruence.
  Qed.
  Lemma owner_stays v d : In v (a_types a) -> ~ left_out c (v_item v) -> defines d <> None ->
    defines (v_item v) = defines d -> ~ left_out c d.
  Proof.
    intros Hv L D E. rewrite (left_out_definition c d D). rewrite (left_out_definition c _ (proj1 (a_view v Hv))) in L.
    intros X. apply L. destruct (defines d) as [[cr n]|] eqn:Ed; [|congruence].
    now rewrite (defines_name _ _ _ E), <- (defines_name _ _ _ Ed).
  Qed.
  Lemma stays_member v m r : In v (a_types a) -> ~ left_out c (v_item v) -> member (g_items g) (v_item v) r m ->
    ~ left_out c m -> stays c (g_items g) m.
  Proof.
    intros Hv Lv (Hm & R & W) L. refine (conj Hm (conj L _)).
    intros d _ D Wd. rewrite W in Wd. exact (owner_stays v d Hv Lv D Wd).
  Qed.
  Lemma not_left_trait m r : role_of m = Some r -> r = ATrait \/ r = AnImpl -> ~ left_out c m.
  Proof.
    intros R [-> | ->] (k & E & _); rewrite key_trait in E; try discriminate E; auto.
  Qed.

  (** Members of other types are not members of callback interfaces. *)
  Lemma not_of_callback v m r : In v (a_types a) -> ~ callback (v_item v) -> member (g_items g) (v_item v) r m ->
    ~ of_callback (g_items g) m.
  Proof.
    intros Hv N (_ & _ & W) (mp & n & doc & Hc & Wc).
    destruct (a_defined (MCallback mp n doc) Hc ltac:(discriminate)) as (w & Hw & E).
    destruct SA as (_ & _ & _ & H & _). destruct (H (MCallback mp n doc) Hc ltac:(discriminate)) as (w' & Hw' & St).
    assert (E' : v_item w' = MCallback mp n doc) by (destruct St as [St|(? & ? & ? & ? & ? & St & _)]; [exact St|discriminate St]).
    assert (X : v = w') by (apply a_unique; [exact Hv|exact Hw'|rewrite E'; congruence]).
    subst w'. apply N. now rewrite E'.
  Qed.
  Lemma function_not_of_callback f : ~ of_callback (g_items g) (MFunc f).
  Proof. intros (mp & n & doc & _ & W). discriminate W. Qed.
End Crate.

Lemma entry_symbols m : ffi_symbol_names m = entry m.
Proof. destruct m; try reflexivity; match goal with u : utrait |- _ => destruct u; reflexivity end. Qed.
Lemma checksum_symbols m : checksum_symbol_names m = checksum_of m.
Proof. destruct m; reflexivity. Qed.

(** ** Types in types *)

Lemma inside_trans t u v : inside u t -> inside v u -> inside v t.
Proof. intros H; revert v; induction H; intros w Hw; try (constructor; auto; fail); exact Hw. Qed.
Lemma visit_inside t u : In u (visit t) <-> inside u t.
Proof.
  split.
  - revert u. induction t; intros u H; cbn [visit] in H; destruct H as [<-|H];
      try apply in_self; try (destruct H; fail); try (constructor; auto; fail).
    apply in_app_or in H. destruct H as [H|H]; [apply in_key|apply in_value]; auto.
  - intros H. induction H; try (cbn [visit]; right; try assumption; apply in_or_app; auto; fail).
    destruct u; left; reflexivity.
Qed.
Lemma same_type_inside u t : same_type u t -> forall x r, inside x t -> refers_to x = Some r ->
  exists y, inside y u /\ refers_to y = Some r.
Proof.
  unfold refers_to. intros H.
  induction H; intros x r Hx E; cbn in *;
    try (inversion Hx; subst; cbn in E; try discriminate E; eexists; split; [apply in_self|cbn; unfold crate_of, Univ_Spec.same_crate in *; congruence]; fail).
  - exists x. now split.
  - inversion Hx; subst; cbn in E.
    + eexists. split; [apply in_self|]. cbn. unfold crate_of, Univ_Spec.same_crate in *. congruence.
    + destruct (IHsame_type x r ltac:(assumption) E) as (y & Hy & Ey). exists y. split; [now apply in_custom|exact Ey].
  - inversion Hx; subst; [discriminate E|].
    destruct (IHsame_type x r ltac:(assumption) E) as (y & Hy & Ey). exists y. split; [now apply in_option|exact Ey].
  - inversion Hx; subst; [discriminate E|].
    destruct (IHsame_type x r ltac:(assumption) E) as (y & Hy & Ey). exists y. split; [now apply in_seq|exact Ey].
  - inversion Hx; subst; [discriminate E|].
    destruct (IHsame_type x r ltac:(assumption) E) as (y & Hy & Ey). exists y. split; [now apply in_set|exact Ey].
  - inversion Hx; subst; [discriminate E| |].
    + destruct (IHsame_type1 x r ltac:(assumption) E) as (y & Hy & Ey). exists y. split; [now apply in_key|exact Ey].
    + destruct (IHsame_type2 x r ltac:(assumption) E) as (y & Hy & Ey). exists y. split; [now apply in_value|exact Ey].
  - destruct (IHsame_type x r Hx E) as (y & Hy & Ey). exists y. split; [now apply in_box|exact Ey].
Qed.
Lemma same_type_name u t cr n : same_type u t -> refers_to u = Some (cr, n) -> Univ_Model.type_name t = Some n.
Proof. intros H E. destruct H; cbn in E; try discriminate E; try (injection E as _ <-; reflexivity).
  destruct t; cbn in E; try discriminate E; injection E as _ <-; reflexivity. Qed.
