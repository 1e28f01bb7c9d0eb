(** Bindings and the library. *)
From Verif Require Import Base Meta_Types Group_Model Api_Types Api_Spec Api_Model.
From Verif Require Import Univ_Spec Excl_Types Excl_Spec Excl_Model Excl_Claims Src_Model Stub_Model Stub_Spec Stub_Macros Stub_Proofs Stub_Parts Stub_Main Stub_Claims.
From Verif Require Api_Said Excl_Ci Excl_Pl Excl_Proofs Stub_Udl Api_Ready Udl_Names Lit_Front_Proofs.

Lemma udl_plain c items : udl c items -> plain_constructors items.
Proof. intros U self f J. destruct (U _ J) as (_ & R & _). exact R. Qed.
Lemma udl_eq c items : udl c items -> eq_whole items.
Proof.
  intros U s e s' n J. destruct (U _ J) as (d & t & x & _ & _ & _ & B). cbn in B. decompose [and] B. subst. split; reflexivity.
Qed.
Lemma from_says g a : from_udl g a -> udl (g_crate g) (g_items g) /\ says (g_items g) a.
Proof.
  intros (U & OG & OD & NU & E). split; [exact U |]. exact (Api_Said.interface_says g a OG (udl_plain _ _ U) OD NU E).
Qed.
Lemma from_store g a : from_udl g a -> a = store_api (store_all (g_items g)).
Proof. intros (_ & _ & _ & _ & E). unfold interface in E. destruct (Univ_Model.add_metadata (g_items g)); try discriminate E. injection E as <-. reflexivity. Qed.

Lemma exports_right_proof : exports_right plain_traits.
Proof. intros g a remote arc F PT. destruct (from_says g a F) as (U & SA). exact (exported (g_crate g) remote arc (g_items g) a U SA PT). Qed.
Lemma accepted_proof : accepted (fun _ => True).
Proof.
  intros g a remote arc F _. destruct (from_says g a F) as (U & SA). rewrite (scaffolding_eq (g_crate g) remote arc (g_items g) a U SA). discriminate.
Qed.
Lemma described_proof : described_again (fun items => plain_traits items /\ mutable_bytes items /\ plain_callbacks items).
Proof.
  intros g a remote arc F (PT & MB & PC). destruct (from_says g a F) as (U & SA).
  destruct (said_again (g_crate g) remote arc (g_items g) a U SA PT MB PC) as (A & B). split; [| exact B].
  intros v I T. apply (A v I). intros C. destruct (v_item v); try exact C. exact T.
Qed.

Lemma ci_linked_proof : ci_linked plain_traits.
Proof.
  intros g a remote arc conf b F PT KT EB. destruct (from_says g a F) as (U & SA). destruct F as (_ & OG & OD & NU & _).
  destruct (exported (g_crate g) remote arc (g_items g) a U SA PT) as (l & S & X). exists l. split; [exact S |].
  intros s J. apply X. destruct (Excl_Proofs.ci_needs_proof g conf b OG (udl_plain _ _ U) OD NU KT EB s J) as (m & _ & M). exists m. exact M.
Qed.
Lemma pl_linked_proof : pl_linked plain_traits.
Proof.
  intros gs r g n a remote arc conf b GR ND OK EP IG IN NC F PT EB. destruct (from_says g a F) as (U & SA).
  destruct (exported (g_crate g) remote arc (g_items g) a U SA PT) as (l & S & X). exists l. split; [exact S |].
  intros s J. apply X. exact (Excl_Proofs.pl_links_proof gs r g n conf b GR ND OK EP IG IN NC (udl_eq _ _ U) EB s J).
Qed.

Lemma names_of c items a v : udl c items -> says items a -> In v (a_types a) ->
  map f_name (flat_map fn_of (v_methods v)) = method_names (v_methods v).
Proof.
  intros U SA I. assert (H : forall m, In m (v_methods v) -> role_of m = Some AMethod \/ role_of m = Some ATraitMethod).
  { intros m J. destruct (view_of items a SA v I) as (_ & (_ & _ & (_ & X) & _) & _). apply X in J. destruct J as [(_ & R & _) | (_ & R & _)]; tauto. }
  induction (v_methods v) as [| m l IH]; [reflexivity |]. unfold method_names in *. cbn [flat_map]. rewrite map_app, IH by (intros x J; apply H; right; exact J).
  destruct (H m (or_introl eq_refl)) as [R | R]; destruct m; try discriminate R; reflexivity.
Qed.
Lemma ci_tables_proof : ci_tables_fit (fun _ => True).
Proof.
  intros g a remote arc conf b y t F _ KT WT EB HY ET. destruct (from_says g a F) as (U & SA). pose proof (from_store g a F) as E.
  destruct F as (_ & OG & OD & NU & _). pose proof (udl_plain _ _ U) as PC.
  destruct (Excl_Ci.ci_typ_from conf g b OG PC OD NU EB y HY) as (v & Hv & -> & _). cbn [ci_typ y_table y_item] in *. rewrite <- E in Hv.
  assert (Hv' := Hv). rewrite E in Hv'.
  destruct (Excl_Ci.ci_init conf g b OG PC OD NU EB v t KT Hv' ET) as (FO & _ & SL).
  rewrite (Excl_Ci.whole_methods conf g b OG PC OD NU EB v WT Hv' FO) in SL.
  destruct (tables_again (g_crate g) remote arc (g_items g) a U SA v Hv) as (mss & R & A & _).
  destruct (A FO) as (ms & -> & T). exists v, ms. split; [exact Hv | split; [reflexivity | split; [exact R |]]].
  rewrite T, SL, (names_of _ _ a v U SA Hv). reflexivity.
Qed.
Lemma pl_tables_proof : pl_tables_fit (fun _ => True).
Proof.
  intros gs r g n a remote arc conf b y t GR ND OK EP IG IN NC F _ EB HY CB ET. destruct (from_says g a F) as (U & SA).
  destruct (Excl_Proofs.pl_tables_proof gs r g n conf b GR ND OK EP IG IN NC Logic.I EB) as (a' & SA' & TT).
  destruct (TT y HY) as (v' & I' & Y & _ & TB). destruct (TB t ET) as (_ & SL).
  destruct (view_of (g_items g) a' SA' v' I') as (J' & D' & DN').
  assert (NC' : ~ is_custom (v_item v')) by (intros C; rewrite Y in CB; destruct (v_item v'); try exact C; exact CB).
  destruct (definition_view (g_items g) a SA (v_item v') J' DN' NC') as (v & I & E).
  destruct (view_of (g_items g) a SA v I) as (_ & D & _).
  destruct (tables_again (g_crate g) remote arc (g_items g) a U SA v I) as (mss & R & A & _).
  assert (FO : foreign (v_item v)).
  { rewrite E, <- Y. unfold callback in CB. destruct (y_item y); try contradiction CB. exact Logic.I. }
  destruct (A FO) as (ms & -> & T). exists v, ms. split; [exact I | split; [congruence | split; [exact R |]]].
  rewrite T, SL, (names_of _ _ a v U SA I). f_equal. f_equal.
  assert (ALL : forall a0 v0, says (g_items g) a0 -> In v0 (a_types a0) -> v_item v0 = v_item v -> filter is_trait_method (v_methods v0) = v_methods v0).
  { intros a0 v0 S0 I0 E0. assert (H : forall m, In m (v_methods v0) -> is_trait_method m = true).
    { intros m Jm. destruct (in_methods (g_crate g) (g_items g) a0 U S0 v0 m I0 Jm) as (_ & [(o & f & X & _) | (mp & nn & doc & i & f & _ & ->)]); [| reflexivity].
      rewrite E0 in X. rewrite E, <- Y in X. rewrite X in CB. contradiction CB. }
    clear - H. induction (v_methods v0) as [| m l IH]; [reflexivity |]. cbn. rewrite (H m (or_introl eq_refl)). f_equal. apply IH. intros x K. apply H. right. exact K. }
  destruct (Api_Said.describes_same (g_items g) v v' E D D') as (_ & _ & _ & SM & _).
  rewrite (ALL a v SA I eq_refl), (ALL a' v' SA' I' (eq_sym E)) in SM. exact SM.
Qed.
Lemma foreign_dec m : foreign m \/ ~ foreign m.
Proof. destruct m; cbn; try tauto. destruct (o_imp o) as [| [| |]]; (left; tauto) || (right; intros [X | X]; discriminate X) || idtac. Qed.
Lemma foreign_proof : tables_for_foreign.
Proof.
  intros g a remote arc v F I. destruct (from_says g a F) as (U & SA).
  destruct (tables_again (g_crate g) remote arc (g_items g) a U SA v I) as (mss & R & A & B). exists mss. split; [exact R |]. split.
  - intros FO. destruct (A FO) as (ms & -> & T). exists ms. eexists. split; [left; reflexivity | exact T].
  - intros (ms & t & J & T). destruct (foreign_dec (v_item v)) as [FO | NF]; [exact FO |]. exfalso.
    specialize (B NF). rewrite Forall_forall in B. specialize (B ms J). congruence.
Qed.
Lemma files_proof : files_give_udl.
Proof. intros c lit docstring ds g H. exact (Stub_Udl.read_gives c lit docstring ds g H). Qed.

(** ** Errors *)

Lemma flat_iff c items e : udl c items -> In (MEnum e) items -> (is_flat e = true <-> fieldless e /\ e_shape e <> ShError false).
Proof.
  intros U J. destruct (U _ J) as (_ & _ & _ & _ & S). unfold is_flat. destruct (e_shape e) as [| []].
  - rewrite forallb_forall. unfold fieldless. rewrite Forall_forall. split.
    + intros H. split; [| discriminate]. intros v I. specialize (H v I). destruct (v_fields v); [reflexivity | discriminate H].
    + intros (H & _) v I. rewrite (H v I). reflexivity.
  - split; [intros _ | reflexivity]. split; [exact (S eq_refl) | discriminate].
  - split; [discriminate |]. intros (_ & N). elim N. reflexivity.
Qed.
Lemma can_read_error remote a e :
  can_read (error_stub remote a e) = negb (is_flat e) || should_generate_error_read a e.
Proof.
  unfold error_stub, can_read. destruct (is_flat e) eqn:F, (should_generate_error_read a e), (e_non_exhaustive e) eqn:N;
    unfold non_exhaustive; rewrite N; reflexivity.
Qed.
Lemma thrown_iff c items a e : udl c items -> says items a ->
  existsb (fun f => match f_throws f with Some t => ty_eqb t (TEnum (e_mp e) (e_name e)) | None => false end)
          (flat_map fn_of (flat_map foreign_methods (a_types a))) = true <-> thrown_to_rust items e.
Proof.
  intros U SA. rewrite existsb_exists. split.
  - intros (f & J & T). apply in_flat_map in J. destruct J as (m & J & Jf). apply in_flat_map in J. destruct J as (v & I & J).
    assert (K : In m (v_methods v) /\ foreign (v_item v)).
    { unfold foreign_methods in J. destruct (v_item v) as [| | | o | | | | | | | | |]; try contradiction J; [| split; [exact J | exact Logic.I]].
      destruct (has_callback_interface (o_imp o)) eqn:H; [| contradiction J]. split; [exact J |]. cbn.
      destruct (o_imp o) as [| []]; cbn in H; try discriminate H; tauto. }
    destruct K as (K & F). exists m, f, (v_item v). destruct (view_of items a SA v I) as (Iv & (_ & _ & (_ & X) & _) & _).
    destruct (f_throws f) as [t |] eqn:ET; [| discriminate T].
    apply X in K. split; [destruct K as [K | K]; exact (proj1 K) |].
    split; [destruct m; cbn in Jf |- *; try contradiction Jf; destruct Jf as [E | []]; exact E |].
    split; [f_equal; apply Udl_Names.ty_eqb_sound; exact T |]. split; [exact Iv | split; [exact F |]]. destruct K as [K | K]; exact (proj2 (proj2 K)).
  - intros (m & f & d & J & S & T & Jd & F & W). exists f. split; [| rewrite T; apply Lit_Front_Proofs.ty_eqb_rfl].
    assert (D : defines d <> None) by (destruct d; try contradiction F; discriminate).
    assert (NC : ~ is_custom d) by (destruct d; try contradiction F; intros []).
    destruct (definition_view items a SA d Jd D NC) as (v & I & E).
    assert (K : In m (v_methods v)).
    { destruct (view_of items a SA v I) as (_ & (_ & _ & (_ & X) & _) & _). apply X. rewrite E.
      destruct m; cbn in S; try contradiction S.
      - cbn in W. destruct d; try contradiction F; discriminate W.
      - exfalso. destruct (U _ J) as (F0 & _ & o & O & N & St). subst self.
        assert (EQ : v_item v = MObject o).
        { apply (the_item items a SA v (MObject o) I O); [discriminate | intros [] |]. rewrite E, <- W. cbn. destruct (U _ O) as (M & _). destruct F0 as (F0 & _). rewrite M, F0. reflexivity. }
        rewrite <- E, EQ in F. cbn in F. rewrite St in F. destruct F; discriminate.
      - left. split; [exact J | split; [reflexivity | exact W]].
      - right. split; [exact J | split; [reflexivity | exact W]]. }
    apply in_flat_map. exists m. split; [| destruct m; cbn in S |- *; try contradiction S; left; exact S].
    apply in_flat_map. exists v. split; [exact I |]. unfold foreign_methods. rewrite E. destruct d; try contradiction F; [| exact K].
    cbn in F. destruct F as [F | F]; rewrite F; exact K.
Qed.
Lemma errors_readable_proof : errors_readable.
Proof.
  intros g a remote arc v e F I E. destruct (from_says g a F) as (U & SA).
  assert (J : In (MEnum e) (g_items g)) by (rewrite <- E; exact (proj1 (view_of (g_items g) a SA v I))).
  unfold stubs_of. rewrite E. cbn [forallb]. rewrite Bool.andb_true_r.
  pose proof (used_as_error (g_crate g) (g_items g) a U SA (e_name e)) as UE.
  destruct (is_name_used_as_error a (e_name e)) eqn:N.
  - rewrite can_read_error. unfold should_generate_error_read. rewrite N. cbn [andb].
    pose proof (flat_iff (g_crate g) (g_items g) e U J) as FL. pose proof (thrown_iff (g_crate g) (g_items g) a e U SA) as TH.
    destruct (is_flat e); cbn [negb orb].
    + rewrite TH. unfold sent_flat. split; [intros H _; exact H |]. intros H. apply H. split; [apply UE; reflexivity | apply FL; reflexivity].
    + split; [intros _ (_ & S) | reflexivity]. apply FL in S. discriminate S.
  - split; [intros _ (S & _) | reflexivity]. apply UE in S. discriminate S.
Qed.
