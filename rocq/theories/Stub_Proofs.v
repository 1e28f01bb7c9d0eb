(** The generated code read back, definition by definition. *)
From Verif Require Import Base Meta_Types Api_Types Api_Model Api_Spec Excl_Types Excl_Spec Excl_Model Src_Model Stub_Model Stub_Spec Stub_Macros.
From Verif Require Excl_Basics Univ_Model.

Section Crate.
  Variables (c : str) (remote : str -> bool) (arc : str -> str -> bool).
  Variables (items : list metadata) (a : api metadata).
  Hypothesis U : udl c items.
  Hypothesis SA : says items a.

  (** ** The definitions and their members *)

  Lemma views_differ v v' : In v (a_types a) -> In v' (a_types a) -> defines (v_item v) = defines (v_item v') -> v = v'.
  Proof.
    destruct SA as (_ & N & _). revert N. induction (a_types a) as [| w l IH]; intros N I I' E; [contradiction |].
    cbn [map] in N. inversion N as [| x xs NI N']; subst.
    destruct I as [I | I], I' as [I' | I']; subst.
    - reflexivity.
    - exfalso. apply NI. apply in_map_iff. exists v'. split; [symmetry; exact E | exact I'].
    - exfalso. apply NI. apply in_map_iff. exists v. split; [exact E | exact I].
    - exact (IH N' I I' E).
  Qed.
  Definition is_custom (m : metadata) : Prop := match m with MCustom _ _ _ _ => True | _ => False end.
  Lemma the_item v d : In v (a_types a) -> In d items -> defines d <> None -> ~ is_custom d ->
    defines (v_item v) = defines d -> v_item v = d.
  Proof.
    intros I J D C E. destruct SA as (_ & _ & _ & K & _). destruct (K d J D) as (v' & I' & [S | S]).
    - rewrite (views_differ v v' I I'); [exact S |]. rewrite E, S. reflexivity.
    - destruct S as (mp & n & b & doc & doc' & S & _). subst d. elim C. exact Logic.I.
  Qed.
  Lemma view_of v : In v (a_types a) -> In (v_item v) items /\ describes items v /\ defines (v_item v) <> None.
  Proof.
    intros I. destruct SA as (_ & _ & F & _). rewrite Forall_forall in F. destruct (F v I) as (D & B & _).
    split; [exact (proj1 B) | split; [exact B | exact D]].
  Qed.

  Lemma in_constructors v m : In v (a_types a) -> In m (v_constructors v) ->
    exists o f, v_item v = MObject o /\ o_imp o = IStruct /\ m = MConstructor (o_name o) f /\ In m items.
  Proof.
    intros I J. destruct (view_of v I) as (_ & (_ & (_ & X) & _) & _). apply X in J. destruct J as (K & R & W).
    destruct m; try discriminate R. destruct (U _ K) as (F & _ & o & O & N & S).
    exists o, f. assert (E : v_item v = MObject o).
    { apply the_item; [exact I | exact O | discriminate | intros [] |]. cbn [written_for] in W. rewrite <- W. cbn.
      destruct (U _ O) as (M & _). rewrite M, N. destruct F as (F & _). rewrite F. reflexivity. }
    subst self. repeat split; assumption.
  Qed.
  Lemma in_methods v m : In v (a_types a) -> In m (v_methods v) ->
    In m items /\
    ((exists o f, v_item v = MObject o /\ m = MMethod (o_name o) f) \/
     (exists mp n doc i f, v_item v = MCallback mp n doc /\ m = MTraitMethod n i f)).
  Proof.
    intros I J. destruct (view_of v I) as (_ & (_ & _ & (_ & X) & _) & _). apply X in J.
    destruct J as [(K & R & W) | (K & R & W)]; destruct m; try discriminate R; (split; [exact K |]); destruct (U _ K) as (F & Z).
    - left. destruct Z as (o & O & N). exists o, f. subst self. split; [| reflexivity].
      apply the_item; [exact I | exact O | discriminate | intros [] |]. cbn [written_for] in W. rewrite <- W. cbn.
      destruct (U _ O) as (M & _). destruct F as (F & _). rewrite M, F. reflexivity.
    - right. destruct Z as (mp & doc & O). exists mp, trait_name, doc, index, f. split; [| reflexivity].
      apply the_item; [exact I | exact O | discriminate | intros [] |]. cbn [written_for] in W. rewrite <- W. cbn.
      pose proof (U _ O) as M. cbn in M. destruct F as (F & _). rewrite M, F. reflexivity.
  Qed.
  Lemma written_built_in n t u : built_in c n t u -> written_for (MUniffiTrait u) = Some (crate_of c, n).
  Proof.
    destruct u; cbn; intros H; decompose [and] H; subst; reflexivity.
  Qed.
  Lemma in_traits v m : In v (a_types a) -> In m (v_traits v) ->
    In m items /\ exists u t n, m = MUniffiTrait u /\ type_of (v_item v) = Some t /\ defined_at (v_item v) = Some (c, n) /\ built_in c n t u.
  Proof.
    intros I J. destruct (view_of v I) as (_ & (_ & _ & _ & (_ & X) & _) & _). apply X in J. destruct J as (K & R & W).
    destruct m; try discriminate R. split; [exact K |]. destruct (U _ K) as (d & t & n & D & T & A & B).
    exists u, t, n. split; [reflexivity |].
    assert (E : v_item v = d).
    { apply the_item; [exact I | exact D | unfold defines; rewrite A; discriminate | destruct d; cbn in *; (discriminate || intros []) |].
      rewrite <- W, (written_built_in _ _ _ B). unfold defines. rewrite A. reflexivity. }
    subst d. repeat split; assumption.
  Qed.
  Lemma no_impls v m : In v (a_types a) -> In m (v_impls v) -> False.
  Proof.
    intros I J. destruct (view_of v I) as (_ & (_ & _ & _ & _ & (_ & X) & _) & _). apply X in J. destruct J as (K & R & _).
    destruct m; try discriminate R. exact (U _ K).
  Qed.

  (** The functions of the members. *)
  Lemma fns_constructors o l : (forall m, In m l -> exists f, m = MConstructor o f) ->
    l = map (MConstructor o) (flat_map fn_of l).
  Proof.
    induction l as [| m l IH]; intros H; [reflexivity |]. destruct (H m (or_introl eq_refl)) as [f ->].
    cbn [flat_map fn_of app map]. rewrite <- IH; [reflexivity |]. intros x J. apply H. right. exact J.
  Qed.
  Lemma fns_methods o l : (forall m, In m l -> exists f, m = MMethod o f) -> l = map (MMethod o) (flat_map fn_of l).
  Proof.
    induction l as [| m l IH]; intros H; [reflexivity |]. destruct (H m (or_introl eq_refl)) as [f ->].
    cbn [flat_map fn_of app map]. rewrite <- IH; [reflexivity |]. intros x J. apply H. right. exact J.
  Qed.
  Lemma in_fns l f : In f (flat_map fn_of l) -> exists m, In m l /\ signature m f.
  Proof.
    intros J. apply in_flat_map in J. destruct J as (m & J & K). exists m. split; [exact J |].
    destruct m; cbn in K; try contradiction; destruct K as [K | []]; exact K.
  Qed.
  Lemma udl_signature m f : In m items -> signature m f -> udl_fn c f.
  Proof.
    intros J S. pose proof (U _ J) as K. destruct m; cbn in S; try contradiction; subst; cbn in K; clear -K; intuition.
  Qed.
  Lemma sound_all v l : In v (a_types a) -> (forall m, In m l -> In m (v_constructors v) \/ In m (v_methods v)) ->
    Forall sound (flat_map fn_of l).
  Proof.
    intros I H. apply Forall_forall. intros f J. apply in_fns in J. destruct J as (m & J & S).
    assert (K : In m items).
    { destruct (H m J) as [X | X]; [destruct (in_constructors v m I X) as (o & g & _ & _ & _ & K); exact K |
        exact (proj1 (in_methods v m I X))]. }
    destruct (udl_signature m f K S) as (_ & _ & Z). exact Z.
  Qed.

  (** ** What is read back *)

  Definition st_constructor (f : fn_meta) : fn_meta :=
    Fn c (f_name f) None (f_async f) (map st_param (f_inputs f)) None (f_throws f) None None.
  Definition traits_back (n : str) (t : ty) (ts : list metadata) : list metadata :=
    st_traits c n t (existsb is_debug ts) (existsb is_display ts) (existsb is_hash ts) (existsb is_ord ts) (existsb is_eq ts).
  Definition result (v : view metadata) : list (list metadata) :=
    match v_item v with
    | MRecord r => [MRecord (Rec c (r_name r) None (map st_field (r_fields r)) None) ::
                    traits_back (r_name r) (TRecord c (r_name r)) (v_traits v)]
    | MEnum e =>
        [if is_name_used_as_error a (e_name e) then
           [MEnum (Enum c (e_name e) None (ShError (is_flat e)) None
                     (map (if is_flat e then st_flat_variant else st_variant) (e_variants e)) (e_non_exhaustive e) None)]
         else MEnum (Enum c (e_name e) None ShEnum None (map st_variant (e_variants e)) (e_non_exhaustive e) None) ::
              st_traits c (e_name e) (TEnum c (e_name e))
                (existsb is_debug (v_traits v)) (existsb is_debug (v_traits v)) (existsb is_hash (v_traits v))
                (existsb is_ord (v_traits v)) (existsb is_eq (v_traits v))]
    | MObject o =>
        match o_imp o with
        | ITrait k => [MObject (Obj c (o_name o) None (ITrait k) None) ::
                       count (st_fn c) (o_name o) 0 (flat_map fn_of (v_methods v))]
        | IStruct =>
            (MObject (Obj c (o_name o) None IStruct None) ::
             traits_back (o_name o) (TObject c (o_name o) IStruct) (v_traits v)) ::
            map (fun f => [MConstructor (o_name o) (st_constructor f)]) (flat_map fn_of (v_constructors v)) ++
            map (fun f => [MMethod (o_name o) (st_fn c f)]) (flat_map fn_of (v_methods v))
        end
    | MCallback _ n _ => [MCallback c n None :: count (st_callback_fn c) n 0 (flat_map fn_of (v_methods v))]
    | _ => []
    end.

  Lemma traverse_app {A B} (f : A -> option B) l l' xs ys : traverse f l = Some xs -> traverse f l' = Some ys ->
    traverse f (l ++ l') = Some (xs ++ ys).
  Proof.
    revert xs. induction l as [| x l IH]; intros xs H H'; cbn [traverse app] in *.
    - injection H as <-. exact H'.
    - destruct (f x) as [y |]; [| discriminate]. cbn [Src_Model.bind] in *.
      destruct (traverse f l) as [zs |]; [| discriminate]. cbn [Src_Model.bind] in *. injection H as <-.
      rewrite (IH zs eq_refl H'). reflexivity.
  Qed.

  Lemma read_back_eq v : In v (a_types a) -> read_back c remote arc a v = Some (result v).
  Proof.
    intros I. unfold read_back, stubs_of, result. destruct (v_item v) as [| | | o | mp n doc | r | e | | | | | |] eqn:E; try reflexivity.
    - destruct (view_of v I) as (J & _ & _). rewrite E in J. destruct (U _ J) as (M & _ & NF).
      destruct (o_imp o) as [| k] eqn:IM.
      + cbn [traverse]. rewrite (struct_read c remote). cbn [Src_Model.bind].
        rewrite (traverse_app _ _ _ (map (fun f => [MConstructor (o_name o) (st_constructor f)]) (flat_map fn_of (v_constructors v)))
                   (map (fun f => [MMethod (o_name o) (st_fn c f)]) (flat_map fn_of (v_methods v)))); [reflexivity | |].
        * apply traverse_map. intros f K. apply constructor_read.
          pose proof (sound_all v (v_constructors v) I (fun m X => or_introl X)) as S. rewrite Forall_forall in S. exact (S f K).
        * apply traverse_map. intros f K. apply method_read.
          pose proof (sound_all v (v_methods v) I (fun m X => or_intror X)) as S. rewrite Forall_forall in S. exact (S f K).
      + cbn [traverse]. rewrite (trait_read c remote arc o k); [reflexivity | exact IM | congruence |].
        apply (sound_all v); [exact I | auto].
    - cbn [traverse]. rewrite (callback_read c arc n). reflexivity.
    - cbn [traverse]. rewrite (record_read c remote r). reflexivity.
    - cbn [traverse]. destruct (is_name_used_as_error a (e_name e)); [rewrite (error_read c remote a e) | rewrite (enum_read c remote e)]; reflexivity.
  Qed.

  (** ** Errors *)

  Lemma throws_named f n : In n (throws_name f) <-> exists t, f_throws f = Some t /\ named t n.
  Proof.
    unfold throws_name. destruct (f_throws f) as [t |]; [| split; [intros [] | intros (t & E & _); discriminate]].
    split.
    - intros J. exists t. split; [reflexivity |]. destruct t; cbn in *; try contradiction; destruct J as [J | []]; exact J.
    - intros (t' & E & J). injection E as <-. destruct t; cbn in *; try contradiction; left; exact J.
  Qed.
  Lemma errors_said n : In n (errors a) <-> an_error items n.
  Proof.
    unfold errors. rewrite in_app_iff. unfold an_error. split; (intros [H | H]; [left | right]).
    - apply in_flat_map in H. destruct H as (m & J & K). apply in_map_iff in J. destruct J as (v & <- & J).
      destruct (view_of v J) as (X & _). destruct (v_item v) as [| | | | | | e | | | | | |]; try contradiction K.
      cbn in K. destruct (e_shape e) as [| flat] eqn:S; [contradiction K |]. destruct K as [K | []].
      exists e, flat. repeat split; assumption.
    - apply in_flat_map in H. destruct H as (f & J & K). apply throws_named in K. destruct K as (t & T & K).
      apply in_fns in J. destruct J as (m & J & S). exists m, f, t. split; [| repeat split; assumption].
      apply in_app_iff in J. destruct J as [J | J].
      + destruct SA as ((_ & X) & _). apply X in J. exact (proj1 J).
      + apply in_flat_map in J. destruct J as (v & I & J). apply in_app_iff in J.
        destruct J as [J | J]; [destruct (in_constructors v m I J) as (o & g & _ & _ & _ & Z); exact Z | exact (proj1 (in_methods v m I J))].
    - destruct H as (e & flat & J & <- & S). apply in_flat_map. exists (MEnum e). split; [| cbn; rewrite S; left; reflexivity].
      apply in_map_iff. destruct SA as (_ & _ & _ & K & _). destruct (K (MEnum e) J) as (v & I & [E | E]); [discriminate | |].
      + exists v. split; assumption.
      + destruct E as (? & ? & ? & ? & ? & E & _). discriminate.
    - destruct H as (m & f & t & J & S & T & N). apply in_flat_map. exists f. split; [| apply throws_named; exists t; split; assumption].
      apply in_flat_map. exists m. split; [| destruct m; cbn in S; try contradiction; left; exact S].
      apply in_app_iff. destruct (role_of m) as [r |] eqn:R.
      + right. destruct SA as (_ & _ & _ & _ & K). destruct (K m J) as (v & I & X); [congruence |].
        apply in_flat_map. exists v. split; [exact I |]. rewrite !in_app_iff in X. rewrite in_app_iff.
        destruct X as [X | [X | [X | X]]]; [left; exact X | right; exact X | exfalso | exfalso; exact (no_impls v m I X)].
        destruct (in_traits v m I X) as (_ & u & ? & ? & -> & _). exact S.
      + left. destruct SA as ((_ & K) & _). apply K. split; [exact J |]. destruct m; cbn in S; try contradiction; try discriminate R.
        exists f0. reflexivity.
  Qed.
  Lemma used_as_error n : is_name_used_as_error a n = true <-> an_error items n.
  Proof. unfold is_name_used_as_error. rewrite Excl_Basics.contains_In. apply errors_said. Qed.

  (** ** Built-in traits *)

  Lemma utrait_names : OTHER = S_ "other" /\ UT_DEBUG = S_ "uniffi_trait_debug" /\ UT_DISPLAY = S_ "uniffi_trait_display" /\
    UT_EQ = S_ "uniffi_trait_eq_eq" /\ UT_NE = S_ "uniffi_trait_eq_ne" /\ UT_HASH = S_ "uniffi_trait_hash" /\
    UT_CMP = S_ "uniffi_trait_ord_cmp".
  Proof. repeat split; reflexivity. Qed.

  Lemma in_st_traits n t b1 b2 b3 b4 b5 m : In m (st_traits c n t b1 b2 b3 b4 b5) <->
    exists u, m = MUniffiTrait u /\ built_in c n t u /\
      match u with UTDebug _ _ => b1 | UTDisplay _ _ => b2 | UTHash _ _ => b3 | UTOrd _ _ => b4 | UTEq _ _ _ _ => b5 end = true.
  Proof.
    split.
    - unfold st_traits. cbv zeta. rewrite !in_app_iff.
      intros [J | [J | [J | [J | J]]]]; match type of J with In _ (if ?b then _ else _) => destruct b; [| contradiction J] end;
        destruct J as [<- | []]; eexists; (split; [reflexivity | split; [| reflexivity]]); cbn; repeat split.
    - intros (u & -> & B & E). unfold st_traits. cbv zeta. rewrite !in_app_iff.
      destruct u; cbn in B; rewrite E; decompose [and] B; subst;
        [left | right; left | right; right; right; right | right; right; left | right; right; right; left]; left; reflexivity.
  Qed.

  Lemma traits_found n t ts : (forall m, In m ts -> exists u, m = MUniffiTrait u /\ built_in c n t u) ->
    forall u, built_in c n t u ->
    (match u with UTDebug _ _ => existsb is_debug ts | UTDisplay _ _ => existsb is_display ts | UTHash _ _ => existsb is_hash ts
     | UTOrd _ _ => existsb is_ord ts | UTEq _ _ _ _ => existsb is_eq ts end = true <-> In (MUniffiTrait u) ts).
  Proof.
    intros H u B.
    destruct u; cbn in B; decompose [and] B; subst;
      (split;
       [intros E; apply existsb_exists in E; destruct E as (m & J & E); destruct (H m J) as (u' & -> & B'); destruct u'; try discriminate E;
        cbn in B'; decompose [and] B'; subst; exact J
       | intros J; apply existsb_exists; eexists; split; [exact J | reflexivity]]).
  Qed.
  Lemma traits_read_back n t ts : (forall m, In m ts -> exists u, m = MUniffiTrait u /\ built_in c n t u) ->
    forall m, In m (traits_back n t ts) <-> In m ts.
  Proof.
    intros H m. unfold traits_back. rewrite in_st_traits. split.
    - intros (u & -> & B & E). apply (traits_found n t ts H u B). exact E.
    - intros J. destruct (H m J) as (u & -> & B). exists u. split; [reflexivity | split; [exact B |]].
      apply (traits_found n t ts H u B). exact J.
  Qed.
End Crate.
