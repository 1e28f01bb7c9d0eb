(** UDL files give items of this kind. *)
From Verif Require Import Base Meta_Types Lit_Spec Api_Types Api_Spec Stub_Spec Udl_Types Udl_Model Stub_Items.
From Verif Require Udl_Attrs Api_Iface.

Lemma udl_mono c l l' m : (forall x, In x l -> In x l') -> udl_item c l m -> udl_item c l' m.
Proof.
  intros H. destruct m; cbn; try tauto.
  - intros (F & R & o & O & X). split; [exact F | split; [exact R |]]. exists o. split; [apply H; exact O | exact X].
  - intros (F & o & O & X). split; [exact F |]. exists o. split; [apply H; exact O | exact X].
  - intros (F & mp & doc & O). split; [exact F |]. exists mp, doc. apply H. exact O.
  - intros (d & t & n & D & X). exists d, t, n. split; [apply H; exact D | exact X].
Qed.
Lemma udl_concat c ls : (forall l, In l ls -> udl c l) -> udl c (concat ls).
Proof.
  intros H m J. apply in_concat in J. destruct J as (l & L & J). apply (udl_mono c l).
  - intros x K. apply in_concat. exists l. split; assumption.
  - exact (H l L m J).
Qed.
Lemma udl_app c l l' : udl c l -> udl c l' -> udl c (l ++ l').
Proof.
  intros H H' m J. apply in_app_iff in J. destruct J as [J | J].
  - apply (udl_mono c l); [intros x K; apply in_app_iff; left; exact K | exact (H m J)].
  - apply (udl_mono c l'); [intros x K; apply in_app_iff; right; exact K | exact (H' m J)].
Qed.

Ltac step H := match type of H with
  | ubind ?e _ = UOk _ => let E := fresh "E" in destruct e eqn:E; [cbn [ubind] in H | discriminate H | discriminate H]
  end.

Section Conv.
  Variables (c : str) (lit : Lit_Spec.udl -> ty -> option literal) (docstring : str -> str) (m : tmap).

  Lemma rejected b ins : reject_async_by_mut_ref b ins = UOk tt ->
    b = true -> Forall (fun p => p_pass p <> ByMutRef) (map fst ins).
  Proof.
    unfold reject_async_by_mut_ref, bail_if. intros H ->. cbn [andb] in H.
    destruct (existsb _ ins) eqn:E; [discriminate H |]. apply Forall_forall. intros p J. apply in_map_iff in J. destruct J as (q & <- & J).
    intros P. assert (X : existsb (fun p : param * bool => match p_pass (fst p) with ByMutRef => true | _ => false end) ins = true); [| congruence].
    apply existsb_exists. exists q. split; [exact J | rewrite P; reflexivity].
  Qed.
  Lemma unit_tt (x : unit) : x = tt.
  Proof. destruct x. reflexivity. Qed.

  Lemma fn_ok o f : conv_fn lit docstring m o = UOk f -> udl_fn c (meta_fn c f).
  Proof.
    unfold conv_fn. intros H. step H. step H. step H. step H. step H. step H. injection H as <-.
    split; [reflexivity | split; [reflexivity |]]. cbn [meta_fn f_async f_inputs u_async u_inputs].
    rewrite (unit_tt a4) in E4. exact (rejected _ _ E4).
  Qed.
  Lemma cons_ok a args doc f : conv_cons lit docstring m a args doc = UOk f -> udl_fn c (meta_fn c f) /\ u_ret f = None.
  Proof.
    unfold conv_cons. intros H. step H. step H. step H. step H. injection H as <-.
    split; [| reflexivity]. split; [reflexivity | split; [reflexivity |]]. cbn [meta_fn f_async f_inputs u_async u_inputs].
    match goal with K : reject_async_by_mut_ref _ _ = UOk ?x |- _ => rewrite (unit_tt x) in K; exact (rejected _ _ K) end.
  Qed.
  Lemma method_ok o f : conv_method lit docstring m o = UOk f -> udl_fn c (meta_fn c (fst f)).
  Proof.
    unfold conv_method. intros H. do 9 step H. injection H as <-.
    split; [reflexivity | split; [reflexivity |]]. cbn [meta_fn f_async f_inputs u_async u_inputs fst].
    match goal with K : reject_async_by_mut_ref _ _ = UOk ?x |- _ => rewrite (unit_tt x) in K; exact (rejected _ _ K) end.
  Qed.
  Lemma vfield_ok a f : conv_vfield m a = UOk f -> udl_field f.
  Proof. unfold conv_vfield. destruct a; [| discriminate]. intros H. step H. step H. step H. injection H as <-. reflexivity. Qed.
  Lemma field_ok a f : conv_field lit docstring m a = UOk f -> udl_field f.
  Proof. unfold conv_field. intros H. step H. step H. step H. injection H as <-. reflexivity. Qed.
  Lemma all_ok {A B} (f : A -> ures B) (P : B -> Prop) l r : (forall a b, f a = UOk b -> P b) -> map_u f l = UOk r -> Forall P r.
  Proof. intros H E. apply Udl_Attrs.map_u_ok in E. induction E; constructor; eauto. Qed.
  Lemma variant_ok a v : conv_variant docstring m a = UOk v -> udl_variant v.
  Proof.
    unfold conv_variant. destruct a; try discriminate. intros H. do 5 step H. injection H as <-.
    split; [reflexivity | split; [reflexivity |]]. cbn [v_fields]. eapply all_ok; [| eassumption]. apply vfield_ok.
  Qed.

  (** The built-in traits of a definition [d]. *)
  Lemma traits_ok x t ks ts d items : make_traits x t ks = UOk ts -> type_of d = Some t -> defined_at d = Some (c, x) -> In d items ->
    forall y, In y (metas c ts) -> udl_item c items y.
  Proof.
    intros H T D I. apply Udl_Attrs.map_u_ok in H. induction H as [| k i ks ts E _ IH]; [intros y [] |].
    intros y J. cbn [metas flat_map] in J. apply in_app_iff in J. destruct J as [J | J]; [clear IH | exact (IH y J)].
    step E. injection E as <-. cbn [meta_of] in J. unfold make_trait, of_opt in E0. cbn [find_str] in E0.
    assert (X : exists u, y = MUniffiTrait u /\ built_in c x t u).
    { destruct (bytes_eqb_spec k (S_ "Debug")) as [-> | _].
      { injection E0 as <-. destruct J as [<- | []]. eexists. split; [reflexivity |]. cbn. repeat split. }
      destruct (bytes_eqb_spec k (S_ "Display")) as [-> | _].
      { injection E0 as <-. destruct J as [<- | []]. eexists. split; [reflexivity |]. cbn. repeat split. }
      destruct (bytes_eqb_spec k (S_ "Eq")) as [-> | _].
      { injection E0 as <-. destruct J as [<- | []]. eexists. split; [reflexivity |]. cbn. repeat split. }
      destruct (bytes_eqb_spec k (S_ "Hash")) as [-> | _].
      { injection E0 as <-. destruct J as [<- | []]. eexists. split; [reflexivity |]. cbn. repeat split. }
      destruct (bytes_eqb_spec k (S_ "Ord")) as [-> | _]; [| discriminate E0].
      injection E0 as <-. destruct J as [<- | []]. eexists. split; [reflexivity |]. cbn. repeat split. }
    destruct X as (u & -> & B). exists d, t, x. repeat split; assumption.
  Qed.

  Lemma metas_app l l' : metas c (l ++ l') = metas c l ++ metas c l'.
  Proof. apply flat_map_app. Qed.
  Lemma in_last (x y : metadata) l : In y (l ++ [x]) -> In y l \/ y = x.
  Proof. intros J. apply in_app_iff in J. destruct J as [J | [J | []]]; [left; exact J | right; symmetry; exact J]. Qed.

  Lemma dict_ok a x inh doc fs l : conv_dict c lit docstring m a x inh doc fs = UOk l -> udl c (metas c l).
  Proof.
    unfold conv_dict. intros H. do 4 step H. injection H as <-. rewrite metas_app.
    match goal with T : make_traits _ _ _ = UOk ?ts, F : map_u (conv_field _ _ _) _ = UOk ?gs |- _ => rename ts into tr; rename gs into fds; rename T into MT; rename F into MF end.
    set (r := MRecord (Rec c x None fds (option_map docstring doc))). change (metas c [IRecord x (has is_remote a0) fds (option_map docstring doc)]) with [r].
    assert (I : In r (metas c tr ++ [r])) by (apply in_app_iff; right; left; reflexivity).
    intros y J. apply in_last in J. destruct J as [J | ->].
    - exact (traits_ok x (TRecord c x) _ tr r _ MT eq_refl eq_refl I y J).
    - split; [reflexivity | split; [reflexivity |]]. exact (all_ok _ _ _ _ field_ok MF).
  Qed.
  Lemma enum_iface_ok a x inh doc ms l : conv_enum_iface c docstring m a x inh doc ms = UOk l -> udl c (metas c l).
  Proof.
    unfold conv_enum_iface. intros H. do 4 step H. injection H as <-. rewrite metas_app.
    match goal with T : make_traits _ _ _ = UOk ?ts, F : map_u (conv_variant _ _) _ = UOk ?gs |- _ => rename ts into tr; rename gs into vs; rename T into MT; rename F into MF end.
    match goal with |- udl c (_ ++ metas c [IEnum ?x ?sh ?r ?vs ?ne ?d]) => set (r0 := MEnum (Enum c x None sh None vs ne d)); change (metas c [IEnum x sh r vs ne d]) with [r0] end.
    assert (I : In r0 (metas c tr ++ [r0])) by (apply in_app_iff; right; left; reflexivity).
    intros y J. apply in_last in J. destruct J as [J | ->].
    - exact (traits_ok x (TEnum c x) _ tr r0 _ MT eq_refl eq_refl I y J).
    - split; [reflexivity | split; [reflexivity | split; [reflexivity |]]]. split; [exact (all_ok _ _ _ _ variant_ok MF) |].
      cbn. destruct (has is_error _); discriminate.
  Qed.
  Lemma enum_ok a x doc vs l : conv_enum docstring a x doc vs = UOk l -> udl c (metas c l).
  Proof.
    unfold conv_enum. intros H. step H. injection H as <-. intros y [<- | []].
    split; [reflexivity | split; [reflexivity | split; [reflexivity |]]]. cbn [e_variants e_shape]. split.
    - apply Forall_forall. intros v J. apply in_map_iff in J. destruct J as (w & <- & _). repeat split. constructor.
    - intros _. apply Forall_forall. intros v J. apply in_map_iff in J. destruct J as (w & <- & _). reflexivity.
  Qed.
  Lemma callback_members_ok x ms : forall i l, conv_callback_members lit docstring m x i ms = UOk l ->
    forall y, In y (metas c l) -> exists s k f, y = MTraitMethod s k f /\ s = x /\ udl_fn c f.
  Proof.
    induction ms as [| b ms IH]; intros i l H y J; cbn [conv_callback_members] in H; [injection H as <-; contradiction J |].
    destruct b; try discriminate H. step H. step H. injection H as <-. cbn [metas flat_map meta_of app] in J.
    destruct J as [<- | J]; [| exact (IH _ _ E0 y J)]. do 3 eexists. split; [reflexivity | split; [reflexivity |]]. exact (method_ok _ _ E).
  Qed.
  Lemma callback_ok a x inh doc ms l : conv_callback lit docstring m a x inh doc ms = UOk l -> udl c (metas c l).
  Proof.
    unfold conv_callback. intros H. do 3 step H. injection H as <-. rewrite metas_app. intros y J. apply in_last in J.
    destruct J as [J | ->]; [| reflexivity]. destruct (callback_members_ok _ _ _ _ E1 y J) as (s & k & f & -> & -> & F).
    split; [exact F |]. exists c, (option_map docstring doc). apply in_app_iff. right. left. reflexivity.
  Qed.
  Lemma members_ok x imp ms : forall names l, conv_members lit docstring m x imp names ms = UOk l ->
    forall y, In y (metas c l) ->
    (exists f, y = MConstructor x f /\ udl_fn c f /\ f_ret f = None /\ imp = IStruct) \/ (exists f, y = MMethod x f /\ udl_fn c f).
  Proof.
    induction ms as [| b ms IH]; intros names l H y J; cbn [conv_members] in H; [injection H as <-; contradiction J |].
    destruct b; try discriminate H.
    - step H. step H. step H. step H. injection H as <-. cbn [metas flat_map meta_of app] in J.
      destruct J as [<- | J]; [| exact (IH _ _ E2 y J)]. left. eexists. split; [reflexivity |].
      destruct (cons_ok _ _ _ _ E) as (F & R). split; [exact F | split; [exact R |]]. destruct imp; [reflexivity | discriminate E0].
    - step H. step H. step H. injection H as <-. cbn [metas flat_map meta_of app] in J.
      destruct J as [<- | J]; [| exact (IH _ _ E1 y J)]. right. eexists. split; [reflexivity |]. exact (method_ok _ _ E).
  Qed.
  Lemma object_ok a x inh doc ms l : conv_object c lit docstring m a x inh doc ms = UOk l -> udl c (metas c l).
  Proof.
    unfold conv_object. intros H. do 5 step H. injection H as <-. rewrite !metas_app.
    match goal with T : make_traits _ _ _ = UOk ?ts, F : conv_members _ _ _ _ ?imp _ _ = UOk ?gs |- _ => rename ts into tr; rename gs into fs; rename imp into im; rename T into MT; rename F into MF end.
    match goal with |- udl c (_ ++ _ ++ metas c [IObject ?x ?im ?r ?d]) => set (r0 := MObject (Obj c x None im d)); change (metas c [IObject x im r d]) with [r0] end.
    assert (I : In r0 (metas c fs ++ metas c tr ++ [r0])) by (rewrite !in_app_iff; right; right; left; reflexivity).
    intros y J. apply in_app_iff in J. destruct J as [J | J]; [| apply in_last in J; destruct J as [J | ->]].
    - destruct (members_ok _ _ _ _ _ MF y J) as [(f & -> & F & R & S) | (f & -> & F)].
      + split; [exact F | split; [exact R |]]. exists (Obj c x None im (option_map docstring doc)). split; [exact I | split; [reflexivity | exact S]].
      + split; [exact F |]. exists (Obj c x None im (option_map docstring doc)). split; [exact I | reflexivity].
    - exact (traits_ok x (TObject c x im) _ tr r0 _ MT eq_refl eq_refl I y J).
    - split; [reflexivity | split; [reflexivity |]]. cbn [o_imp].
      match goal with K : object_impl _ = UOk im |- _ => unfold object_impl in K; destruct (has is_trait _), (has is_foreign _); try discriminate K; injection K as <-; discriminate end.
  Qed.
  Lemma process_ok ns d l : process c lit docstring m ns d = UOk l -> udl c (metas c l).
  Proof.
    destruct d; cbn [process]; intros H.
    - do 3 step H. injection H as <-. intros y J. unfold metas in J. apply in_flat_map in J. destruct J as (i & K & J).
      apply in_map_iff in K. destruct K as (f & <- & K). destruct J as [<- | []].
      assert (N : forall b f, conv_ns_member lit docstring m b = UOk f -> udl_fn c (meta_fn c f)).
      { intros b f' X. destruct b; [discriminate X | exact (fn_ok _ _ X) | discriminate X]. }
      pose proof (all_ok _ (fun f => udl_fn c (meta_fn c f)) _ _ N E1) as F.
      rewrite Forall_forall in F. exact (F f K).
    - exact (enum_ok _ _ _ _ _ H).
    - exact (dict_ok _ _ _ _ _ _ H).
    - step H. destruct (_ || _); [exact (enum_iface_ok _ _ _ _ _ _ H) | exact (object_ok _ _ _ _ _ _ H)].
    - exact (callback_ok _ _ _ _ _ _ H).
    - injection H as <-. intros y [].
    - discriminate H.
  Qed.
End Conv.

Theorem read_gives c lit docstring ds g : read_udl c lit docstring ds = UOk g -> udl c (metas c (g_items g)).
Proof.
  unfold read_udl. intros H. do 3 step H. injection H as <-. cbn [g_items]. rewrite metas_app. apply udl_app.
  - unfold process_all in E1. step E1. injection E1 as <-.
    assert (X : metas c (concat a2) = concat (map (metas c) a2)).
    { clear. induction a2 as [| l ls IH]; [reflexivity |]. cbn [concat map]. rewrite metas_app, IH. reflexivity. }
    rewrite X. apply udl_concat. intros l J. apply in_map_iff in J. destruct J as (us & <- & J).
    apply Udl_Attrs.map_u_ok in E2. clear - E2 J. induction E2 as [| d us' ds uss E _ IH]; [contradiction J |].
    destruct J as [-> | J]; [exact (process_ok _ _ _ _ _ _ _ E) | exact (IH J)].
  - intros y J. unfold metas, custom_items in J. apply in_flat_map in J. destruct J as (i & K & J). apply in_concat in K.
    destruct K as (l & L & K). apply in_map_iff in L. destruct L as (e & <- & _). destruct (snd e); cbn in K; try contradiction K.
    destruct K as [<- | []]. destruct J as [<- | []]. exact Logic.I.
Qed.
