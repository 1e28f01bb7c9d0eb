(** A library built from a UDL file: its functions, its items, its tables. *)
From Verif Require Import Base Meta_Types Api_Types Api_Model Api_Spec Excl_Types Excl_Spec Excl_Model Src_Model Stub_Model Stub_Spec Stub_Macros Stub_Proofs Stub_Parts.
From Verif Require Excl_Basics.
From Verif Require Import Names_Model.

(** ** Functions *)

Definition sym (cb : bool) (m : metadata) : list str :=
  match m with
  | MObject o =>
      [clone_fn_symbol_name (o_mp o) (o_name o); free_fn_symbol_name (o_mp o) (o_name o)] ++
      (if has_callback_interface (o_imp o)
       then [init_callback_vtable_fn_symbol_name (o_mp o) (o_name o)] else [])
  | MCallback mp n _ => [init_callback_vtable_fn_symbol_name mp n]
  | _ => if cb then [] else ffi_symbol_names m
  end.
Lemma macro_symbols_eq ms : macro_symbols ms = flat_map (sym (existsb is_callback ms)) ms.
Proof. reflexivity. Qed.
Definition same_sym (x m : metadata) : Prop := forall cb, sym cb m = sym cb x.

Section Main.
  Variables (c : str) (remote : str -> bool) (arc : str -> str -> bool).
  Variables (items : list metadata) (a : api metadata).
  Hypothesis U : udl c items.
  Hypothesis SA : says items a.

  Lemma in_crate m f : In m items -> signature m f -> f_mp f = c.
  Proof. intros J S. exact (proj1 (udl_signature c items U m f J S)). Qed.

  Lemma same_syms v : plain_traits items -> In v (a_types a) -> ~ is_custom (v_item v) ->
    R_parts same_sym (parts v) (concat (result c a v)).
  Proof.
    intros PT I NC. apply (parts_back c items a U SA PT same_sym); try assumption.
    - intros s f J cb. cbn. rewrite (in_crate _ f J eq_refl). reflexivity.
    - intros s f J cb. cbn. rewrite (in_crate _ f J eq_refl). reflexivity.
    - intros s f k J cb. cbn. rewrite (in_crate _ f J eq_refl). reflexivity.
    - intros s i f k J cb. cbn. rewrite (in_crate _ f J eq_refl). reflexivity.
    - intros r _ cb. reflexivity.
    - intros e _ _ cb. reflexivity.
    - intros e _ _ cb. reflexivity.
    - intros o J cb. destruct (U _ J) as (M & _). cbn. rewrite M. reflexivity.
    - intros mp n doc J cb. pose proof (U _ J) as M. cbn in M. cbn. rewrite M. reflexivity.
    - intros u _ cb. reflexivity.
  Qed.

  Lemma count_no_callback g s fs : forall k, existsb is_callback (count g s k fs) = false.
  Proof. induction fs as [| f fs IH]; intros k; [reflexivity |]. cbn. apply IH. Qed.
  Lemma traits_no_callback n t b1 b2 b3 b4 b5 : existsb is_callback (st_traits c n t b1 b2 b3 b4 b5) = false.
  Proof. destruct b1, b2, b3, b4, b5; reflexivity. Qed.
  Lemma groups v ms : In ms (result c a v) -> existsb is_callback ms = is_callback (v_item v).
  Proof.
    unfold result. destruct (v_item v) as [| | | o | mp n doc | r | e | | | | | |]; try contradiction.
    - destruct (o_imp o) as [| k].
      + intros [<- | J]; [cbn; apply traits_no_callback |]. apply in_app_iff in J.
        destruct J as [J | J]; apply in_map_iff in J; destruct J as (f & <- & _); reflexivity.
      + intros [<- | []]. cbn. apply count_no_callback.
    - intros [<- | []]. reflexivity.
    - intros [<- | []]. cbn. apply traits_no_callback.
    - intros [<- | []]. destruct (is_name_used_as_error a (e_name e)); [reflexivity |]. cbn. apply traits_no_callback.
  Qed.
  Lemma custom_parts v : In v (a_types a) -> is_custom (v_item v) -> parts v = [v_item v].
  Proof.
    intros I C. unfold parts.
    assert (NO : forall o, v_item v <> MObject o) by (intros o E; rewrite E in C; exact C).
    rewrite (no_members c items a U SA v I NO), (no_methods c items a U SA v I NO).
    - destruct (v_traits v) as [| m ts] eqn:T; [reflexivity |]. exfalso.
      destruct (in_traits c items a U SA v m I) as (_ & u & t & n & _ & X & _); [rewrite T; left; reflexivity |].
      destruct (v_item v); try contradiction C. discriminate X.
    - intros mp n doc E. rewrite E in C. exact C.
  Qed.
  Lemma custom_result v : is_custom (v_item v) -> result c a v = [].
  Proof. unfold result. destruct (v_item v); try contradiction; reflexivity. Qed.
  Lemma custom_dec m : is_custom m \/ ~ is_custom m.
  Proof. destruct m; cbn; tauto. Qed.

  Lemma type_symbols v s : plain_traits items -> In v (a_types a) ->
    (In s (flat_map macro_symbols (result c a v)) <-> exists x, In x (parts v) /\ In s (sym (is_callback (v_item v)) x)).
  Proof.
    intros PT I. destruct (custom_dec (v_item v)) as [C | C].
    - rewrite (custom_result v C), (custom_parts v I C). split; [intros [] |].
      intros (x & [<- | []] & J). destruct (v_item v); try contradiction C. exact J.
    - destruct (same_syms v PT I C) as (P & Q). rewrite in_flat_map. split.
      + intros (ms & J & K). rewrite macro_symbols_eq, (groups v ms J) in K. apply in_flat_map in K. destruct K as (m & M & K).
        destruct (Q m) as (x & X & E); [apply in_concat; exists ms; split; assumption |].
        exists x. split; [exact X |]. rewrite <- (E _). exact K.
      + intros (x & X & K). destruct (P x X) as (m & M & E). apply in_concat in M. destruct M as (ms & J & M).
        exists ms. split; [exact J |]. rewrite macro_symbols_eq, (groups v ms J). apply in_flat_map.
        exists m. split; [exact M |]. rewrite (E _). exact K.
  Qed.

  Lemma function_of m : In m (a_functions a) -> In m items /\ exists f, m = MFunc f.
  Proof. intros J. destruct SA as ((_ & X) & _). apply X. exact J. Qed.
  Lemma fn_back m f : In m (a_functions a) -> m = MFunc f -> read_back_fn c m = Some [[MFunc (st_fn c f)]].
  Proof.
    intros J ->. destruct (function_of _ J) as (K & _). destruct (udl_signature c items U (MFunc f) f K eq_refl) as (_ & _ & S).
    unfold read_back_fn. cbn [fn_of map traverse]. rewrite (fn_read c f S). reflexivity.
  Qed.
  Definition fn_result (m : metadata) : list (list metadata) := map (fun f => [MFunc (st_fn c f)]) (fn_of m).

  Lemma scaffolding_eq : scaffolding c remote arc a =
    Some (flat_map macro_symbols (concat (map (result c a) (a_types a)) ++ concat (map fn_result (a_functions a))) ++ checksums a).
  Proof.
    unfold scaffolding. rewrite (traverse_all _ (result c a)); [| intros v I; apply (read_back_eq c remote arc items a U SA v I)].
    cbn [Src_Model.bind]. rewrite (traverse_all _ fn_result); [reflexivity |].
    intros m J. destruct (function_of m J) as (_ & f & ->). apply (fn_back _ f J eq_refl).
  Qed.

  Lemma in_scaffolding s : plain_traits items ->
    (In s (flat_map macro_symbols (concat (map (result c a) (a_types a)) ++ concat (map fn_result (a_functions a))) ++ checksums a) <->
     (exists v x, In v (a_types a) /\ In x (parts v) /\ In s (sym (is_callback (v_item v)) x)) \/
     (exists m, In m (a_functions a) /\ In s (entry m)) \/ In s (checksums a)).
  Proof.
    intros PT. rewrite in_app_iff, flat_map_app, in_app_iff, <- !flat_map_concat_map.
    assert (X : In s (flat_map macro_symbols (flat_map (result c a) (a_types a))) <->
                exists v x, In v (a_types a) /\ In x (parts v) /\ In s (sym (is_callback (v_item v)) x)).
    { split.
      - intros J. apply in_flat_map in J. destruct J as (ms & J & K). apply in_flat_map in J. destruct J as (v & I & J).
        destruct (proj1 (type_symbols v s PT I)) as (x & X & Y); [apply in_flat_map; exists ms; split; assumption |].
        exists v, x. repeat split; assumption.
      - intros (v & x & I & X & Y). assert (Z := proj2 (type_symbols v s PT I) (ex_intro _ x (conj X Y))).
        apply in_flat_map in Z. destruct Z as (ms & J & K). apply in_flat_map. exists ms. split; [| exact K].
        apply in_flat_map. exists v. split; assumption. }
    assert (Y : In s (flat_map macro_symbols (flat_map fn_result (a_functions a))) <-> exists m, In m (a_functions a) /\ In s (entry m)).
    { split.
      - intros J. apply in_flat_map in J. destruct J as (ms & J & K). apply in_flat_map in J. destruct J as (m & I & J).
        destruct (function_of m I) as (M & f & ->). destruct J as [<- | []]. exists (MFunc f). split; [exact I |].
        cbn in K. cbn. rewrite (in_crate _ f M eq_refl). exact K.
      - intros (m & I & K). destruct (function_of m I) as (M & f & ->). apply in_flat_map. exists [MFunc (st_fn c f)].
        split; [apply in_flat_map; exists (MFunc f); split; [exact I | left; reflexivity] |].
        cbn. cbn in K. rewrite (in_crate _ f M eq_refl) in K. exact K. }
    rewrite X, Y. tauto.
  Qed.

  Lemma in_checksums s : In s (checksums a) <-> exists m, In m items /\ In s (checksum_of m).
  Proof.
    unfold checksums. cbn [ci_generate b_checked]. rewrite in_app_iff. split.
    - intros [J | J].
      + apply in_flat_map in J. destruct J as (m & J & K). rewrite Excl_Basics.checksum_symbols in K.
        exists m. split; [exact (proj1 (function_of m J)) | exact K].
      + apply in_flat_map in J. destruct J as (y & J & K). apply in_map_iff in J. destruct J as (v & <- & I).
        assert (X : exists m, In m (v_constructors v ++ v_methods v) /\ In s (checksum_symbol_names m)).
        { unfold ci_checksums in K. cbn [y_item ci_typ y_methods y_constructors] in K. rewrite <- map_app, !map_map in K.
          cbn [call_of c_item] in K.
          destruct (v_item v); try contradiction K; apply in_flat_map in K; destruct K as (m & M & K); rewrite ?map_id in M;
            exists m; (split; [| exact K]); rewrite in_app_iff in *; tauto. }
        destruct X as (m & M & K'). rewrite Excl_Basics.checksum_symbols in K'. exists m. split; [| exact K'].
        apply in_app_iff in M. destruct M as [M | M];
          [destruct (in_constructors c items a U SA v m I M) as (o & f & _ & _ & _ & Z); exact Z | exact (proj1 (in_methods c items a U SA v m I M))].
    - intros (m & J & K). destruct (role_of m) as [r |] eqn:R.
      + right. destruct SA as (_ & _ & _ & _ & X). destruct (X m J) as (v & I & Y); [congruence |].
        apply in_flat_map. exists (ci_typ (Conf [] []) v). split; [apply in_map; exact I |].
        unfold ci_checksums. cbn [y_item ci_typ y_methods y_constructors]. rewrite <- map_app, !map_map.
        cbn [call_of c_item]. rewrite !map_id.
        rewrite !in_app_iff in Y. destruct Y as [Y | [Y | [Y | Y]]].
        * destruct (in_constructors c items a U SA v m I Y) as (o & f & -> & _). apply in_flat_map. exists m.
          split; [apply in_app_iff; right; exact Y | rewrite Excl_Basics.checksum_symbols; exact K].
        * destruct (in_methods c items a U SA v m I Y) as (_ & [(o & f & -> & _) | (mp & n & doc & i & f & -> & _)]);
            apply in_flat_map; exists m; (split; [rewrite ?in_app_iff; tauto | rewrite Excl_Basics.checksum_symbols; exact K]).
        * destruct (in_traits c items a U SA v m I Y) as (_ & u & t & n & -> & _). contradiction K.
        * elim (no_impls c items a U SA v m I Y).
      + left. destruct m; cbn in K; try contradiction K; try discriminate R.
        apply in_flat_map. exists (MFunc f). split; [| exact K]. destruct SA as ((_ & X) & _). apply X. split; [exact J | exists f; reflexivity].
  Qed.

  Lemma definition_view d : In d items -> defines d <> None -> ~ is_custom d -> exists v, In v (a_types a) /\ v_item v = d.
  Proof.
    intros J D C. destruct SA as (_ & _ & _ & K & _). destruct (K d J D) as (v & I & [E | E]); [exists v; split; assumption |].
    destruct E as (? & ? & ? & ? & ? & -> & _). elim C. exact Logic.I.
  Qed.
  Lemma member_facts v m : In v (a_types a) -> In m (v_constructors v ++ v_methods v ++ v_traits v) ->
    In m items /\ written_for m = defines (v_item v) /\ role_of m <> None.
  Proof.
    intros I J. destruct (view_of items a SA v I) as (_ & (_ & (_ & A) & (_ & B) & (_ & C) & _) & _).
    rewrite !in_app_iff in J. destruct J as [J | [J | J]].
    - apply A in J. destruct J as (X & Y & Z). repeat split; [exact X | exact Z | congruence].
    - apply B in J. destruct J as [(X & Y & Z) | (X & Y & Z)]; (repeat split; [exact X | exact Z | congruence]).
    - apply C in J. destruct J as (X & Y & Z). repeat split; [exact X | exact Z | congruence].
  Qed.
  Lemma member_sym cb m : role_of m <> None -> sym cb m = if cb then [] else entry m.
  Proof. destruct m as [| | | | | | | | | | | u |]; cbn; try congruence; intros _; destruct cb; try reflexivity; destruct u; reflexivity. Qed.

  Theorem exported : plain_traits items -> exists l, scaffolding c remote arc a = Some l /\ exports_exactly items l.
  Proof.
    intros PT. eexists. split; [exact scaffolding_eq |]. intros s. rewrite (in_scaffolding s PT), in_checksums. split.
    - intros [(v & x & I & X & J) | [(m & M & J) | (m & M & J)]].
      + destruct (view_of items a SA v I) as (VI & _ & VD).
        destruct X as [<- | X].
        * exists (v_item v). destruct (v_item v) as [| | | o | mp n doc | r | e | | | | | |] eqn:E; cbn in J; try contradiction J;
            try (elim VD; reflexivity).
          -- destruct J as [J | [J | J]]; [apply ex_handle; [exact VI | left; exact J] | apply ex_handle; [exact VI | right; left; exact J] |].
             destruct (o_imp o) as [| [| |]] eqn:IM; cbn in J; try contradiction J; destruct J as [<- | []];
               (apply ex_init; [exact VI | cbn; rewrite IM; tauto | reflexivity]).
          -- destruct J as [<- | []]. apply ex_init; [exact VI | exact Logic.I | reflexivity].
        * destruct (member_facts v x I X) as (K & W & R). rewrite (member_sym _ _ R) in J.
          destruct (is_callback (v_item v)) eqn:CB; [contradiction J |]. exists x. apply ex_entry; [exact K | | exact J].
          intros (mp & n & doc & M & WM). assert (E : v_item v = MCallback mp n doc); [| rewrite E in CB; discriminate CB].
          apply (the_item items a SA); [exact I | exact M | discriminate | intros [] | congruence].
      + destruct (function_of m M) as (K & f & ->). exists (MFunc f). apply ex_entry; [exact K | | exact J].
        intros (mp & n & doc & _ & W). discriminate W.
      + exists m. apply ex_checksum; assumption.
    - intros (m & [s' M NC J | s' M J | s' M J | s' M F J]).
      + destruct (role_of m) as [r |] eqn:R.
        * left. destruct SA as (_ & _ & _ & _ & X). destruct (X m M) as (v & I & Y); [congruence |].
          assert (Z : In m (v_constructors v ++ v_methods v ++ v_traits v)).
          { rewrite !in_app_iff in Y. rewrite !in_app_iff. destruct Y as [Y | [Y | [Y | Y]]]; try tauto. elim (no_impls c items a U SA v m I Y). }
          exists v, m. split; [exact I | split; [right; exact Z |]].
          destruct (member_facts v m I Z) as (_ & W & R'). rewrite (member_sym _ _ R').
          destruct (is_callback (v_item v)) eqn:CB; [exfalso | exact J]. apply NC.
          destruct (v_item v) as [| | | | mp n doc | | | | | | | |] eqn:E; try discriminate CB. exists mp, n, doc. split; [| exact W].
          rewrite <- E. exact (proj1 (view_of items a SA v I)).
        * right. left. destruct m as [| | | | | | | | | | | u |]; cbn in J; try contradiction J; try discriminate R.
          exists (MFunc f). split; [| exact J]. destruct SA as ((_ & X) & _). apply X. split; [exact M | exists f; reflexivity].
      + right. right. exists m. split; assumption.
      + left. destruct m; cbn in J; try contradiction J.
        destruct (definition_view _ M) as (v & I & E); [discriminate | intros [] |].
        exists v, (MObject o). split; [exact I | split; [left; exact E |]]. cbn [sym]. apply in_app_iff. left. exact J.
      + left. destruct (definition_view m M) as (v & I & E).
        * intros D. unfold init_of in J. unfold defines in D. destruct (defined_at m) as [[? ?] |]; discriminate.
        * destruct m; cbn in F; try contradiction F; intros [].
        * exists v, m. split; [exact I | split; [left; exact E |]].
          destruct m; cbn in F; try contradiction F; injection J as <-; cbn [sym].
          -- apply in_app_iff. right. destruct F as [-> | ->]; left; reflexivity.
          -- left. reflexivity.
  Qed.

  (** ** Items *)

  Lemma param_again m f : mutable_bytes items -> In m items -> signature m f -> map st_param (f_inputs f) = map bare_param (f_inputs f).
  Proof.
    intros MB J S. apply map_ext_in. intros p K. unfold st_param, bare_param. f_equal.
    destruct (p_pass p) eqn:P; try reflexivity. rewrite (MB m f p J S K P). reflexivity.
  Qed.
  Lemma fn_again m f : mutable_bytes items -> In m items -> signature m f -> st_fn c f = bare_fn f.
  Proof. intros MB J S. unfold st_fn, bare_fn. rewrite (param_again m f MB J S), (in_crate m f J S). reflexivity. Qed.
  Lemma fieldless_iff (e : enum_meta) : forallb (fun v => match v_fields v with [] => true | _ => false end) (e_variants e) = true <-> fieldless e.
  Proof.
    unfold fieldless. rewrite forallb_forall, Forall_forall. split; intros H v J; specialize (H v J); destruct (v_fields v); congruence.
  Qed.
  Lemma flat_iff e : In (MEnum e) items -> (is_flat e = true <-> fieldless e /\ e_shape e <> ShError false).
  Proof.
    intros J. destruct (U _ J) as (_ & _ & _ & _ & F). unfold is_flat. destruct (e_shape e) as [| [|]].
    - rewrite fieldless_iff. split; [intros H; split; [exact H | discriminate] | intros (H & _); exact H].
    - split; [intros _; split; [apply F; reflexivity | discriminate] | reflexivity].
    - split; [discriminate | intros (_ & H); congruence].
  Qed.

  Lemma parts_again v : plain_traits items -> mutable_bytes items -> plain_callbacks items -> In v (a_types a) -> ~ is_custom (v_item v) ->
    same_parts items (parts v) (concat (result c a v)).
  Proof.
    intros PT MB PC I NC. apply (parts_back c items a U SA PT (again items)); try assumption.
    - intros s f J. destruct (U _ J) as (_ & R & _).
      assert (E : st_constructor c f = bare_fn f).
      { unfold st_constructor, bare_fn. rewrite (param_again _ f MB J eq_refl), (in_crate _ f J eq_refl), R. reflexivity. }
      rewrite E. apply ag_constructor.
    - intros s f J. rewrite (fn_again _ f MB J eq_refl). apply ag_method.
    - intros s f k J. rewrite (fn_again _ f MB J eq_refl). apply ag_numbered.
    - intros s i f k J. destruct (PC s i f J) as (NA & NM).
      assert (E : st_callback_fn c f = bare_fn f).
      { unfold st_callback_fn, bare_fn. rewrite (in_crate _ f J eq_refl), NA. f_equal. apply map_ext_in. intros p K.
        rewrite Forall_forall in NM. specialize (NM p K). unfold st_callback_param, bare_param. f_equal. destruct (p_pass p); congruence. }
      rewrite E. apply ag_trait_method.
    - intros r J. destruct (U _ J) as (M & _). rewrite <- M. apply ag_record.
    - intros e J NE. destruct (U _ J) as (M & _). rewrite <- M. apply (ag_enum items e NE).
    - intros e J NE. destruct (U _ J) as (M & _). rewrite <- M. destruct (is_flat e) eqn:F.
      + apply (flat_iff e J) in F. destruct F as (F & G).
        assert (E : map st_flat_variant (e_variants e) = map bare_variant (e_variants e)).
        { apply map_ext_in. intros w K. unfold fieldless in F. rewrite Forall_forall in F. unfold st_flat_variant, bare_variant. rewrite (F w K). reflexivity. }
        rewrite E. apply (ag_flat_error items e NE F G).
      + apply (ag_error items e NE). destruct (e_shape e) as [| [|]] eqn:S; [left | left | right; reflexivity]; intros X.
        * assert (Y : is_flat e = true) by (apply (flat_iff e J); split; [exact X | congruence]). congruence.
        * assert (Y : is_flat e = true) by (apply (flat_iff e J); split; [exact X | congruence]). congruence.
    - intros o J. destruct (U _ J) as (M & _). rewrite <- M. apply ag_object.
    - intros mp n doc J. pose proof (U _ J) as M. cbn in M. rewrite M. apply ag_callback.
    - intros u _. apply ag_trait.
  Qed.

  Theorem said_again : plain_traits items -> mutable_bytes items -> plain_callbacks items ->
    (forall v, In v (a_types a) -> ~ is_custom (v_item v) ->
       exists mss, read_back c remote arc a v = Some mss /\ same_parts items (parts v) (concat mss)) /\
    (forall m, In m (a_functions a) -> exists x, read_back_fn c m = Some [[x]] /\ again items m x).
  Proof.
    intros PT MB PC. split.
    - intros v I NC. eexists. split; [exact (read_back_eq c remote arc items a U SA v I) |]. exact (parts_again v PT MB PC I NC).
    - intros m J. destruct (function_of m J) as (K & f & ->). eexists. split; [exact (fn_back _ f J eq_refl) |].
      rewrite (fn_again _ f MB K eq_refl). apply ag_fn.
  Qed.

  (** ** Tables *)

  Lemma count_names g s fs : (forall f, f_name (g f) = f_name f) ->
    forall k, flat_map (fun m => match m with MTraitMethod _ _ f => [f_name f] | _ => [] end) (count g s k fs) = map f_name fs.
  Proof.
    intros G. induction fs as [| f fs IH]; intros k; [reflexivity |]. cbn. rewrite G, IH. reflexivity.
  Qed.
  Theorem tables_again v : In v (a_types a) -> exists mss, read_back c remote arc a v = Some mss /\
    (foreign (v_item v) -> exists ms, mss = [ms] /\ Stub_Model.table_of ms = Some (map f_name (flat_map fn_of (v_methods v)))) /\
    (~ foreign (v_item v) -> Forall (fun ms => Stub_Model.table_of ms = None) mss).
  Proof.
    intros I. eexists. split; [exact (read_back_eq c remote arc items a U SA v I) |].
    unfold result. destruct (v_item v) as [| | | o | mp n doc | r | e | | | | | |]; cbn [foreign]; try solve [split; [intros [] | intros _; constructor]].
    - destruct (o_imp o) as [| k] eqn:IM.
      + split; [intros [K | K]; discriminate |]. intros _. constructor; [reflexivity |]. apply (proj2 (Forall_app _ _ _)).
        split; apply Forall_forall; intros ms J; apply in_map_iff in J; destruct J as (f & <- & _); reflexivity.
      + split.
        * intros F. eexists. split; [reflexivity |]. unfold Stub_Model.table_of. cbn [flat_map app o_imp].
          rewrite count_names by reflexivity. destruct F as [F | F]; injection F as ->; reflexivity.
        * intros F. constructor; [| constructor]. cbn. destruct k; try reflexivity; elim F; tauto.
    - split; [| intros X; elim X; exact Logic.I]. intros _. eexists. split; [reflexivity |].
      unfold Stub_Model.table_of. cbn [flat_map app]. rewrite count_names by reflexivity. reflexivity.
    - split; [intros [] |]. intros _. constructor; [reflexivity | constructor].
    - split; [intros [] |]. intros _. constructor; [| constructor]. destruct (is_name_used_as_error a (e_name e)); reflexivity.
  Qed.
End Main.
