(** Each definition's parts and what is read back of them. *)
From Verif Require Import Base Meta_Types Api_Types Api_Model Api_Spec Excl_Types Excl_Spec Excl_Model Src_Model Stub_Model Stub_Spec Stub_Macros Stub_Proofs.

Lemma in_count g s fs : forall k m, In m (count g s k fs) -> exists f k', In f fs /\ m = MTraitMethod s k' (g f).
Proof.
  induction fs as [| f fs IH]; intros k m J; [contradiction |]. destruct J as [<- | J].
  - exists f, k. split; [left |]; reflexivity.
  - destruct (IH _ _ J) as (f' & k' & X & Y). exists f', k'. split; [right; exact X | exact Y].
Qed.
Lemma count_has g s fs f : In f fs -> forall k, exists k', In (MTraitMethod s k' (g f)) (count g s k fs).
Proof.
  induction fs as [| f' fs IH]; [intros [] |]. intros [E | J] k; [subst f' |].
  - exists k. left. reflexivity.
  - destruct (IH J (k + 1)%Z) as [k' X]. exists k'. right. exact X.
Qed.
Lemma in_fns_of l m f : In m l -> signature m f -> In f (flat_map fn_of l).
Proof.
  intros J S. apply in_flat_map. exists m. split; [exact J |]. destruct m; cbn in S; try contradiction; left; exact S.
Qed.

Section Parts.
  Variables (c : str) (items : list metadata) (a : api metadata).
  Hypothesis U : udl c items.
  Hypothesis SA : says items a.
  Hypothesis PT : plain_traits items.

  Lemma traits_of v n t : In v (a_types a) -> type_of (v_item v) = Some t -> defined_at (v_item v) = Some (c, n) ->
    forall m, In m (v_traits v) -> exists u, m = MUniffiTrait u /\ built_in c n t u.
  Proof.
    intros I T D m J. destruct (in_traits c items a U SA v m I J) as (_ & u & t' & n' & E & T' & D' & B).
    exists u. split; [exact E |]. rewrite T in T'. injection T' as <-. rewrite D in D'. injection D' as <-. exact B.
  Qed.
  Lemma trait_in_view v n u : In v (a_types a) -> defined_at (v_item v) = Some (c, n) ->
    In (MUniffiTrait u) items -> written_for (MUniffiTrait u) = Some (crate_of c, n) -> In (MUniffiTrait u) (v_traits v).
  Proof.
    intros I D J W. destruct (view_of items a SA v I) as (_ & (_ & _ & _ & (_ & X) & _) & _). apply X.
    split; [exact J | split; [reflexivity |]]. rewrite W. unfold defines. rewrite D. reflexivity.
  Qed.
  Lemma item_of v : In v (a_types a) -> In (v_item v) items.
  Proof. intros I. exact (proj1 (view_of items a SA v I)). Qed.
  Lemma trait_item v m : In v (a_types a) -> In m (v_traits v) ->
    exists u, m = MUniffiTrait u /\ In m items /\ written_for m = defines (v_item v).
  Proof.
    intros I J. destruct (view_of items a SA v I) as (_ & (_ & _ & _ & (_ & X) & _) & _). apply X in J.
    destruct J as (J & R & W). destruct m; try discriminate R. exists u. repeat split; assumption.
  Qed.

  Lemma no_traits_of_error v e : In v (a_types a) -> v_item v = MEnum e -> an_error items (e_name e) -> v_traits v = [].
  Proof.
    intros I E H. destruct (v_traits v) as [| m ts] eqn:T; [reflexivity |]. exfalso.
    destruct (trait_item v m I) as (u & -> & J & W); [rewrite T; left; reflexivity |].
    destruct PT as (N & _). apply (N e u); [rewrite <- E; exact (item_of v I) | exact J | rewrite W, E; reflexivity | exact H].
  Qed.
  Lemma no_traits_of_trait v o k : In v (a_types a) -> v_item v = MObject o -> o_imp o = ITrait k -> v_traits v = [].
  Proof.
    intros I E K. destruct (v_traits v) as [| m ts] eqn:T; [reflexivity |]. exfalso.
    destruct (trait_item v m I) as (u & -> & J & W); [rewrite T; left; reflexivity |].
    destruct PT as (_ & N & _). assert (X : o_imp o = IStruct); [| congruence].
    apply (N o u); [rewrite <- E; exact (item_of v I) | exact J | rewrite W, E; reflexivity].
  Qed.
  Lemma both_or_none v e : In v (a_types a) -> v_item v = MEnum e ->
    existsb is_debug (v_traits v) = existsb is_display (v_traits v).
  Proof.
    intros I E. pose proof (item_of v I) as J. rewrite E in J. destruct (U _ J) as (M & _).
    destruct PT as (_ & _ & D). specialize (D e J).
    assert (A : defined_at (v_item v) = Some (c, e_name e)) by (rewrite E; cbn; rewrite M; reflexivity).
    assert (X1 : existsb is_debug (v_traits v) = true <-> exists f, In (MUniffiTrait (UTDebug (e_name e) f)) items).
    { rewrite existsb_exists. split.
      - intros (m & K & B). destruct (in_traits c items a U SA v m I K) as (Z & u & t & n & -> & _ & A' & BI). destruct u; try discriminate B.
        rewrite A in A'. injection A' as <-. destruct BI as (-> & _). eexists. exact Z.
      - intros (f & K). exists (MUniffiTrait (UTDebug (e_name e) f)). split; [| reflexivity].
        apply (trait_in_view v (e_name e)); [exact I | exact A | exact K |].
        destruct (U _ K) as (d & t & n & _ & _ & _ & S & F). subst. reflexivity. }
    assert (X2 : existsb is_display (v_traits v) = true <-> exists f, In (MUniffiTrait (UTDisplay (e_name e) f)) items).
    { rewrite existsb_exists. split.
      - intros (m & K & B). destruct (in_traits c items a U SA v m I K) as (Z & u & t & n & -> & _ & A' & BI). destruct u; try discriminate B.
        rewrite A in A'. injection A' as <-. destruct BI as (-> & _). eexists. exact Z.
      - intros (f & K). exists (MUniffiTrait (UTDisplay (e_name e) f)). split; [| reflexivity].
        apply (trait_in_view v (e_name e)); [exact I | exact A | exact K |].
        destruct (U _ K) as (d & t & n & _ & _ & _ & S & F). subst. reflexivity. }
    destruct (existsb is_debug (v_traits v)), (existsb is_display (v_traits v)); try reflexivity;
      exfalso; assert (K : false = true) by tauto; discriminate K.
  Qed.

  (** ** A relation between items and what is read back of them *)
  Variable R : metadata -> metadata -> Prop.
  Hypothesis R_constructor : forall s f, In (MConstructor s f) items -> R (MConstructor s f) (MConstructor s (st_constructor c f)).
  Hypothesis R_method : forall s f, In (MMethod s f) items -> R (MMethod s f) (MMethod s (st_fn c f)).
  Hypothesis R_numbered : forall s f k, In (MMethod s f) items -> R (MMethod s f) (MTraitMethod s k (st_fn c f)).
  Hypothesis R_callback_method : forall s i f k, In (MTraitMethod s i f) items -> R (MTraitMethod s i f) (MTraitMethod s k (st_callback_fn c f)).
  Hypothesis R_record : forall r, In (MRecord r) items -> R (MRecord r) (MRecord (Rec c (r_name r) None (map st_field (r_fields r)) None)).
  Hypothesis R_enum : forall e, In (MEnum e) items -> ~ an_error items (e_name e) ->
    R (MEnum e) (MEnum (Enum c (e_name e) None ShEnum None (map st_variant (e_variants e)) (e_non_exhaustive e) None)).
  Hypothesis R_error : forall e, In (MEnum e) items -> an_error items (e_name e) ->
    R (MEnum e) (MEnum (Enum c (e_name e) None (ShError (is_flat e)) None
                          (map (if is_flat e then st_flat_variant else st_variant) (e_variants e)) (e_non_exhaustive e) None)).
  Hypothesis R_object : forall o, In (MObject o) items -> R (MObject o) (MObject (Obj c (o_name o) None (o_imp o) None)).
  Hypothesis R_callback : forall mp n doc, In (MCallback mp n doc) items -> R (MCallback mp n doc) (MCallback c n None).
  Hypothesis R_trait : forall u, In (MUniffiTrait u) items -> R (MUniffiTrait u) (MUniffiTrait u).

  Lemma no_members v : In v (a_types a) -> (forall o, v_item v <> MObject o) -> v_constructors v = [].
  Proof.
    intros I H. destruct (v_constructors v) as [| m l] eqn:E; [reflexivity |]. exfalso.
    destruct (in_constructors c items a U SA v m I) as (o & f & X & _); [rewrite E; left; reflexivity |]. exact (H o X).
  Qed.
  Lemma no_constructors v o k : In v (a_types a) -> v_item v = MObject o -> o_imp o = ITrait k -> v_constructors v = [].
  Proof.
    intros I H K. destruct (v_constructors v) as [| m l] eqn:E; [reflexivity |]. exfalso.
    destruct (in_constructors c items a U SA v m I) as (o' & f & X & Y & _); [rewrite E; left; reflexivity |]. congruence.
  Qed.
  Lemma no_methods v : In v (a_types a) -> (forall o, v_item v <> MObject o) -> (forall mp n doc, v_item v <> MCallback mp n doc) ->
    v_methods v = [].
  Proof.
    intros I H H'. destruct (v_methods v) as [| m l] eqn:E; [reflexivity |]. exfalso.
    destruct (in_methods c items a U SA v m I) as (_ & [(o & f & X & _) | (mp & n & doc & i & f & X & _)]);
      [rewrite E; left; reflexivity | exact (H o X) | exact (H' mp n doc X)].
  Qed.

  Definition R_parts (xs ms : list metadata) : Prop :=
    (forall x, In x xs -> exists m, In m ms /\ R x m) /\ (forall m, In m ms -> exists x, In x xs /\ R x m).
  Lemma R_parts_cons x m xs ms : R x m -> R_parts xs ms -> R_parts (x :: xs) (m :: ms).
  Proof.
    intros H (P & Q). split.
    - intros y [<- | J]; [exists m; split; [left; reflexivity | exact H] |]. destruct (P y J) as (z & Z & K). exists z. split; [right; exact Z | exact K].
    - intros y [<- | J]; [exists x; split; [left; reflexivity | exact H] |]. destruct (Q y J) as (z & Z & K). exists z. split; [right; exact Z | exact K].
  Qed.
  Lemma R_parts_app xs ms xs' ms' : R_parts xs ms -> R_parts xs' ms' -> R_parts (xs ++ xs') (ms ++ ms').
  Proof.
    intros (P & Q) (P' & Q'). split; intros y J; apply in_app_iff in J; destruct J as [J | J].
    - destruct (P y J) as (z & Z & K). exists z. rewrite in_app_iff. split; [left; exact Z | exact K].
    - destruct (P' y J) as (z & Z & K). exists z. rewrite in_app_iff. split; [right; exact Z | exact K].
    - destruct (Q y J) as (z & Z & K). exists z. rewrite in_app_iff. split; [left; exact Z | exact K].
    - destruct (Q' y J) as (z & Z & K). exists z. rewrite in_app_iff. split; [right; exact Z | exact K].
  Qed.
  Lemma R_parts_nil : R_parts [] [].
  Proof. split; intros y []. Qed.
  Lemma R_parts_swap xs ms xs' ms' : R_parts xs ms -> (forall x, In x xs <-> In x xs') -> (forall m, In m ms <-> In m ms') -> R_parts xs' ms'.
  Proof.
    intros (P & Q) X M. split.
    - intros x J. apply X in J. destruct (P x J) as (m & K & H). exists m. split; [apply M; exact K | exact H].
    - intros m J. apply M in J. destruct (Q m J) as (x & K & H). exists x. split; [apply X; exact K | exact H].
  Qed.
  Lemma R_traits v ms : In v (a_types a) -> (forall m, In m ms <-> In m (v_traits v)) -> R_parts (v_traits v) ms.
  Proof.
    intros I H. split.
    - intros x J. exists x. split; [apply H; exact J |]. destruct (trait_item v x I J) as (u & -> & K & _). exact (R_trait u K).
    - intros m J. apply H in J. exists m. split; [exact J |]. destruct (trait_item v m I J) as (u & -> & K & _). exact (R_trait u K).
  Qed.
  Lemma concat_singles {A B} (g : A -> B) l : concat (map (fun x => [g x]) l) = map g l.
  Proof. induction l as [| x l IH]; [reflexivity |]. cbn. rewrite IH. reflexivity. Qed.
  Lemma R_map {A} (g h : A -> metadata) l : (forall x, In x l -> R (g x) (h x)) -> R_parts (map g l) (map h l).
  Proof.
    intros H. induction l as [| x l IH]; [exact R_parts_nil |]. cbn [map]. apply R_parts_cons; [apply H; left; reflexivity |].
    apply IH. intros y J. apply H. right. exact J.
  Qed.

  Lemma parts_back v : In v (a_types a) -> ~ is_custom (v_item v) -> R_parts (parts v) (concat (result c a v)).
  Proof.
    intros I NC. pose proof (item_of v I) as J. destruct (view_of items a SA v I) as (_ & _ & DN).
    unfold parts, result. destruct (v_item v) as [| | | o | mp n doc | r | e | | | | | |] eqn:E; try (elim DN; reflexivity); try (elim NC; exact Logic.I).
    - (* objects *)
      destruct (U _ J) as (M & _). destruct (o_imp o) as [| k] eqn:IM.
      + cbn [concat]. rewrite concat_app, !concat_singles.
        apply (R_parts_swap (MObject o :: v_traits v ++ v_constructors v ++ v_methods v)
                 (MObject (Obj c (o_name o) None IStruct None) :: traits_back c (o_name o) (TObject c (o_name o) IStruct) (v_traits v) ++
                  map (fun f => MConstructor (o_name o) (st_constructor c f)) (flat_map fn_of (v_constructors v)) ++
                  map (fun f => MMethod (o_name o) (st_fn c f)) (flat_map fn_of (v_methods v)))).
        * apply R_parts_cons; [rewrite <- IM; apply R_object; exact J |]. apply R_parts_app; [| apply R_parts_app].
          -- apply R_traits; [exact I |]. apply traits_read_back. apply traits_of; [exact I | rewrite E; cbn; rewrite M, IM; reflexivity | rewrite E; cbn; rewrite M; reflexivity].
          -- rewrite (fns_constructors (o_name o) (v_constructors v)) at 1.
             ++ apply R_map. intros f K. apply R_constructor. apply in_fns in K. destruct K as (m & K & S).
                destruct (in_constructors c items a U SA v m I K) as (o' & g & E' & _ & -> & Z). cbn in S. subst g.
                rewrite E in E'. injection E' as <-. exact Z.
             ++ intros m K. destruct (in_constructors c items a U SA v m I K) as (o' & g & E' & _ & -> & Z).
                rewrite E in E'. injection E' as <-. exists g. reflexivity.
          -- rewrite (fns_methods (o_name o) (v_methods v)) at 1.
             ++ apply R_map. intros f K. apply R_method. apply in_fns in K. destruct K as (m & K & S).
                destruct (in_methods c items a U SA v m I K) as (Z & [(o' & g & E' & ->) | (mp & n & doc & i & g & E' & _)]); [| congruence].
                cbn in S. subst g. rewrite E in E'. injection E' as <-. exact Z.
             ++ intros m K. destruct (in_methods c items a U SA v m I K) as (Z & [(o' & g & E' & ->) | (mp & n & doc & i & g & E' & _)]); [| congruence].
                rewrite E in E'. injection E' as <-. exists g. reflexivity.
        * intros x. cbn [In]. rewrite !in_app_iff. tauto.
        * intros x. cbn [In app]. rewrite !in_app_iff. tauto.
      + cbn [concat]. rewrite app_nil_r, (no_constructors v o k I E IM), (no_traits_of_trait v o k I E IM). cbn [app]. rewrite app_nil_r.
        apply R_parts_cons; [rewrite <- IM; apply R_object; exact J |].
        assert (X : forall m, In m (v_methods v) -> exists f, m = MMethod (o_name o) f /\ In m items).
        { intros m K. destruct (in_methods c items a U SA v m I K) as (Z & [(o' & g & E' & ->) | (mp & n & doc & i & g & E' & _)]); [| congruence].
          rewrite E in E'. injection E' as <-. exists g. split; [reflexivity | exact Z]. }
        split.
        * intros x K. destruct (X x K) as (f & -> & Z).
          destruct (count_has (st_fn c) (o_name o) (flat_map fn_of (v_methods v)) f (in_fns_of _ _ f K eq_refl) 0) as (k' & Y).
          eexists. split; [exact Y | apply R_numbered; exact Z].
        * intros m K. apply in_count in K. destruct K as (f & k' & K & ->). apply in_fns in K. destruct K as (m & K & S).
          destruct (X m K) as (g & -> & Z). cbn in S. subst g. eexists. split; [exact K | apply R_numbered; exact Z].
    - (* callback interfaces *)
      cbn [concat]. rewrite app_nil_r, (no_members v I) by (intros o; rewrite E; discriminate).
      assert (T : v_traits v = []).
      { destruct (v_traits v) as [| m ts] eqn:T; [reflexivity |]. exfalso.
        destruct (in_traits c items a U SA v m I) as (_ & u & t & n' & _ & X & _); [rewrite T; left; reflexivity |]. rewrite E in X. discriminate. }
      rewrite T. cbn [app]. rewrite app_nil_r. apply R_parts_cons; [apply R_callback; exact J |].
      assert (X : forall m, In m (v_methods v) -> exists i f, m = MTraitMethod n i f /\ In m items).
      { intros m K. destruct (in_methods c items a U SA v m I K) as (Z & [(o' & g & E' & ->) | (mp' & n' & doc' & i & g & E' & ->)]); [congruence |].
        rewrite E in E'. injection E' as <- <- <-. exists i, g. split; [reflexivity | exact Z]. }
      split.
      + intros x K. destruct (X x K) as (i & f & -> & Z).
        destruct (count_has (st_callback_fn c) n (flat_map fn_of (v_methods v)) f (in_fns_of _ _ f K eq_refl) 0) as (k' & Y).
        eexists. split; [exact Y | apply R_callback_method; exact Z].
      + intros m K. apply in_count in K. destruct K as (f & k' & K & ->). apply in_fns in K. destruct K as (m & K & S).
        destruct (X m K) as (i & g & -> & Z). cbn in S. subst g. eexists. split; [exact K | apply R_callback_method; exact Z].
    - (* records *)
      destruct (U _ J) as (M & _). cbn [concat]. rewrite app_nil_r.
      rewrite (no_members v I), (no_methods v I) by (intros; rewrite E; discriminate). cbn [app].
      apply R_parts_cons; [apply R_record; exact J |]. apply R_traits; [exact I |]. apply traits_read_back.
      apply traits_of; [exact I | rewrite E; cbn; rewrite M; reflexivity | rewrite E; cbn; rewrite M; reflexivity].
    - (* enums *)
      destruct (U _ J) as (M & _). cbn [concat]. rewrite app_nil_r.
      rewrite (no_members v I), (no_methods v I) by (intros; rewrite E; discriminate). cbn [app].
      destruct (is_name_used_as_error a (e_name e)) eqn:X.
      + apply (used_as_error c items a U SA) in X. rewrite (no_traits_of_error v e I E X).
        apply R_parts_cons; [apply R_error; assumption | exact R_parts_nil].
      + assert (NX : ~ an_error items (e_name e)) by (intros Y; apply (used_as_error c items a U SA) in Y; congruence).
        apply R_parts_cons; [apply R_enum; assumption |]. apply R_traits; [exact I |].
        assert (TB : forall m, In m (traits_back c (e_name e) (TEnum c (e_name e)) (v_traits v)) <-> In m (v_traits v)).
        { apply traits_read_back.
          apply traits_of; [exact I | rewrite E; cbn; rewrite M; reflexivity | rewrite E; cbn; rewrite M; reflexivity]. }
        unfold traits_back in TB. rewrite <- (both_or_none v e I E) in TB. exact TB.
  Qed.
End Parts.
