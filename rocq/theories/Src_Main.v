From Verif Require Import Base Utf8 Meta_Types Meta_Model Meta_Spec Meta_Refute Src_Model Src_Spec
  Src_Proofs.
Open Scope Z_scope.

(** The items of both sides as sets. *)
Definition matched (p : place) (ms : list metadata) (ss : list desc) : Prop :=
  (forall m, In m ms -> exists s, In s ss /\ like p (from_library m) s) /\
  (forall s, In s ss -> exists m, In m ms /\ like p (from_library m) s).

Lemma matched_nil p : matched p [] [].
Proof. split; intros ? []. Qed.
Lemma matched_app p ms ms' ss ss' :
  matched p ms ss -> matched p ms' ss' -> matched p (ms ++ ms') (ss ++ ss').
Proof.
  intros [A B] [C D]. split.
  - intros m I. apply in_app_iff in I. destruct I as [I | I].
    + destruct (A m I) as (s & Is & L). exists s. split; [apply in_app_iff; auto | exact L].
    + destruct (C m I) as (s & Is & L). exists s. split; [apply in_app_iff; auto | exact L].
  - intros s I. apply in_app_iff in I. destruct I as [I | I].
    + destruct (B s I) as (m & Im & L). exists m. split; [apply in_app_iff; auto | exact L].
    + destruct (D s I) as (m & Im & L). exists m. split; [apply in_app_iff; auto | exact L].
Qed.
Lemma matched_one p m s : like p (from_library m) s -> matched p [m] [s].
Proof.
  intros L. split.
  - intros x [<- | []]. exists s. split; [left; reflexivity | exact L].
  - intros x [<- | []]. exists m. split; [left; reflexivity | exact L].
Qed.
Lemma matched_cons p m s ms ss :
  like p (from_library m) s -> matched p ms ss -> matched p (m :: ms) (s :: ss).
Proof. intros L. apply (matched_app p [m] ms [s] ss), matched_one, L. Qed.

(** * Blocks of methods *)
Lemma impl_step_sim last a x acc acc' s s' :
  one_impl a = Some x -> merge_impl acc x = Some acc' -> s_impl_step last a s = Some s' ->
  snd acc = s -> snd acc' = s'.
Proof.
  intros O E T <-. unfold merge_impl in E. step E as r Er. step E as n En. injection E as <-.
  cbn [snd]. destruct a; cbn [one_impl] in O; try discriminate.
  - injection O as <-. cbn [s_impl_step] in T. injection T as <-. cbn [snd] in En.
    destruct (snd acc); cbn in En; congruence.
  - destruct (bytes_eqb s TOKIO); [|discriminate]. injection O as <-.
    cbn [s_impl_step] in T. injection T as <-. cbn [snd] in En. apply either_none in En. exact En.
Qed.
Lemma impl_pieces_keep l : forall acc r,
  m_pieces one_impl merge_impl acc l = Some r -> snd acc <> None -> snd r <> None.
Proof.
  induction l as [|a l IH]; cbn [m_pieces]; intros acc r M N.
  - congruence.
  - step M as x Ex. step M as acc' E. apply (IH _ _ M).
    unfold merge_impl in E. step E as q Eq. step E as n En. injection E as <-. cbn [snd].
    destruct (snd acc), (snd x); cbn in En; congruence.
Qed.
Lemma impl_pieces_name l n : forall acc r,
  m_pieces one_impl merge_impl acc l = Some r -> In (AName n) l -> snd r <> None.
Proof.
  induction l as [|a l IH]; cbn [m_pieces]; intros acc r M I; [destruct I|].
  step M as x Ex. step M as acc' E. destruct I as [-> | I]; [|exact (IH _ _ M I)].
  apply (impl_pieces_keep _ _ _ M). cbn in Ex. injection Ex as <-.
  unfold merge_impl in E. step E as q Eq. step E as k En. injection E as <-. cbn [snd] in *.
  destruct (snd acc); cbn in En; congruence.
Qed.
Lemma export_is l e a : m_export l = Some e -> In (AtExport a) l -> e = a.
Proof.
  unfold m_export. intros H I.
  assert (J : In a (exports l)).
  { clear H. induction l as [|x l IH]; [destruct I|]. destruct I as [-> | I].
    - left. reflexivity.
    - destruct x; cbn [exports]; try exact (IH I). right. exact (IH I). }
  destruct (exports l) as [|x [|y r]]; try discriminate. injection H as <-.
  destruct J as [-> | []]. reflexivity.
Qed.

Lemma matched_members d p self t ms xs yss :
  Forall plain_member ms -> Forall (recordable d) xs ->
  traverse (m_member (pl_here p) self) ms = Some xs ->
  traverse (s_member (pl_here p) self t) ms = Some yss -> matched p xs (concat yss).
Proof.
  intros P K M S.
  assert (F : Forall2 (fun x ys => exists y, ys = [y] /\ like p (from_library x) y) xs yss).
  { refine (traverse_two _ _ plain_member (recordable d) _ ms xs yss _ _ K M S).
    - intros m x ys. apply member_like.
    - apply Forall_forall, P. }
  clear - F. induction F as [|x ys xs yss (y & -> & L) _ IH]; [apply matched_nil|].
  cbn [concat app]. apply matched_cons; auto.
Qed.

Lemma impl_matched d p i t l ms xs ss :
  plain p (ItImpl i t None l ms) -> Forall (recordable d) xs ->
  m_impl (pl_here p) i None l ms = Some xs -> s_impl (pl_here p) t l ms = Some ss ->
  matched p xs ss.
Proof.
  intros (_ & Pn & Pm) K M S. unfold m_impl, s_impl in *.
  step M as e Ee. step M as a Ea. step M as j Ej. subst i. step M as ys Ey. step M as u Eu.
  injection M as <-. rewrite app_nil_r in *.
  step S as n En. step S as self Es. step S as yss Ess. injection S as <-.
  rewrite (exports_one _ _ _ _ Ee) in En.
  assert (N : snd a = n).
  { destruct e as [e|].
    - exact (pieces_sim one_impl merge_impl s_impl_step (fun a s => snd a = s) impl_step_sim
               _ _ _ _ _ _ eq_refl Ea En).
    - cbn in Ea. injection Ea as <-. injection En as <-. reflexivity. }
  assert (self = get_or (snd a) (unraw j)) as ->.
  { rewrite N. destruct n as [n|]; cbn [get_or]; [congruence|].
    destruct Pn as [(x & k & Ix & Ik) | (j' & Ej & T)].
    - pose proof (export_is _ _ _ Ee Ix) as ->. cbn in Ea.
      destruct (impl_pieces_name _ _ _ _ Ea Ik N).
    - injection Ej as <-. unfold unraw. congruence. }
  exact (matched_members d p _ t ms ys yss Pm K Ey Ess).
Qed.

(** * Traits *)
Definition trait_rel (a : targs) (s : option str * (bool * bool * bool)) : Prop :=
  let rust := is_some (ta_rust a) in let foreign := is_some (ta_foreign a) in
  let with_ := is_some (ta_with a) in let cb := is_some (ta_callback a) in
  s = (None, (rust || with_, foreign || with_, cb)) /\
  (rust || foreign) && (cb || with_) = false /\ cb && with_ = false.
Lemma trait_step_sim last a x acc acc' s s' :
  one_trait a = Some x -> merge_trait acc x = Some acc' -> s_trait_step last a s = Some s' ->
  trait_rel acc s -> trait_rel acc' s'.
Proof.
  intros O E T (-> & _ & _). unfold merge_trait in E.
  step E as r Er. step E as c Ec. step E as w Ew. step E as u Eu. step E as f Ef. step E as m Em.
  step E as g1 G1. step E as g2 G2. injection E as <-.
  apply guard_some, negb_true_iff in G1. apply guard_some, negb_true_iff in G2.
  split; [|split; cbn; assumption].
  cbn [ta_rust ta_foreign ta_with ta_callback] in *.
  destruct a as [| | |s|g]; cbn [one_trait] in O; try discriminate.
  destruct g; try discriminate; injection O as <-; cbn in *;
      apply either_none in Em;
      repeat match goal with
      | H : either _ None = Some _ |- _ => apply either_none in H; subst
      end; try discriminate T;
      injection T as <-;
      repeat match goal with
      | H : either ?o (Some tt) = Some _ |- _ =>
          destruct o; cbn in H; [discriminate H | injection H as <-]
      end; cbn [is_some]; rewrite ?orb_true_r; reflexivity.
Qed.

Lemma trait_members_matched d p self ms : forall idx xs ss,
  Forall plain_member ms -> Forall (recordable d) xs ->
  m_trait_members (pl_here p) self idx ms = Some xs ->
  s_trait_members (pl_here p) self idx ms = Some ss -> matched p xs ss.
Proof.
  induction ms as [|m ms IH]; cbn [m_trait_members s_trait_members]; intros idx xs ss P K M S.
  - injection M as <-. injection S as <-. apply matched_nil.
  - step M as x Ex. step M as xs' Exs. injection M as <-.
    inversion P as [|? ? Pm Pms]; subst. inversion K as [|? ? Kx Kxs]; subst.
    destruct m as [f|]; [|discriminate]. cbn [m_trait_member] in Ex.
    step Ex as u1 E1. step Ex as ca Eca. step Ex as u2 E2. step Ex as g Eg. injection Ex as <-.
    destruct ca as [c a]. cbn [fst snd] in *. apply guard_some, negb_true_iff in E2.
    step S as h Eh. step S as ss' Ess. injection S as <-.
    destruct Kx as (_ & Kx & _). destruct Kx as (_ & _ & _ & Kx & _).
    destruct (method_like d _ _ _ _ _ _ Pm Kx Eca E2 Eg Eh) as [A B].
    apply matched_cons; [|exact (IH _ _ _ Pms Kxs Exs Ess)].
    split; [reflexivity|split; [symmetry; exact B|]]. cbn [d_meta from_library].
    split; [reflexivity|split; [reflexivity|exact A]].
Qed.

Lemma trait_matched d p i l ms xs ss :
  plain p (ItTrait i l ms) -> Forall (recordable d) xs ->
  m_trait (pl_here p) i l ms = Some xs -> s_trait p i l ms = Some ss -> matched p xs ss.
Proof.
  intros (Pl & Pm) K M S. unfold m_trait, s_trait in *.
  step M as e Ee. step M as a Ea. rewrite Ee in S. cbn [Src_Model.bind] in S. step S as x Ex.
  assert (R : trait_rel a x).
  { refine (pieces_sim one_trait merge_trait s_trait_step trait_rel trait_step_sim
              _ _ _ _ _ _ _ Ea Ex). split; [|split]; reflexivity. }
  destruct R as (-> & R1 & R2). destruct (m_kind a) as [kind cb] eqn:Ek.
  step M as u1 E1. step M as doc Ed. step M as ys Ey. injection M as <-.
  step S as u2 E2. step S as ss' Ess. injection S as <-.
  inversion K as [|? ? K1 K2]; subst.
  destruct (names_like p i None Pl) as [N1 N2]. cbn [get_or] in N1, N2.
  rewrite N1 in Ess.
  apply matched_cons; [|exact (trait_members_matched d p _ _ _ _ _ Pm K2 Ey Ess)].
  split; [reflexivity|split; [reflexivity|]]. cbn [d_meta from_library].
  unfold m_kind in Ek.
  destruct (is_some (ta_rust a)), (is_some (ta_foreign a)), (is_some (ta_callback a)),
    (is_some (ta_with a)); cbn in R1, R2, Ek; try discriminate; injection Ek as <- <-;
    cbn [orb];
    first [ split; [reflexivity|split; [reflexivity|split; [symmetry; exact N1|]]];
            exact (doc_sim _ _ Ed)
          | unfold like_object; cbn [o_mp o_name o_orig o_imp o_doc];
            split; [reflexivity|split; [reflexivity|split; [exact N2|split; [reflexivity|]]]];
            exact (doc_sim _ _ Ed) ].
Qed.

(** * The built-in traits *)
Lemma flag_eqb_eq a b : flag_eqb a b = true <-> a = b.
Proof. split; [destruct a, b; cbn; congruence | intros ->; destruct b; reflexivity]. Qed.
Lemma in_flags g gs : existsb (flag_eqb g) gs = true <-> In g gs.
Proof.
  rewrite existsb_exists. split.
  - intros (x & I & E). apply flag_eqb_eq in E. congruence.
  - intros I. exists g. split; [exact I | apply flag_eqb_eq; reflexivity].
Qed.
Definition a_utrait (x : arg) : option flag :=
  Src_Model.bind (the_flag x) (fun g => if is_utrait g then Some g else None).
Lemma utraits_all l gs : traverse a_utrait l = Some gs -> forall g, In g gs -> In g ALL_UTRAITS.
Proof.
  revert gs. induction l as [|x l IH]; cbn [traverse]; intros gs H g I.
  - injection H as <-. destruct I.
  - step H as y Ey. step H as ys Eys. injection H as <-. destruct I as [<- | I].
    + unfold a_utrait in Ey. step Ey as z Ez. destruct (is_utrait z) eqn:U; [|discriminate].
      injection Ey as <-. apply in_flags, U.
    + exact (IH _ Eys g I).
Qed.
Lemma utrait_attrs es : forall gss gs,
  traverse m_utrait_attr es = Some gss -> s_utrait_attrs es = Some gs ->
  forall g, In g (concat gss) <-> In g (filter (fun g => existsb (flag_eqb g) gs) ALL_UTRAITS).
Proof.
  cut (forall es gss gs, traverse m_utrait_attr es = Some gss -> s_utrait_attrs es = Some gs ->
       forall g, In g (concat gss) <-> In g gs /\ In g ALL_UTRAITS).
  { intros H gss gs A B g. rewrite (H es gss gs A B g), filter_In, in_flags. tauto. }
  clear es. induction es as [|e es IH]; cbn [traverse s_utrait_attrs]; intros gss gs M S g.
  - injection M as <-. injection S as <-. cbn. tauto.
  - step M as hs Eh. step M as hss Ehs. injection M as <-.
    destruct e as [e|]; [|discriminate]. step S as ks Ek. step S as ks' Ek'. injection S as <-.
    cbn [concat]. rewrite !in_app_iff, (IH _ _ Ehs Ek' g).
    cbn [m_utrait_attr] in Eh. step Eh as ks0 Ek0. 
    change (traverse a_utrait (ag_list e) = Some ks) in Ek.
    change (traverse a_utrait (ag_list e) = Some ks0) in Ek0.
    assert (ks0 = ks) as -> by congruence.
    assert (hs = filter (fun g => existsb (flag_eqb g) ks) ALL_UTRAITS) as ->.
    { destruct ks; [discriminate|]. congruence. }
    rewrite filter_In, in_flags. pose proof (utraits_all _ _ Ek g). tauto.
Qed.

Lemma same_named_other R here n f t t' :
  (R t t' : Prop) -> like_fn R here here (utrait_fn here n [Param OTHER t ByRef None] f)
              (utrait_fn here n [Param OTHER t' ByRef None] f).
Proof.
  intros H. unfold like_fn, utrait_fn.
  cbn [f_mp f_name f_orig f_async f_inputs f_ret f_throws f_doc].
  split; [reflexivity|split; [reflexivity|split; [split; reflexivity|split; [reflexivity|split]]]].
  - constructor; [|constructor]. split; [reflexivity|split; [exact H|split; reflexivity]].
  - split; [reflexivity|split; reflexivity].
Qed.
Lemma utrait_fn_like R here n f : like_fn R here here (utrait_fn here n [] f) (utrait_fn here n [] f).
Proof.
  unfold like_fn, utrait_fn. cbn [f_mp f_name f_orig f_async f_inputs f_ret f_throws f_doc].
  split; [reflexivity|split; [reflexivity|split; [split; reflexivity|split; [reflexivity|split]]]].
  - constructor.
  - split; [reflexivity|split; reflexivity].
Qed.
Lemma utrait_like p self t t' g m m' :
  same_named t t' -> utrait_of (pl_here p) self t g = Some m ->
  utrait_of (pl_here p) self t' g = Some m' -> like p (from_library m) (Desc m' false false).
Proof.
  intros T M S. destruct g; cbn [utrait_of] in M, S; try discriminate;
    injection M as <-; injection S as <-; split; try reflexivity; split; try reflexivity;
    cbn [d_meta from_library].
  - split; [reflexivity|apply utrait_fn_like].
  - split; [reflexivity|apply utrait_fn_like].
  - split; [reflexivity|split; [apply same_named_other, T|split; [reflexivity|]]].
    apply same_named_other, T.
  - split; [reflexivity|apply utrait_fn_like].
  - split; [reflexivity|apply same_named_other, T].
Qed.
Lemma traverse_in {A B} (f : A -> option B) l ys y :
  traverse f l = Some ys -> In y ys -> exists x, In x l /\ f x = Some y.
Proof.
  intros H. apply traverse_forall2 in H. induction H as [|x z l ys E _ IH]; intros I; [destruct I|].
  destruct I as [<- | I].
  - exists x. split; [left; reflexivity | exact E].
  - destruct (IH I) as (w & Iw & Ew). exists w. split; [right; exact Iw | exact Ew].
Qed.
Lemma traverse_in' {A B} (f : A -> option B) l ys x :
  traverse f l = Some ys -> In x l -> exists y, In y ys /\ f x = Some y.
Proof.
  intros H. apply traverse_forall2 in H. induction H as [|z y l ys E _ IH]; intros I; [destruct I|].
  destruct I as [-> | I].
  - exists y. split; [left; reflexivity | exact E].
  - destruct (IH I) as (w & Iw & Ew). exists w. split; [right; exact Iw | exact Ew].
Qed.

Lemma exports_unexported l : unexported l -> exports l = [].
Proof.
  induction l as [|a l IH]; intros U; [reflexivity|].
  assert (U' : unexported l) by (intros b I; exact (U b (or_intror I))).
  destruct a; cbn [exports]; try exact (IH U'). exfalso. exact (U _ (or_introl eq_refl)).
Qed.
Lemma utraits_matched p i self t t' l xs ss :
  unexported l \/ self = unraw i -> same_named t t' ->
  m_utraits (pl_here p) i t l = Some xs -> s_utraits (pl_here p) self t' l = Some ss ->
  matched p xs ss.
Proof.
  intros P T M S. unfold m_utraits, s_utraits in *.
  step M as gss Eg. step M as u Eu. step S as gs Egs. step S as us Eus. injection S as <-.
  destruct P as [P | ->].
  { rewrite (exports_unexported _ P) in Eg, Egs. cbn in Eg, Egs.
    injection Eg as <-. injection Egs as <-. cbn in M, Eus. injection M as <-. injection Eus as <-.
    apply matched_nil. }
  pose proof (utrait_attrs _ _ _ Eg Egs) as E. split.
  - intros m I. destruct (traverse_in _ _ _ _ M I) as (g & Ig & Em).
    apply E in Ig. destruct (traverse_in' _ _ _ _ Eus Ig) as (m' & I' & Em').
    exists (Desc m' false false). split.
    + apply in_map_iff. exists m'. auto.
    + exact (utrait_like p _ _ _ g m m' T Em Em').
  - intros s I. apply in_map_iff in I. destruct I as (m' & <- & I').
    destruct (traverse_in _ _ _ _ Eus I') as (g & Ig & Em').
    apply E in Ig. destruct (traverse_in' _ _ _ _ M Ig) as (m & Im & Em).
    exists m. split; [exact Im|]. exact (utrait_like p _ _ _ g m m' T Em Em').
Qed.

(** A type without a name attribute has its own name. *)
Lemma pieces_no_name l : forall acc r,
  (forall n, ~ In (AName n) l) -> m_pieces one_name either acc l = Some r -> r = acc.
Proof.
  induction l as [|a l IH]; cbn [m_pieces]; intros acc r U M; [congruence|].
  step M as x Ex. destruct a; cbn in Ex; try discriminate.
  exfalso. eapply U. left. reflexivity.
Qed.
Lemma name_unrenamed l : forall acc r,
  unrenamed l -> m_uniffi one_name either None acc l = Some r -> r = acc.
Proof.
  induction l as [|a l IH]; cbn [m_uniffi]; intros acc r U M; [congruence|].
  assert (Ul : unrenamed l) by (intros b n I; exact (U b n (or_intror I))).
  destruct a; try exact (IH _ _ Ul M); try discriminate M.
  step M as x Ex. step M as acc' E. rewrite (IH _ _ Ul M).
  rewrite (pieces_no_name _ _ _ (fun n => U a n (or_introl eq_refl)) Ex) in E.
  apply either_none, E.
Qed.
Lemma enum_pieces_no_name l : forall acc r,
  (forall n, ~ In (AName n) l) -> m_pieces one_enum merge_enum acc l = Some r ->
  ea_name r = ea_name acc.
Proof.
  induction l as [|a l IH]; cbn [m_pieces]; intros acc r U M; [congruence|].
  step M as x Ex. step M as acc' E.
  rewrite (IH acc' r); [|intros n I; exact (U n (or_intror I))|exact M].
  assert (X : ea_name x = None).
  { destruct a as [| | | |g]; cbn in Ex; try discriminate.
    - exfalso. eapply U. left. reflexivity.
    - destruct g; try discriminate; injection Ex as <-; reflexivity. }
  unfold merge_enum in E. step E as f Ef. step E as t Et. step E as n En. injection E as <-.
  rewrite X in En. apply either_none in En. exact En.
Qed.
Lemma enum_unrenamed l : forall acc r,
  unrenamed l -> m_uniffi one_enum merge_enum (EA None None None) acc l = Some r ->
  ea_name r = ea_name acc.
Proof.
  induction l as [|a l IH]; cbn [m_uniffi]; intros acc r U M; [congruence|].
  assert (Ul : unrenamed l) by (intros b n I; exact (U b n (or_intror I))).
  destruct a; try exact (IH _ _ Ul M); try discriminate M.
  step M as x Ex. step M as acc' E. rewrite (IH _ _ Ul M).
  assert (X : ea_name x = None)
    by apply (enum_pieces_no_name _ _ _ (fun n => U a n (or_introl eq_refl)) Ex).
  unfold merge_enum in E. step E as f Ef. step E as t Et. step E as n En. injection E as <-.
  rewrite X in En. apply either_none in En. exact En.
Qed.

(** * All items *)
Lemma item_matched d p it ms ss :
  plain p it -> Forall (recordable d) ms -> macros p it = Some ms -> sources p it = Some ss ->
  matched p ms ss.
Proof.
  intros P K M S. destruct it as [rm i l fs|er rm i l vs|rm i l|f|i t tr l mbs|i l mbs];
    cbn [macros sources] in M, S.
  - destruct P as (-> & Pl & Pu). step M as r Er. step M as us Eus. injection M as <-.
    step S as r' Er'. step S as us' Eus'. injection S as <-.
    inversion K as [|? ? K1 K2]; subst.
    destruct (record_like d p i l fs r r' Pl K1 Er Er') as [L N].
    apply matched_cons.
    + split; [reflexivity|split; [reflexivity|exact L]].
    + refine (utraits_matched p i (r_name r') (TRecord (pl_here p) (r_name r)) (TRecord (pl_pub p) (r_name r'))
                l us us' _ N Eus Eus').
      destruct Pu as [Pu | Pu]; [left; exact Pu|right]. rewrite <- N.
      unfold m_record in Er. step Er as n En. step Er as doc Ed. step Er as bs Eb. injection Er as <-.
      cbn [r_name]. rewrite (name_unrenamed _ _ _ Pu En). reflexivity.
  - destruct P as ((-> & Pl & Pu) & Pv). step M as e Ee. step M as us Eus. injection M as <-.
    step S as e' Ee'. step S as us' Eus'. injection S as <-.
    inversion K as [|? ? K1 K2]; subst.
    destruct (enum_like d p er i l vs e e' Pl Pv K1 Ee Ee') as [L N].
    apply matched_cons.
    + split; [reflexivity|split; [reflexivity|exact L]].
    + refine (utraits_matched p i (e_name e') (TEnum (pl_here p) (e_name e)) (TEnum (pl_pub p) (e_name e'))
                l us us' _ N Eus Eus').
      destruct Pu as [Pu | Pu]; [left; exact Pu|right]. rewrite <- N.
      unfold m_enum in Ee. step Ee as a Ea. step Ee as doc Ed.
      pose proof (enum_unrenamed _ _ _ Pu Ea) as X. cbn [ea_name] in X. rewrite X in Ee.
      destruct er.
      * step Ee as u Eu. step Ee as bs Eb. injection Ee as <-. reflexivity.
      * step Ee as u Eu. step Ee as t Et. step Ee as bs Eb. injection Ee as <-. reflexivity.
  - destruct P as (-> & Pl & Pu). step M as o Eo. step M as us Eus. injection M as <-.
    step S as o' Eo'. step S as us' Eus'. injection S as <-.
    destruct (object_like p i l o o' Pl Eo Eo') as [L N].
    apply matched_cons.
    + split; [reflexivity|split; [reflexivity|exact L]].
    + refine (utraits_matched p i (o_name o') (TObject (pl_here p) (o_name o) IStruct)
                (TObject (pl_pub p) (o_name o') IStruct) l us us' _ (conj N eq_refl) Eus Eus').
      destruct Pu as [Pu | Pu]; [left; exact Pu|right]. rewrite <- N.
      unfold m_object in Eo. step Eo as n En. step Eo as doc Ed. injection Eo as <-.
      cbn [o_name]. rewrite (name_unrenamed _ _ _ Pu En). reflexivity.
  - step M as g Eg. injection M as <-. step S as g' Eg'. injection S as <-.
    inversion K as [|? ? K1 K2]; subst. apply matched_one.
    split; [reflexivity|split; [reflexivity|]]. exact (fn_like d p f g g' P K1 Eg Eg').
  - assert (tr = None) as -> by exact (proj1 P). exact (impl_matched d p i t l mbs ms ss P K M S).
  - exact (trait_matched d p i l mbs ms ss P K M S).
Qed.

Lemma like_no_checksum p a b s :
  no_checksum a = no_checksum b -> like p (from_library b) s -> like p (from_library a) s.
Proof.
  intros E. cut (forall m, like p (from_library (no_checksum m)) s <-> like p (from_library m) s).
  { intros H L. apply H. rewrite E. apply H, L. }
  intros m. destruct m as [| | | | | | | | | | | [] |]; try reflexivity.
Qed.

Lemma described_alike d p it ms bs ss :
  plain p it -> macros p it = Some ms -> Forall (recordable d) ms -> Forall2 recorded ms bs ->
  sources p it = Some ss ->
  exists ls, Forall2 (fun b m => read d b = Ok (m, [])) bs ls /\
             same_items p (map from_library ls) ss.
Proof.
  intros P M K W S. pose proof (item_matched d p it ms ss P K M S) as [A B].
  assert (R : exists ls, Forall2 (fun b m => read d b = Ok (m, [])) bs ls /\
                         Forall2 (fun m l => no_checksum l = no_checksum m) ms ls).
  { clear - K W. induction W as [|m b ms bs (omp & U & E) _ IH].
    - exists []. split; constructor.
    - inversion K as [|? ? K1 K2]; subst. destruct (IH K2) as (ls & R1 & R2).
      destruct (read_back d omp m b K1 U E) as (m' & E' & N).
      exists (m' :: ls). split; constructor; auto. }
  destruct R as (ls & R1 & R2). exists ls. split; [exact R1|]. split.
  - intros l I. apply in_map_iff in I. destruct I as (m' & <- & I).
    assert (X : exists m, In m ms /\ no_checksum m' = no_checksum m).
    { clear - R2 I. induction R2 as [|m l ms ls E _ IH]; [destruct I|]. destruct I as [-> | I].
      - exists m. split; [left; reflexivity | exact E].
      - destruct (IH I) as (k & Ik & Ek). exists k. split; [right; exact Ik | exact Ek]. }
    destruct X as (m & Im & E). destruct (A m Im) as (s & Is & L).
    exists s. split; [exact Is|]. exact (like_no_checksum p _ _ s E L).
  - intros s I. destruct (B s I) as (m & Im & L).
    assert (X : exists l, In l ls /\ no_checksum l = no_checksum m).
    { clear - R2 Im. induction R2 as [|k l ms ls E _ IH]; [destruct Im|]. destruct Im as [-> | Im].
      - exists l. split; [left; reflexivity | exact E].
      - destruct (IH Im) as (j & Ij & Ej). exists j. split; [right; exact Ij | exact Ej]. }
    destruct X as (l & Il & E). exists (from_library l).
    split; [apply in_map, Il|]. exact (like_no_checksum p _ _ s E L).
Qed.
