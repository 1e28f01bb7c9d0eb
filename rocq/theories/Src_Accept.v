From Verif Require Import Base Utf8 Meta_Types Meta_Model Meta_Spec Src_Model Src_Spec Src_Proofs
  Src_Main.
Open Scope Z_scope.

(** What the macros accept, the source reader accepts, for tidy items. *)
Definition accepted {A} (o : option A) : Prop := exists x, o = Some x.

Lemma accepted_bind {A B} (o : option A) (f : A -> option B) :
  accepted o -> (forall x, o = Some x -> accepted (f x)) -> accepted (Src_Model.bind o f).
Proof. intros (x & ->) H. exact (H x eq_refl). Qed.
Lemma accepted_some {A} (x : A) : accepted (Some x).
Proof. exists x. reflexivity. Qed.
Lemma accepted_guard b : b = true -> accepted (guard b).
Proof. intros ->. exists tt. reflexivity. Qed.
Lemma accepted_traverse {A B} (f : A -> option B) l :
  (forall x, In x l -> accepted (f x)) -> accepted (traverse f l).
Proof.
  induction l as [|x l IH]; intros H; cbn [traverse]; [apply accepted_some|].
  apply accepted_bind; [apply H; left; reflexivity|]. intros y _.
  apply accepted_bind; [apply IH; intros z I; apply H; right; exact I|].
  intros ys _. apply accepted_some.
Qed.

(** * Attributes *)
Section Attrs.
Context {A S : Type} (one : arg -> option A) (merge : A -> A -> option A)
        (stp : bool -> arg -> S -> option S) (R : A -> S -> Prop) (T : bool -> arg -> Prop).
Hypothesis sim : forall last a x acc acc' s s',
  one a = Some x -> merge acc x = Some acc' -> stp last a s = Some s' -> R acc s -> R acc' s'.
Hypothesis acc_sim : forall last a x acc acc' s,
  one a = Some x -> merge acc x = Some acc' -> T last a -> R acc s -> accepted (stp last a s).

Definition pieces_ok (comma : bool) (l : list arg) : Prop :=
  forall l1 a l2, l = l1 ++ a :: l2 -> T (match l2 with [] => negb comma | _ => false end) a.
Lemma pieces_accept comma l : forall acc s r,
  R acc s -> pieces_ok comma l -> m_pieces one merge acc l = Some r ->
  accepted (s_pieces stp comma l s).
Proof.
  induction l as [|a l IH]; cbn [m_pieces s_pieces]; intros acc s r H K M; [apply accepted_some|].
  step M as x Ex. step M as acc' Em. apply accepted_bind.
  - exact (acc_sim _ _ _ _ _ _ Ex Em (K [] a l eq_refl) H).
  - intros t Et. refine (IH acc' t r (sim _ _ _ _ _ _ _ Ex Em Et H) _ M).
    intros l1 b l2 ->. exact (K (a :: l1) b l2 eq_refl).
Qed.

Hypothesis assoc : forall a b c bc abc,
  merge b c = Some bc -> merge a bc = Some abc ->
  exists ab, merge a b = Some ab /\ merge ab c = Some abc.
Variable empty : A.
Hypothesis right_id : forall a b, merge a empty = Some b -> b = a.
Lemma uniffi_accept l : forall acc s r,
  R acc s -> (forall a, In (AtUniffi a) l -> pieces_ok (ag_comma a) (ag_list a)) ->
  m_uniffi one merge empty acc l = Some r -> accepted (s_attrs pick_uniffi stp l s).
Proof.
  induction l as [|a l IH]; cbn [m_uniffi s_attrs]; intros acc s r H K M; [apply accepted_some|].
  assert (K' : forall a, In (AtUniffi a) l -> pieces_ok (ag_comma a) (ag_list a))
    by (intros b I; apply K; right; exact I).
  destruct a; cbn [pick_uniffi Src_Model.bind]; try exact (IH _ _ _ H K' M); try discriminate M.
  step M as x Ex. step M as acc' Em.
  destruct (pieces_from one merge assoc _ _ _ _ _ Ex Em) as (ab & E1 & E2).
  apply right_id in E1. subst ab.
  apply accepted_bind.
  - exact (pieces_accept _ _ _ _ _ H (K _ (or_introl eq_refl)) E2).
  - intros t Et. refine (IH acc' t r _ K' M).
    exact (pieces_sim one merge stp R sim _ _ _ _ _ _ H E2 Et).
Qed.
End Attrs.

Lemma field_assoc (x y z yz xyz : option (option dval) * option str) :
  merge_field y z = Some yz -> merge_field x yz = Some xyz ->
  exists xy, merge_field x y = Some xy /\ merge_field xy z = Some xyz.
Proof.
  intros H G. unfold merge_field in *.
  step H as d1 E1. step H as n1 F1. injection H as <-. cbn [fst snd] in G.
  step G as d2 E2. step G as n2 F2. injection G as <-.
  destruct (either_assoc _ _ _ _ _ E1 E2) as (u & U1 & U2).
  destruct (either_assoc _ _ _ _ _ F1 F2) as (w & W1 & W2).
  exists (u, w). rewrite U1, W1. cbn. rewrite U2, W2. auto.
Qed.
Lemma field_right x y : merge_field x (None, None) = Some y -> y = x.
Proof.
  intros H. unfold merge_field in H. cbn in H. step H as u E. step H as w F. injection H as <-.
  apply either_none in E. apply either_none in F. destruct x; cbn in *; congruence.
Qed.
Lemma field_step_sim last g x acc acc' s s' :
  one_field g = Some x -> merge_field acc x = Some acc' -> s_field_step last g s = Some s' ->
  acc = s -> acc' = s'.
Proof.
  intros O E T ->. unfold merge_field in E.
  step E as d Ed. step E as n En. injection E as <-.
  destruct s as [sd sn]; destruct g; cbn in O; try discriminate; injection O as <-; cbn in *.
  - injection T as <-. apply either_none in Ed. destruct sn; cbn in En; congruence.
  - apply either_none in En. subst n. destruct sd; cbn in *; try discriminate.
    destruct v; [congruence|]. destruct last; congruence.
Qed.
Definition bare_ok (last : bool) (a : arg) : Prop := a = ADefault None -> last = true.
Lemma field_accept l a :
  m_uniffi one_field merge_field (None, None) (None, None) l = Some a ->
  (forall a, In (AtUniffi a) l -> bare_last a) ->
  accepted (s_attrs pick_uniffi s_field_step l (None, None)).
Proof.
  intros M K.
  refine (uniffi_accept one_field merge_field s_field_step eq bare_ok field_step_sim _ field_assoc
            (None, None) field_right l _ _ a eq_refl _ M).
  - intros last g x acc acc' s O E T ->. unfold merge_field in E. step E as d Ed.
    destruct g; cbn in O; try discriminate; injection O as <-; cbn [fst snd] in *;
      cbn [s_field_step].
    + apply accepted_some.
    + destruct (fst s); [discriminate Ed|]. destruct v; [apply accepted_some|].
      rewrite (T eq_refl). apply accepted_some.
  - intros b I l1 g l2 E ->. destruct (K b I l1 l2 E) as [-> ->]. reflexivity.
Qed.

Lemma name_accept l n : m_name l = Some n -> accepted (s_name l).
Proof.
  intros M.
  refine (uniffi_accept one_name either s_name_step eq (fun _ _ => True) _ _ (@either_assoc _)
            None (@either_none _) l None None n eq_refl _ M).
  - intros last a x acc acc' s s' O E T ->. destruct a; try discriminate.
    cbn in *. injection O as <-. injection T as <-. destruct s; cbn in E; congruence.
  - intros last a x acc acc' s O _ _ _. destruct a; try discriminate. apply accepted_some.
  - intros a _ l1 g l2 _. exact I.
Qed.

(** * Default values *)
Lemma pow_le n m : n <= m -> 2 ^ n <= 2 ^ m.
Proof. intros H. apply Z.pow_le_mono_r; lia. Qed.
Lemma signed_range t n z :
  signed_bits t = Some n -> - 2 ^ (n - 1) <= z < 2 ^ (n - 1) -> in_i64 z = true.
Proof.
  intros B [H1 H2]. unfold in_i64.
  assert (N : n - 1 <= 63) by (destruct t; cbn in B; try discriminate; injection B as <-; lia).
  apply pow_le in N. set (p := 2 ^ (n - 1)) in *. set (q := 2 ^ 63) in *. clearbody p q. lia.
Qed.
Lemma unsigned_range t n z : unsigned_bits t = Some n -> 0 <= z < 2 ^ n -> in_u64 z = true.
Proof.
  intros B [H1 H2]. unfold in_u64.
  assert (N : n <= 64) by (destruct t; cbn in B; try discriminate; injection B as <-; lia).
  apply pow_le in N. set (p := 2 ^ n) in *. set (q := 2 ^ 64) in *. clearbody p q. lia.
Qed.
Lemma value_accept v : forall t l,
  tidy_value t v -> m_value t v = Some l -> lit_ok t l -> accepted (s_value t v).
Proof.
  induction v as [|v IH| |z sfx|x sfx|x|b|]; intros t l D M K;
    rewrite s_value_step; cbn [m_value] in M.
  - apply accepted_some.
  - step M as k Ek. injection M as <-. cbn [lit_ok] in K. destruct K as (u & Eu & K).
    rewrite strip_base by (intros; congruence). rewrite Eu.
    unfold inner_type in Ek. rewrite unwrap_base, Eu in Ek.
    apply accepted_bind; [exact (IH u k (D u Eu) Ek K)|]. intros y _. apply accepted_some.
  - apply accepted_some.
  - destruct sfx; [discriminate|]. injection M as <-. rewrite unwrap_base in K.
    assert (C : forall mp n b, base_type t <> TCustom mp n b).
    { intros mp n b E. rewrite E in K. cbn in K. destruct K as (_ & (k & K & _) & _). discriminate K. }
    rewrite (strip_base t C). cbn [tidy_value] in D.
    destruct (base_type t) eqn:B; cbn [number lit_ok] in K;
      try (destruct K as (_ & (k & K1 & K2) & _); try discriminate K1;
           rewrite (signed_range _ _ _ K1 K2); apply accepted_some);
      try (destruct K as (_ & _ & (k & K1 & K2));
           rewrite (unsigned_range _ _ _ K1 K2); apply accepted_some).
    destruct (z <? 0) eqn:L.
    + apply Z.ltb_lt in L. specialize (D eq_refl). lia.
    + cbn [lit_ok] in K. destruct K as (_ & _ & (k & K1 & K2)).
      rewrite (unsigned_range _ _ _ K1 K2). apply accepted_some.
  - destruct sfx; [discriminate|]. injection M as <-. cbn [lit_ok] in K.
    destruct K as (E & T & _). rewrite strip_base
      by (intros mp n b F; rewrite <- E, F in *; destruct T; discriminate).
    rewrite unwrap_base in *. destruct T as [T | T]; rewrite T; apply accepted_some.
  - injection M as <-. cbn [lit_ok] in K. destruct K as (E & _).
    rewrite strip_base by (intros; congruence). rewrite E. apply accepted_some.
  - cbn [tidy_value] in D. rewrite strip_base by (intros; congruence). rewrite D.
    apply accepted_some.
  - discriminate.
Qed.
Lemma default_accept t o r :
  (forall v, o = Some (Some v) -> tidy_value t v) ->
  m_opt_default t o = Some r -> opt_all (default_ok t) r -> accepted (s_opt_default t o).
Proof.
  intros D M K. destruct o as [o|]; cbn [s_opt_default]; [|apply accepted_some].
  cbn [m_opt_default] in M. step M as x Ex. injection M as <-. cbn [opt_all] in K.
  apply accepted_bind; [|intros; apply accepted_some].
  destruct o as [v|]; cbn [m_default s_default] in *; [|apply accepted_some].
  step Ex as l El. injection Ex as <-.
  apply accepted_bind; [exact (value_accept v t l (D v eq_refl) El K)|intros; apply accepted_some].
Qed.

(** The default of a field is one of those written. *)
Lemma field_default_in l : forall acc r v,
  m_uniffi one_field merge_field (None, None) acc l = Some r -> fst r = Some (Some v) ->
  fst acc = Some (Some v) \/ exists a, In (AtUniffi a) l /\ In (ADefault (Some v)) (ag_list a).
Proof.
  assert (P : forall l acc r v, m_pieces one_field merge_field acc l = Some r ->
    fst r = Some (Some v) -> fst acc = Some (Some v) \/ In (ADefault (Some v)) l).
  { clear l. induction l as [|a l IH]; cbn [m_pieces]; intros acc r v M F; [left; congruence|].
    step M as x Ex. step M as acc' E. destruct (IH _ _ _ M F) as [G | G]; [|right; right; exact G].
    unfold merge_field in E. step E as d Ed. step E as n En. injection E as <-. cbn [fst] in G.
    subst d. destruct a; cbn in Ex; try discriminate; injection Ex as <-; cbn [fst] in Ed.
    - apply either_none in Ed. left. congruence.
    - destruct (fst acc); cbn in Ed; [discriminate|]. right. left. congruence. }
  induction l as [|a l IH]; cbn [m_uniffi]; intros acc r v M F; [left; congruence|].
  destruct a; try discriminate M;
    try (destruct (IH _ _ _ M F) as [G | (b & I & J)];
         [left; exact G | right; exists b; split; [right; exact I | exact J]]).
  step M as x Ex. step M as acc' E.
  destruct (IH _ _ _ M F) as [G | (b & I & J)];
    [|right; exists b; split; [right; exact I | exact J]].
  unfold merge_field in E. step E as d Ed. step E as n En. injection E as <-. cbn [fst] in G. subst d.
  destruct (fst acc) as [q|] eqn:Q, (fst x) as [y|] eqn:Y; cbn in Ed; try discriminate.
  - left. congruence.
  - right. exists a. split; [left; reflexivity|].
    destruct (P _ _ _ v Ex) as [Z | Z]; [congruence | discriminate Z | exact Z].
Qed.

Lemma sfield_accept d named f b :
  tidy_field f -> m_field named f = Some b -> field_ok d b -> accepted (s_field f).
Proof.
  intros D M K. unfold m_field, s_field in *.
  step M as a Ea. step M as u Eu. step M as doc Edoc. step M as df Edf. injection M as <-.
  destruct K as (_ & _ & _ & K & _). cbn [fd_ty fd_default] in K.
  apply accepted_bind; [exact (field_accept _ _ Ea (fun a I => proj1 (D a I)))|].
  intros a' Ea'. pose proof (field_sim _ _ _ Ea Ea') as <-.
  apply accepted_bind; [|intros; apply accepted_some].
  refine (default_accept _ _ _ _ Edf K). intros v F.
  destruct (field_default_in _ _ _ _ Ea F) as [Z | (x & I & J)]; [discriminate Z|].
  exact (proj2 (D x I) v J).
Qed.

Lemma forall2_in {A B} (P : A -> B -> Prop) l ys x :
  Forall2 P l ys -> In x l -> exists y, In y ys /\ P x y.
Proof.
  induction 1 as [|z y l ys E _ IH]; intros I; [destruct I|]. destruct I as [-> | I].
  - exists y. split; [left; reflexivity | exact E].
  - destruct (IH I) as (w & Iw & Ew). exists w. split; [right; exact Iw | exact Ew].
Qed.
Lemma fields_accept d named fs bs :
  (forall f, In f fs -> tidy_field f) -> traverse (m_field named) fs = Some bs ->
  Forall (field_ok d) bs -> accepted (traverse s_field fs).
Proof.
  intros D M K. apply accepted_traverse. intros f I.
  destruct (traverse_in' _ _ _ _ M I) as (b & Ib & Eb).
  rewrite Forall_forall in K. exact (sfield_accept d named f b (D f I) Eb (K b Ib)).
Qed.

(** * Enums *)
Lemma reprs_accept rs : forall t,
  (forall r, In r rs -> exists t, r = RTy t) -> accepted (s_reprs rs t).
Proof.
  induction rs as [|r rs IH]; intros t H; cbn [s_reprs]; [apply accepted_some|].
  destruct (H r (or_introl eq_refl)) as (u & ->). apply IH. intros x I. apply H. right. exact I.
Qed.
Lemma repr_accept l : forall t,
  (forall rs r, In (AtRepr rs) l -> In r rs -> exists t, r = RTy t) -> accepted (s_repr l t).
Proof.
  induction l as [|a l IH]; intros t H; cbn [s_repr]; [apply accepted_some|].
  assert (H' : forall rs r, In (AtRepr rs) l -> In r rs -> exists t, r = RTy t)
    by (intros rs r I; apply H; right; exact I).
  destruct a; try exact (IH t H').
  apply accepted_bind; [apply reprs_accept; intros r; apply H; left; reflexivity|].
  intros u _. exact (IH u H').
Qed.
Lemma reprs_in rs : forall t t', s_reprs rs t = Some (Some t') -> t = Some t' \/ In (RTy t') rs.
Proof.
  induction rs as [|r rs IH]; intros t t' H; cbn [s_reprs] in H; [left; congruence|].
  destruct r; try discriminate. destruct (IH _ _ H) as [E | E]; [|right; right; exact E].
  right. left. congruence.
Qed.
Lemma repr_in l : forall t t', s_repr l t = Some (Some t') ->
  t = Some t' \/ exists rs, In (AtRepr rs) l /\ In (RTy t') rs.
Proof.
  induction l as [|a l IH]; intros t t' H; cbn [s_repr] in H; [left; congruence|].
  destruct a;
    try (destruct (IH _ _ H) as [E | (rs & I & J)];
         [left; exact E | right; exists rs; split; [right; exact I | exact J]]).
  step H as u Eu. destruct (IH _ _ H) as [E | (rs & I & J)].
  - subst u. destruct (reprs_in _ _ _ Eu) as [E | E]; [left; exact E|].
    right. eexists. split; [left; reflexivity | exact E].
  - right. exists rs. split; [right; exact I | exact J].
Qed.
Lemma discr_accept t x : (forall u, t = Some u -> forall y, x = Some y -> fits u y) -> accepted (s_discr t x).
Proof.
  intros H. destruct t as [u|]; [|destruct x as [[z|z|]|]; apply accepted_some].
  destruct x as [y|]; [|apply accepted_some]. cbn [s_discr].
  specialize (H u eq_refl y eq_refl). destruct y as [z|z|]; cbn [fits] in H.
  - unfold in_i64, in_u64. destruct (is_signed u).
    + set (q := 2 ^ 63) in *. replace ((- q <=? z) && (z <? q)) with true; [apply accepted_some|].
      clearbody q. symmetry. lia.
    + set (q := 2 ^ 64) in *. replace ((0 <=? z) && (z <? q)) with true; [apply accepted_some|].
      clearbody q. symmetry. lia.
  - destruct H as [-> H]. unfold in_i64. set (q := 2 ^ 63) in *.
    replace (true && ((- q <=? z) && (z <? q))) with true; [apply accepted_some|].
    clearbody q. symmetry. lia.
  - destruct H.
Qed.
Lemma variant_accept d t v b :
  (forall f, In f (sv_fields v) -> tidy_field f) ->
  (forall u, t = Some u -> forall y, sv_discr v = Some y -> fits u y) ->
  m_variant v = Some b -> variant_ok d b -> accepted (s_variant false t v).
Proof.
  intros F D M K. unfold m_variant, s_variant in *.
  step M as bs Eb. step M as n En. step M as x Ex. step M as doc Ed. injection M as <-.
  destruct K as (_ & _ & _ & K & _). cbn [v_fields] in K.
  apply accepted_bind; [exact (name_accept _ _ En)|]. intros n' _.
  apply accepted_bind; [exact (discr_accept _ _ D)|]. intros x' _.
  assert (Q : accepted (traverse s_field (sv_fields v))) by exact (fields_accept d false _ _ F Eb K).
  apply accepted_bind; [|intros ? _; apply accepted_bind; [exact Q|intros; apply accepted_some]].
  apply accepted_traverse. intros f I.
  destruct (traverse_in' _ _ _ _ Eb I) as (c & _ & Ec). unfold m_field in Ec. step Ec as a Ea.
  exact (field_accept _ _ Ea (fun a J => proj1 (F f I a J))).
Qed.
(** A field without arguments. *)
Lemma no_args_accept l : no_args l = true -> accepted (s_attrs pick_uniffi s_field_step l (None, None)).
Proof.
  cut (forall l s, no_args l = true -> accepted (s_attrs pick_uniffi s_field_step l s)); [auto|].
  clear l. induction l as [|a l IH]; intros s H; cbn [s_attrs]; [apply accepted_some|].
  cbn [no_args forallb] in H. apply andb_true_iff in H. destruct H as [H1 H2].
  destruct a; cbn [pick_uniffi Src_Model.bind]; try exact (IH s H2); try discriminate.
  destruct (ag_list a); [|discriminate]. cbn [s_pieces Src_Model.bind]. exact (IH s H2).
Qed.
Lemma flat_variant_accept t v b :
  forallb (fun f => no_args (sf_attrs f)) (sv_fields v) = true ->
  (forall u, t = Some u -> forall y, sv_discr v = Some y -> fits u y) ->
  m_flat_variant v = Some b -> accepted (s_variant true t v).
Proof.
  intros F D M. unfold m_flat_variant, s_variant in *. step M as n En.
  apply accepted_bind; [exact (name_accept _ _ En)|]. intros n' _.
  apply accepted_bind; [exact (discr_accept _ _ D)|]. intros x' _.
  apply accepted_bind; [|intros; apply accepted_some].
  apply accepted_traverse. intros f I. apply no_args_accept.
  rewrite forallb_forall in F. exact (F f I).
Qed.

Lemma enum_pieces_flat l : forall acc r,
  m_pieces one_enum merge_enum acc l = Some r -> ea_flat r = None ->
  ea_flat acc = None /\ ~ In (AFlag GFlat) l.
Proof.
  induction l as [|a l IH]; cbn [m_pieces]; intros acc r M F.
  - split; [congruence | intros []].
  - step M as x Ex. step M as acc' E. destruct (IH _ _ M F) as [F1 F2].
    unfold merge_enum in E. step E as f Ef. step E as t Et. step E as n En. injection E as <-.
    cbn [ea_flat] in F1. subst f.
    destruct (ea_flat acc) eqn:A, (ea_flat x) eqn:X; cbn in Ef; try discriminate.
    split; [reflexivity|]. intros [-> | I]; [|exact (F2 I)].
    cbn in Ex. injection Ex as <-. discriminate X.
Qed.
Lemma enum_flat l : forall acc r,
  m_uniffi one_enum merge_enum (EA None None None) acc l = Some r -> ea_flat r = None ->
  ea_flat acc = None /\ forall a, In (AtUniffi a) l -> ~ In (AFlag GFlat) (ag_list a).
Proof.
  induction l as [|a l IH]; cbn [m_uniffi]; intros acc r M F.
  - split; [congruence | intros a []].
  - destruct a; try discriminate M;
      try (destruct (IH _ _ M F) as [F1 F2]; split; [exact F1|];
           intros b [E | J]; [discriminate E | exact (F2 b J)]).
    step M as x Ex. step M as acc' E. destruct (IH _ _ M F) as [F1 F2].
    unfold merge_enum in E. step E as f Ef. step E as t Et. step E as n En. injection E as <-.
    cbn [ea_flat] in F1. subst f.
    destruct (ea_flat acc) eqn:A, (ea_flat x) eqn:X; cbn in Ef; try discriminate.
    split; [reflexivity|]. intros b [E | J]; [|exact (F2 b J)].
    injection E as <-. exact (proj2 (enum_pieces_flat _ _ _ Ex X)).
Qed.
Definition enum_arg_ok (error : bool) (_ : bool) (a : arg) : Prop :=
  a <> AFlag GTryRead /\ (a = AFlag GFlat -> error = true).
Lemma enum_attrs_accept (error : bool) l a :
  m_uniffi one_enum merge_enum (EA None None None) (EA None None None) l = Some a ->
  (error = false -> ea_flat a = None) ->
  (forall x, In (AtUniffi x) l -> ~ In (AFlag GTryRead) (ag_list x)) ->
  accepted (s_attrs pick_uniffi (s_enum_step error) l (None, false)).
Proof.
  intros M F T.
  refine (uniffi_accept one_enum merge_enum (s_enum_step error) (fun _ _ => True)
            (enum_arg_ok error) _ _ _ (EA None None None) _ l _ _ a I _ M).
  - auto.
  - intros last g x acc acc' s O _ [K1 K2] _. destruct g as [| | | |g]; cbn in O; try discriminate;
      cbn [s_enum_step]; [apply accepted_some|].
    destruct g; try discriminate; [rewrite (K2 eq_refl); apply accepted_some | congruence].
  - intros x y z yz xyz H G. unfold merge_enum in *.
    step H as d1 E1. step H as k1 K1. step H as n1 F1. injection H as <-. cbn in G.
    step G as d2 E2. step G as k2 K2. step G as n2 F2. injection G as <-.
    destruct (either_assoc _ _ _ _ _ E1 E2) as (u & U1 & U2).
    destruct (either_assoc _ _ _ _ _ K1 K2) as (v & V1 & V2).
    destruct (either_assoc _ _ _ _ _ F1 F2) as (w & W1 & W2).
    exists (EA u v w). rewrite U1, V1, W1. cbn. rewrite U2, V2, W2. auto.
  - intros [f t n] y H. unfold merge_enum in H. cbn in H.
    step H as u E. step H as v V. step H as w W. injection H as <-.
    apply either_none in E. apply either_none in V. apply either_none in W. congruence.
  - intros x J l1 g l2 E.
    assert (G : In g (ag_list x)) by (rewrite E; apply in_app_iff; right; left; reflexivity).
    split.
    + intros ->. exact (T x J G).
    + intros ->. destruct error; [reflexivity|]. exfalso.
      exact (proj2 (enum_flat _ _ _ M (F eq_refl)) x J G).
Qed.

Lemma enum_accept d p error i l vs e :
  tidy_variants l vs -> m_enum error (pl_here p) i l vs = Some e -> recordable d (MEnum e) ->
  accepted (s_enum error p i l vs).
Proof.
  intros (Tf & Tr & Tt) M K. unfold m_enum, s_enum in *. step M as a Ea. step M as doc Ed.
  assert (FL : match ea_flat a with Some _ => true | None => false end = is_some (ea_flat a))
    by reflexivity.
  rewrite FL in M. clear FL.
  assert (F : error = false -> ea_flat a = None).
  { intros ->. step M as u Eu. apply guard_some, andb_true_iff in Eu. destruct Eu as [Eu _].
    destruct (ea_flat a); [discriminate | reflexivity]. }
  apply accepted_bind; [exact (enum_attrs_accept error l a Ea F Tt)|]. intros a' Ea'.
  destruct (enum_sim error _ _ _ Ea Ea') as [_ <-].
  apply accepted_bind.
  { apply repr_accept. intros rs r I J. destruct (Tr rs r I J) as (t & -> & _). exists t. reflexivity. }
  intros t Et. apply accepted_bind; [|intros; apply accepted_some].
  assert (D : forall v, In v vs -> forall u, t = Some u -> forall y, sv_discr v = Some y -> fits u y).
  { intros v Iv u -> y Ey. destruct (repr_in _ _ _ Et) as [Z | (rs & I & J)]; [discriminate Z|].
    destruct (Tr rs (RTy u) I J) as (u' & E & H). injection E as <-. exact (H v y Iv Ey). }
  apply accepted_traverse. intros v Iv. destruct error.
  - step M as u Eu. step M as bs Eb. injection M as <-.
    destruct K as (_ & _ & _ & _ & _ & K). cbn [e_shape e_variants] in K.
    apply guard_some in Eu. rewrite forallb_forall in Eu.
    destruct (is_some (ea_flat a)).
    + destruct (traverse_in' _ _ _ _ Eb Iv) as (b & _ & E).
      exact (flat_variant_accept t v b (Eu v Iv) (D v Iv) E).
    + destruct (traverse_in' _ _ _ _ Eb Iv) as (b & Ib & E). rewrite Forall_forall in K.
      exact (variant_accept d t v b (fun f => Tf v f Iv) (D v Iv) E (K b Ib)).
  - rewrite (F eq_refl) in *. cbn [is_some] in *.
    step M as u Eu. step M as t0 Et0. step M as bs Eb. injection M as <-.
    destruct K as (_ & _ & _ & _ & _ & K). cbn [e_shape e_variants] in K.
    destruct (traverse_in' _ _ _ _ Eb Iv) as (b & Ib & E). rewrite Forall_forall in K.
    exact (variant_accept d t v b (fun f => Tf v f Iv) (D v Iv) E (K b Ib)).
Qed.

(** * Functions *)
Lemma lookup_first_in i l : lookup_first i l <> None -> In i (map fst l).
Proof.
  induction l as [|[j v] l IH]; cbn [lookup_first map fst]; [congruence|].
  destruct (ident_eqb i j) eqn:E; [|intros H; right; exact (IH H)].
  intros _. left. symmetry. exact (ident_eqb_eq _ _ E).
Qed.
Lemma pairs_accept comma l : forall m,
  pairs_ok comma l = true -> NoDup (map fst (m ++ l)) -> accepted (s_pairs comma l m).
Proof.
  induction l as [|[i v] l IH]; intros m P N; cbn [s_pairs]; [apply accepted_some|].
  apply accepted_bind.
  { apply accepted_guard. destruct (lookup_first i m) eqn:L; [|reflexivity]. exfalso.
    rewrite map_app in N. cbn [map fst] in N. apply NoDup_remove_2 in N. apply N.
    apply in_app_iff. left. apply lookup_first_in. congruence. }
  intros _ _. apply accepted_bind.
  { apply accepted_guard. destruct v; [reflexivity|]. cbn [pairs_ok] in P. destruct l; [exact P | discriminate]. }
  intros _ _. apply IH.
  - cbn [pairs_ok] in P. destruct v; [exact P|]. destruct l; [reflexivity | discriminate].
  - rewrite <- app_assoc. exact N.
Qed.
Lemma nodup_left {A} (l m : list A) : NoDup (l ++ m) -> NoDup l.
Proof.
  induction l as [|a l IH]; cbn [app]; intros H; [constructor|].
  inversion H as [|? ? N K]; subst. constructor; [|exact (IH K)].
  intros I. apply N, in_app_iff. left. exact I.
Qed.
Lemma fargs_accept comma l : forall acc s r,
  fargs_rel acc s -> m_pieces one_fn merge_fn acc l = Some r ->
  NoDup (map fst (fa_defs acc ++ given l)) -> accepted (s_pieces s_fn_step comma l s).
Proof.
  induction l as [|a l IH]; cbn [m_pieces s_pieces]; intros acc s r H M N; [apply accepted_some|].
  step M as x Ex. step M as acc' E. apply accepted_bind.
  - destruct a; cbn [one_fn] in Ex; try discriminate; cbn [s_fn_step]; try apply accepted_some.
    destruct (pairs_ok comma0 l0) eqn:P; [|discriminate].
    apply accepted_bind; [|intros; apply accepted_some]. apply pairs_accept; [exact P|].
    destruct H as (_ & <- & _). cbn [given flat_map] in N. rewrite app_assoc, map_app in N.
    exact (nodup_left _ _ N).
  - intros t Et. apply (IH acc' t r (fn_step_sim _ _ _ _ _ _ _ Ex E Et H) M).
    unfold merge_fn in E. step E as q Eq. step E as n En. injection E as <-. cbn [fa_defs].
    destruct a; cbn [one_fn] in Ex; try discriminate; cbn [given flat_map app] in N.
    + injection Ex as <-. cbn [fa_defs]. rewrite app_nil_r. exact N.
    + destruct (pairs_ok comma0 l0); [|discriminate]. injection Ex as <-. cbn [fa_defs].
      rewrite <- app_assoc. exact N.
    + destruct (bytes_eqb s0 TOKIO); [|discriminate]. injection Ex as <-. cbn [fa_defs].
      rewrite app_nil_r. exact N.
Qed.
Lemma fargs_defs l : forall acc r,
  m_pieces one_fn merge_fn acc l = Some r -> fa_defs r = fa_defs acc ++ given l.
Proof.
  induction l as [|a l IH]; cbn [m_pieces given flat_map]; intros acc r M.
  - rewrite app_nil_r. congruence.
  - step M as x Ex. step M as acc' E. rewrite (IH _ _ M).
    unfold merge_fn in E. step E as q Eq. step E as n En. injection E as <-. cbn [fa_defs].
    destruct a; cbn [one_fn] in Ex; try discriminate.
    + injection Ex as <-. cbn [fa_defs app]. rewrite app_nil_r. reflexivity.
    + destruct (pairs_ok comma l0); [|discriminate]. injection Ex as <-. cbn [fa_defs].
      rewrite <- app_assoc. reflexivity.
    + destruct (bytes_eqb s TOKIO); [|discriminate]. injection Ex as <-. cbn [fa_defs app].
      rewrite app_nil_r. reflexivity.
Qed.
Lemma lookup_first_pair i l v : lookup_first i l = Some v -> In (i, v) l.
Proof.
  induction l as [|[j w] l IH]; cbn [lookup_first]; [discriminate|].
  destruct (ident_eqb i j) eqn:E; [|intros H; right; exact (IH H)].
  intros [= <-]. left. rewrite (ident_eqb_eq _ _ E). reflexivity.
Qed.

Lemma param_accept d ok defs defs' a q :
  (forall i, lookup_last i defs = lookup_first i defs') ->
  (ok = true \/ forall i t pb, a <> FTyped i t pb true) ->
  (forall i v t pb self, In (i, Some v) defs' -> a = FTyped (Some i) t pb self -> tidy_value t v) ->
  m_param defs a = Some q -> param_ok d q -> accepted (s_param ok defs' a).
Proof.
  intros L O D M K. destruct a as [arc|[i|] t pb self]; try discriminate.
  cbn [m_param s_param] in *. step M as x Ex. injection M as <-.
  destruct K as (_ & _ & K). cbn [p_ty p_default] in K. rewrite L in Ex.
  apply accepted_bind.
  { apply accepted_guard. destruct O as [-> | O]; [reflexivity|].
    destruct self; [exfalso; exact (O _ _ _ eq_refl)|]. rewrite orb_true_r. reflexivity. }
  intros _ _. apply accepted_bind; [|intros; apply accepted_some].
  refine (default_accept _ _ _ _ Ex K). intros v F.
  exact (D i v t pb self (lookup_first_pair _ _ _ F) eq_refl).
Qed.
Lemma sig_accept d here mp nm (receiver : bool) (ok : bool) a a' f g rest :
  fargs_rel a a' ->
  (if receiver then exists arc, sn_args f = FReceiver arc :: rest else sn_args f = rest) ->
  (ok = true \/ no_self rest) ->
  (forall i v t pb self, In (i, Some v) (fa_defs a) -> In (FTyped (Some i) t pb self) rest ->
     tidy_value t v) ->
  m_sig here receiver a f = Some g -> Forall (param_ok d) (f_inputs g) ->
  accepted (s_sig mp nm ok a' f rest).
Proof.
  intros (R1 & R2 & R3) A O D M K. unfold m_sig, s_sig in *.
  step M as doc Ed. step M as rest' Er. step M as ps Ep. step M as u1 E1. step M as u2 E2.
  step M as u3 E3. injection M as <-.
  assert (rest' = rest) as ->.
  { destruct receiver; [destruct A as [arc A]; rewrite A in Er|]; congruence. }
  cbn [f_inputs] in K. apply accepted_bind; [|intros; apply accepted_some].
  apply accepted_traverse. intros x I. destruct (traverse_in' _ _ _ _ Ep I) as (q & Iq & Eq).
  rewrite Forall_forall in K.
  refine (param_accept d ok _ _ x q _ _ _ Eq (K q Iq)).
  - intros j. rewrite R2. apply R3.
  - destruct O as [O | O]; [left; exact O|right]. intros i t pb ->. exact (O i t pb I).
  - intros i v t pb self J ->. rewrite <- R2 in J. exact (D i v t pb self J I).
Qed.

Lemma fn_accept d p f g :
  tidy_fn f -> m_fn (pl_here p) f = Some g -> recordable d (MFunc g) -> accepted (s_fn p f).
Proof.
  intros (Ts & Td) M K. unfold m_fn, s_fn in *. step M as e Ee. step M as a Ea.
  rewrite (exports_one s_fn_step (sn_attrs f) no_fargs e Ee).
  assert (Ie : In (AtExport e) (sn_attrs f)).
  { clear - Ee. unfold m_export in Ee. induction (sn_attrs f) as [|x l IH]; [discriminate|].
    destruct x; cbn [exports] in Ee; try (right; exact (IH Ee)).
    destruct (exports l); [|discriminate]. injection Ee as <-. left. reflexivity. }
  destruct K as (_ & _ & _ & K & _).
  assert (Rn : fargs_rel no_fargs no_fargs) by (split; [|split]; reflexivity).
  destruct e as [e|]; cbn [m_fargs] in Ea.
  - destruct (Td e Ie) as [Td1 Td2].
    apply accepted_bind; [exact (fargs_accept _ _ _ _ _ Rn Ea Td1)|]. intros a' Ea'.
    refine (sig_accept d _ _ _ false false a a' f g (sn_args f) (fargs_pieces _ _ _ _ Ea Ea')
              eq_refl (or_intror Ts) _ M K).
    rewrite (fargs_defs _ _ _ Ea). cbn [fa_defs no_fargs app]. exact Td2.
  - injection Ea as <-. cbn [Src_Model.bind].
    refine (sig_accept d _ _ _ false false no_fargs no_fargs f g (sn_args f) Rn eq_refl
              (or_intror Ts) _ M K). intros i v t pb self [].
Qed.

(** * Methods *)
Lemma member_attrs_accept l c a ps :
  (length (filter is_member_attr l) <= 1)%nat ->
  (forall x, In (AtCtor (Some x)) l \/ In (AtMethod (Some x)) l -> tidy_defaults x ps) ->
  m_member_attrs false no_fargs l = Some (c, a) ->
  accepted (s_attrs (if c then pick_ctor else pick_method) s_fn_step l no_fargs) /\
  forall i v t pb self, In (i, Some v) (fa_defs a) -> In (FTyped (Some i) t pb self) ps ->
    tidy_value t v.
Proof.
  intros N T M.
  assert (Rn : fargs_rel no_fargs no_fargs) by (split; [|split]; reflexivity).
  assert (X : forall x b, m_fargs x = Some b ->
    (forall y, x = Some y -> tidy_defaults y ps) ->
    accepted match x with
             | Some y => s_pieces s_fn_step (ag_comma y) (ag_list y) no_fargs
             | None => Some no_fargs
             end /\
    forall i v t pb self, In (i, Some v) (fa_defs b) -> In (FTyped (Some i) t pb self) ps ->
      tidy_value t v).
  { intros [y|] b Eb Ty; cbn [m_fargs] in Eb.
    - destruct (Ty y eq_refl) as [T1 T2]. split; [exact (fargs_accept _ _ _ _ _ Rn Eb T1)|].
      rewrite (fargs_defs _ _ _ Eb). exact T2.
    - injection Eb as <-. split; [apply accepted_some|]. intros i v t pb self []. }
  revert N T M. induction l as [|x l IH]; cbn [filter m_member_attrs s_attrs]; intros N T M.
  - injection M as <- <-. split; [apply accepted_some|]. intros i v t pb self [].
  - assert (Z : is_member_attr x = true -> filter is_member_attr l = []).
    { intros E. rewrite E in N. cbn [length] in N.
      destruct (filter is_member_attr l); [reflexivity|cbn [length] in N; lia]. }
    assert (T' : forall x, In (AtCtor (Some x)) l \/ In (AtMethod (Some x)) l -> tidy_defaults x ps).
    { intros y [J | J]; apply T; [left | right]; right; exact J. }
    destruct x as [y| |y|y|y|y| | |y| |]; cbn [is_member_attr] in *; try discriminate M;
      try (destruct (IH N T' M) as [A B]; split; [|exact B]; destruct c; exact A).
    + step M as b Eb. destruct (member_none _ _ _ (Z eq_refl) _ M) as [E _]. injection E as -> ->.
      destruct (X y b Eb) as [A B]; [intros w ->; apply T; left; left; reflexivity|].
      split; [|exact B]. apply accepted_bind; [destruct y; exact A|]. intros t _.
      rewrite (pick_none pick_ctor _ l t (fun y _ => pick_ctor_other y) (Z eq_refl)).
      apply accepted_some.
    + step M as b Eb. destruct (member_none _ _ _ (Z eq_refl) _ M) as [E _]. injection E as -> ->.
      destruct (X y b Eb) as [A B]; [intros w ->; apply T; right; left; reflexivity|].
      split; [|exact B]. apply accepted_bind; [destruct y; exact A|]. intros t _.
      rewrite (pick_none pick_method _ l t (fun y _ => pick_method_other y) (Z eq_refl)).
      apply accepted_some.
Qed.

Lemma method_accept d here st f c a g :
  tidy_member st (MbFn f) -> m_member_attrs false no_fargs (sn_attrs f) = Some (c, a) -> c = false ->
  m_sig here true a f = Some g -> Forall (param_ok d) (f_inputs g) -> accepted (s_method here f).
Proof.
  intros (N & T & _) A -> M K.
  destruct (member_attrs_accept _ _ _ _ N T A) as [B D]. cbn [negb] in B.
  unfold s_method. apply accepted_bind; [exact B|]. intros a' Ea'.
  destruct (member_attrs_sim _ _ _ _ N A Ea') as [_ R].
  pose proof M as M'. unfold m_sig in M'. step M' as doc Ed. step M' as rest Er.
  destruct (sn_args f) as [|[arc|] r] eqn:Ar; try discriminate. injection Er as <-.
  apply accepted_bind; [|intros; apply accepted_some].
  refine (sig_accept d here here _ true true a a' f g r R (ex_intro _ arc Ar) (or_introl eq_refl) _ M K).
  intros i v t pb self I J. exact (D i v t pb self I (or_intror J)).
Qed.

Lemma ty_eqb_refl t : ty_eqb t t = true.
Proof.
  assert (B : forall x, bytes_eqb x x = true)
    by (intros x; destruct (bytes_eqb_spec x x); congruence).
  induction t; cbn [ty_eqb]; try reflexivity; try exact IHt; rewrite ?B, ?IHt, ?IHt1, ?IHt2;
    try reflexivity.
  destruct imp as [|[]]; reflexivity.
Qed.

Lemma member_accept d here self t m x :
  tidy_member t m -> m_member here self m = Some x -> recordable d x ->
  forall self', accepted (s_member here self' t m).
Proof.
  intros T M K self'. destruct m as [f|]; [|discriminate].
  unfold m_member, s_member in *. step M as ca Eca. destruct ca as [c a].
  cbn [fst snd] in M. step M as g Eg.
  rewrite <- (member_ctor _ _ _ Eca). destruct c; cbn [negb] in Eg.
  - destruct (is_self self (sn_ret f)) eqn:Es; [|discriminate]. injection M as <-.
    destruct T as (N & T & C).
    destruct (C (eq_sym (member_ctor _ _ _ Eca))) as [C1 C2].
    destruct (member_attrs_accept _ _ _ _ N T Eca) as [B D]. cbn [negb] in B.
    destruct K as (_ & K & _). destruct K as (_ & _ & _ & K & _). cbn [drop_ret f_inputs] in K.
    apply accepted_bind; [|intros; apply accepted_some].
    unfold s_ctor. apply accepted_bind; [exact B|]. intros a' Ea'.
    destruct (member_attrs_sim _ _ _ _ N Eca Ea') as [_ R].
    apply accepted_bind; [apply accepted_guard; rewrite C1; apply ty_eqb_refl|]. intros _ _.
    apply accepted_bind; [|intros; apply accepted_some].
    exact (sig_accept d here here _ false false a a' f g (sn_args f) R eq_refl (or_intror C2) D Eg K).
  - injection M as <-. destruct K as (_ & K). destruct K as (_ & _ & _ & K & _).
    apply accepted_bind; [|intros; apply accepted_some].
    exact (method_accept d here t f false a g T Eca eq_refl Eg K).
Qed.

Lemma impl_accept d here i t tr l ms xs :
  ty_name t <> None -> Forall (tidy_member t) ms -> m_impl here i tr l ms = Some xs ->
  Forall (recordable d) xs -> accepted (s_impl here t l ms).
Proof.
  intros Tn Tm M K. unfold m_impl, s_impl in *.
  step M as e Ee. step M as a Ea. step M as j Ej. step M as ys Ey. step M as u Eu.
  injection M as <-. apply Forall_app in K. destruct K as [K _].
  rewrite (exports_one s_impl_step l None e Ee).
  apply accepted_bind.
  { destruct e as [e|]; [|apply accepted_some].
    refine (pieces_accept one_impl merge_impl s_impl_step (fun _ _ => True) (fun _ _ => True)
              (fun _ _ _ _ _ _ _ _ _ _ _ => I) _ _ _ _ None a I (fun _ _ _ _ => I) Ea).
    intros last g x acc acc' s O _ _ _. destruct g; cbn in O; try discriminate; apply accepted_some. }
  intros n _. apply accepted_bind.
  { destruct n; [apply accepted_some|]. destruct (ty_name t) as [k|]; [exists k; reflexivity | congruence]. }
  intros self _. apply accepted_bind; [|intros; apply accepted_some].
  apply accepted_traverse. intros m Im. destruct (traverse_in' _ _ _ _ Ey Im) as (x & Ix & Ex).
  rewrite Forall_forall in K, Tm. exact (member_accept d here _ t m x (Tm m Im) Ex (K x Ix) self).
Qed.

(** * Traits *)
Lemma trait_members_accept d here self self' st ms : forall idx xs,
  Forall (tidy_member st) ms -> m_trait_members here self idx ms = Some xs ->
  Forall (recordable d) xs -> forall idx', accepted (s_trait_members here self' idx' ms).
Proof.
  induction ms as [|m ms IH]; cbn [m_trait_members s_trait_members]; intros idx xs T M K idx';
    [apply accepted_some|].
  step M as x Ex. step M as ys Ey. injection M as <-.
  inversion T as [|? ? T1 T2]; subst. inversion K as [|? ? K1 K2]; subst.
  destruct m as [f|]; [|discriminate]. cbn [m_trait_member] in Ex.
  step Ex as u1 E1. step Ex as ca Eca. step Ex as u2 E2. step Ex as g Eg. injection Ex as <-.
  destruct ca as [c a]. cbn [fst snd] in *. apply guard_some, negb_true_iff in E2.
  destruct K1 as (_ & K1 & _). destruct K1 as (_ & _ & _ & K1 & _).
  apply accepted_bind; [exact (method_accept d here st f c a g T1 Eca E2 Eg K1)|]. intros h _.
  apply accepted_bind; [|intros; apply accepted_some]. exact (IH _ _ T2 Ey K2 _).
Qed.
Lemma export_in l e : m_export l = Some e -> In (AtExport e) l.
Proof.
  unfold m_export. induction l as [|x l IH]; intros Ee; [discriminate|].
  destruct x; cbn [exports] in Ee; try (right; exact (IH Ee)).
  destruct (exports l); [|discriminate]. injection Ee as <-. left. reflexivity.
Qed.
Lemma trait_accept d p i l ms xs :
  tidy (ItTrait i l ms) -> m_trait (pl_here p) i l ms = Some xs -> Forall (recordable d) xs ->
  accepted (s_trait p i l ms).
Proof.
  intros (Ta & Tm) M K. unfold m_trait, s_trait in *. step M as e Ee. step M as a Ea.
  rewrite Ee. cbn [Src_Model.bind].
  assert (P : accepted (s_pieces s_trait_step (match e with Some a => ag_comma a | None => false end)
                (match e with Some a => ag_list a | None => [] end) (None, (false, false, false)))).
  { refine (pieces_accept one_trait merge_trait s_trait_step (fun _ _ => True)
              (fun _ g => (forall r, g <> AAsync r) /\ g <> AFlag GRemote)
              (fun _ _ _ _ _ _ _ _ _ _ _ => I) _ _ _ _ _ a I _ Ea).
    - intros last g x acc acc' [n [[r f] c]] O _ [T1 T2] _.
      destruct g as [| | |w|g]; cbn in O; try discriminate.
      + exfalso. exact (T1 w eq_refl).
      + destruct g; try discriminate; cbn [s_trait_step]; try apply accepted_some. congruence.
    - intros l1 g l2 E. destruct e as [e|]; [|destruct l1; discriminate E].
      destruct (Ta e (export_in _ _ Ee)) as [T1 T2].
      assert (G : In g (ag_list e)) by (rewrite E; apply in_app_iff; right; left; reflexivity).
      split; [intros r ->; exact (T1 r G) | intros ->; exact (T2 G)]. }
  apply accepted_bind; [exact P|]. intros x Ex.
  assert (R : trait_rel a x).
  { refine (pieces_sim one_trait merge_trait s_trait_step trait_rel trait_step_sim
              _ _ _ _ _ _ _ Ea Ex). split; [|split]; reflexivity. }
  destruct R as (-> & R1 & R2). destruct (m_kind a) as [kind cb].
  step M as u1 E1. step M as doc Ed. step M as ys Ey. injection M as <-.
  inversion K as [|? ? K1 K2]; subst.
  apply accepted_bind.
  { apply accepted_guard.
    destruct (is_some (ta_rust a)), (is_some (ta_foreign a)), (is_some (ta_callback a)),
      (is_some (ta_with a)); cbn in *; congruence. }
  intros _ _. apply accepted_bind; [|intros; apply accepted_some].
  exact (trait_members_accept d _ _ _ _ _ _ _ Tm Ey K2 _).
Qed.

(** * The built-in traits *)
Lemma utraits_accept here i t t' self l xs :
  m_utraits here i t l = Some xs -> accepted (s_utraits here self t' l).
Proof.
  unfold m_utraits, s_utraits. intros M. step M as gss Eg. clear M.
  apply accepted_bind.
  - revert gss Eg. induction (exports l) as [|e es IH]; cbn [traverse s_utrait_attrs]; intros gss Eg;
      [apply accepted_some|].
    step Eg as g E. step Eg as gs' E'. destruct e as [e|]; [|discriminate].
    cbn [m_utrait_attr] in E. step E as ks Ek.
    apply accepted_bind; [exists ks; exact Ek|]. intros ? _.
    apply accepted_bind; [exact (IH _ E')|]. intros; apply accepted_some.
  - intros gs _. apply accepted_bind; [|intros; apply accepted_some].
    apply accepted_traverse. intros g I. apply filter_In in I. destruct I as [I _].
    cbn in I. repeat (destruct I as [<- | I]; [apply accepted_some|]). destruct I.
Qed.

Lemma item_accepted d p it ms :
  tidy it -> macros p it = Some ms -> Forall (recordable d) ms -> exists ss, sources p it = Some ss.
Proof.
  intros T M K. change (accepted (sources p it)).
  destruct it as [rm i l fs|er rm i l vs|rm i l|f|i t tr l mbs|i l mbs]; cbn [macros sources] in *.
  - step M as r Er. step M as us Eus. injection M as <-. inversion K as [|? ? K1 K2]; subst.
    destruct K1 as (_ & _ & _ & K1 & _).
    unfold m_record in Er. step Er as n En. step Er as doc Ed. step Er as bs Eb. injection Er as <-.
    cbn [r_fields] in K1. cbn [tidy] in T. rewrite Forall_forall in T.
    apply accepted_bind.
    + unfold s_record. apply accepted_bind; [exact (name_accept _ _ En)|]. intros n' _.
      apply accepted_bind; [exact (fields_accept d true _ _ T Eb K1)|intros; apply accepted_some].
    + intros r' _. apply accepted_bind; [|intros; apply accepted_some].
      exact (utraits_accept _ _ _ _ _ _ _ Eus).
  - step M as e Ee. step M as us Eus. injection M as <-. inversion K as [|? ? K1 K2]; subst.
    apply accepted_bind; [exact (enum_accept d p er i l vs e T Ee K1)|].
    intros e' _. apply accepted_bind; [|intros; apply accepted_some].
    exact (utraits_accept _ _ _ _ _ _ _ Eus).
  - step M as o Eo. step M as us Eus. injection M as <-.
    unfold m_object in Eo. step Eo as n En.
    apply accepted_bind.
    + unfold s_object. apply accepted_bind; [exact (name_accept _ _ En)|intros; apply accepted_some].
    + intros o' _. apply accepted_bind; [|intros; apply accepted_some].
      exact (utraits_accept _ _ _ _ _ _ _ Eus).
  - step M as g Eg. injection M as <-. inversion K as [|? ? K1 K2]; subst.
    apply accepted_bind; [exact (fn_accept d p f g T Eg K1)|intros; apply accepted_some].
  - destruct T as [T1 T2]. exact (impl_accept d _ i t tr l mbs ms T1 T2 M K).
  - exact (trait_accept d p i l mbs ms T M K).
Qed.
