From Verif Require Import Base Meta_Types Path_Types Path_Spec Path_Model Path_Claims Path_Proofs
  Pub_Spec Pub_Model Pub_Claims Pub_Proofs Rty_Types Rty_Spec Rty_Model Rty_Claims.

(** ** Resolved types beside denoted ones *)
Section Shows.
  Variable w : world.
  Variable named : rpath -> list str -> str -> Prop.
  Definition kind_of (k : named_kind) (it : item) : Prop :=
    match k with
    | NRecord => exists b, i_kind it = KRecord b
    | NEnum => exists b, i_kind it = KEnum b
    | NObject => exists b, i_kind it = KObject b
    end.
  Inductive shows : sem -> rty -> Prop :=
  | sh_unit : shows MUnit RUnit
  | sh_base t : shows (MBase t) (RBase t)
  | sh_str : shows MStr RStr
  | sh_self : shows MSelf RSelf
  | sh_error : shows MCallbackError RCallbackError
  | sh_item k it up l x : kind_of k it -> named (it :: up) l x -> shows (MItem (it :: up)) (RNamed k l x)
  | sh_trait it up l x : i_kind it = KTrait -> named (it :: up) l x ->
      shows (MTrait (it :: up)) (RTrait (text l) x (w_trait w it))
  | sh_udl_trait it up mp x k : i_kind it = KUdl -> w_udl w it = TObject mp x (ITrait k) ->
      shows (MTrait (it :: up)) (RTrait mp x (ETrait k))
  | sh_udl_callback it up mp x : i_kind it = KUdl -> w_udl w it = TCallback mp x ->
      shows (MTrait (it :: up)) (RTrait mp x ECallback)
  | sh_udl it up : shows (MUdl (it :: up)) (RUdl (w_udl w it))
  | sh_custom q l x m t : named q l x -> shows m t -> shows (MCustom q m) (RCustom l x t)
  | sh_option m t : shows m t -> shows (MOption m) (ROption t)
  | sh_vec m t : shows m t -> shows (MVec m) (RVec t)
  | sh_arc m t : shows m t -> shows (MArc m) (RArc t)
  | sh_box m t : shows m t -> shows (MBox m) (RBox t)
  | sh_slice m t : shows m t -> shows (MSlice m) (RSlice t)
  | sh_set m t : shows m t -> shows (MSet m) (RSet t)
  | sh_map m t k u : shows m t -> shows k u -> shows (MMap m k) (RMap t u)
  | sh_result m t k u : shows m t -> shows k u -> shows (MResult m k) (RResult t u)
  | sh_ref b m t : shows m t -> shows (MRef b m) (RRef b t).

  (** What is recorded of a resolved type. *)
  Lemma meta_sound s R : forall m T, shows m R -> to_meta s R = Some T -> records w named s m T.
  Proof.
    induction R; intros m0 T SH E; cbn [to_meta] in E; try discriminate E.
    - injection E as <-. inversion SH; subst. constructor.
    - inversion SH; subst. now constructor.
    - inversion SH as [| | | | | k' it up l x' K N | | | | | | | | | | | | | | ]; subst.
      destruct k; destruct K as [b K]; injection E as <-; econstructor; eauto.
    - injection E as <-. inversion SH; subst. constructor.
    - inversion SH; subst. destruct (to_meta s R) as [u|]; [|discriminate]. injection E as <-. constructor; auto.
    - inversion SH; subst. destruct (to_meta s R) as [u|]; [|discriminate]. injection E as <-. constructor; auto.
    - inversion SH as [| | | | | | | | | | | | mm tt SH' | | | | | | |]; subst.
      assert (A : (R = RBase TU8 /\ T = TBytes) \/ (R <> RBase TU8 /\ option_map TSeq (to_meta s R) = Some T)).
      { destruct R; auto; try (right; split; [discriminate | exact E]).
        destruct t; try (right; split; [discriminate | exact E]). left. split; [reflexivity | now injection E as <-]. }
      destruct A as [[-> ->] | [NE A]]; [inversion SH'; subst; constructor|].
      destruct (to_meta s R) as [u|]; [|discriminate]. injection A as <-. constructor; auto.
      intros ->. inversion SH'; subst. congruence.
    - inversion SH as [| | | | | | | | | | | | | mm tt SH' | | | | | |]; subst.
      destruct R; try discriminate E.
      + inversion SH'; subst. now constructor.
      + destruct k; try discriminate E. injection E as <-.
        inversion SH' as [| | | | | k' it up l x' K N | | | | | | | | | | | | | | ]; subst. destruct K as [b K]. econstructor; eauto.
      + destruct e; try discriminate E. injection E as <-. inversion SH'; subst.
        * match goal with H : w_trait w _ = _ |- _ => rename H into WT end.
          constructor. rewrite <- WT. now constructor.
        * now constructor.
      + injection E as <-. inversion SH'; subst. constructor.
    - inversion SH as [| | | | | | | | | | | | | | mm tt SH' | | | | |]; subst.
      assert (A : (exists m x, R = RTrait m x ECallback /\ T = TCallback m x) \/
                  (exists m x, R = RUdl (TCallback m x) /\ T = TCallback m x) \/
                  ((forall m x, R <> RUdl (TCallback m x)) /\ option_map TBox (to_meta s R) = Some T)).
      { destruct R; try (right; right; split; [discriminate | exact E]).
        - destruct e; [left; exists m, x; split; [auto | now injection E as <-] | right; right; split; [discriminate | exact E]].
        - destruct t; try (right; right; split; [discriminate | exact E]).
          right; left. eexists _, _. split; [reflexivity | now injection E as <-]. }
      destruct A as [(m & x & -> & ->) | [(m & x & -> & ->) | [NE A]]].
      + inversion SH'; subst.
        * match goal with H : w_trait w _ = _ |- _ => rename H into WT end.
          constructor. rewrite <- WT. now constructor.
        * now constructor.
      + inversion SH'; subst. match goal with H : w_udl w _ = _ |- _ => rewrite H; now apply rc_box_udl end.
      + destruct (to_meta s R) as [u|]; [|discriminate]. injection A as <-. constructor; auto.
        intros it up mp x -> WU. inversion SH'; subst. rewrite WU in NE. now apply (NE mp x).
    - inversion SH; subst. destruct (to_meta s R) as [u|]; [|discriminate]. injection E as <-. constructor; auto.
    - inversion SH; subst. destruct (to_meta s R1) as [u|]; [|discriminate].
      destruct (to_meta s R2) as [v|]; [|discriminate]. injection E as <-. constructor; auto.
  Qed.
  Lemma trait_sound q m x e : shows (MTrait q) (RTrait m x e) ->
    (exists it up l, q = it :: up /\ trait_as w named q e l x /\ m = text l) \/
    (exists it up, q = it :: up /\ i_kind it = KUdl /\ w_udl w it = trait_meta m x e).
  Proof.
    intro SH. inversion SH; subst.
    - left. exists it, up, l. repeat split; auto; try now constructor.
    - right. exists it, up. repeat split; auto.
    - right. exists it, up. repeat split; auto.
  Qed.
  Lemma arg_meta_sound s R m T p : shows m R -> arg_meta s R = Some (T, p) -> as_arg w named s m T p.
  Proof.
    intros SH E.
    assert (V : forall R, shows m R -> option_map (fun t => (t, ByValue)) (to_meta s R) = Some (T, p) -> as_arg w named s m T p).
    { intros R' SH' E'. destruct (to_meta s R') as [u|] eqn:TM; [|discriminate]. injection E' as <- <-.
      constructor. eapply meta_sound; eauto. }
    destruct R; try (eapply V; [exact SH | exact E]). clear V.
    inversion SH as [| | | | | | | | | | | | | | | | | | | b m' t' SH']; subst.
    assert (V : forall R, shows m' R -> option_map (fun t => (t, ByRef)) (to_meta s R) = Some (T, p) ->
      as_arg w named s (MRef mutable m') T p).
    { intros R' SR E'. destruct (to_meta s R') as [u|] eqn:TM; [|discriminate]. injection E' as <- <-.
      constructor. eapply meta_sound; eauto. }
    cbn [arg_meta] in E. destruct R; try (eapply V; [exact SH' | exact E]).
    - injection E as <- <-. inversion SH'; subst. constructor.
    - injection E as <- <-. inversion SH'; subst.
      + eapply aa_dyn; [constructor; eauto | reflexivity].
      + cbn [trait_meta]. match goal with H : w_udl w _ = _ |- _ => rewrite <- H; now apply aa_dyn_udl end.
      + cbn [trait_meta]. match goal with H : w_udl w _ = _ |- _ => rewrite <- H; now apply aa_dyn_udl end.
    - inversion SH' as [| | | | | | | | | | | | | | | m2 t2 SH2 | | | |]; subst.
      destruct (to_meta s (RVec R)) as [u|] eqn:TM; [|discriminate]. cbn [option_map] in E.
      assert (RC : records w named s (MVec m2) u) by (eapply meta_sound; [constructor; exact SH2 | exact TM]).
      destruct mutable; cbn [andb] in E; [|injection E as <- <-; constructor; auto].
      destruct u; try (injection E as <- <-; constructor; [exact RC | right; discriminate]).
      injection E as <- <-. inversion RC; subst. constructor.
  Qed.
  Lemma result_meta_sound s R m T e : shows m R -> result_meta s R = Some (T, e) -> as_result w named s m T e.
  Proof.
    intros SH E.
    assert (V : forall R, shows m R -> option_map (fun t => (Some t, None)) (to_meta s R) = Some (T, e) ->
      as_result w named s m T e).
    { intros R' SR E'. destruct (to_meta s R') as [u|] eqn:TM; [|discriminate]. injection E' as <- <-.
      constructor. eapply meta_sound; eauto. }
    destruct R; try (eapply V; [exact SH | exact E]); clear V; cbn [result_meta] in E.
    - injection E as <- <-. inversion SH; subst. constructor.
    - inversion SH as [| | | | | | | | | | | | | | | | | | m1 t1 k u S1 S2 |]; subst.
      destruct (to_meta s R2) as [v|] eqn:T2; [|destruct R1; discriminate].
      assert (V : option_map (fun t => (Some t, Some v)) (to_meta s R1) = Some (T, e) ->
        as_result w named s (MResult m1 k) T e).
      { intros E'. destruct (to_meta s R1) as [u|] eqn:TM; [|discriminate]. injection E' as <- <-.
        constructor; eapply meta_sound; eauto. }
      destruct R1; try (apply V; exact E). injection E as <- <-. inversion S1; subst.
      constructor. eapply meta_sound; eauto.
  Qed.
  (** What can be recorded is. *)
  Ltac inv H := inversion H; subst; clear H.
  Ltac next IH H := let T' := fresh "T" in let E := fresh "E" in destruct (IH _ H) as [T' E].
  Lemma meta_found s m T : records w named s m T -> forall R, shows m R -> exists T', to_meta s R = Some T'.
  Proof.
    intro RC. induction RC; intros R SH; inv SH; cbn [to_meta];
      repeat match goal with
      | S : shows ?m _, IH : forall R, shows ?m R -> exists _, _ |- _ =>
          let T := fresh "T" in let E := fresh "E" in destruct (IH _ S) as [T E]; clear IH
      end; eauto;
      repeat match goal with E : to_meta s _ = Some _ |- context [option_map _ (to_meta s _)] => rewrite E; cbn [option_map] end; eauto.
    all: try (match goal with k : named_kind |- _ => destruct k end; eauto; fail).
    all: try (match goal with T : trait_as _ _ _ _ _ _ |- _ => inv T end).
    all: try (match goal with S : shows (MTrait _) _ |- _ => inv S end; try congruence).
    all: try (match goal with S : shows (MItem _) _ |- _ => inv S end).
    all: try (match goal with S : shows (MUdl _) _ |- _ => inv S end).
    all: try (match goal with S : shows MSelf _ |- _ => inv S end).
    all: try (match goal with S : shows (MBase _) _ |- _ => inv S end).
    all: eauto.
    all: try (match goal with E : w_trait w _ = _ |- _ => rewrite E; eauto end; fail).
    all: try (match goal with E : w_udl w _ = _ |- _ => rewrite E; eauto end; fail).
    - match goal with K : kind_of ?k _ |- _ => destruct k, K as [? K] end; try congruence. eauto.
    - destruct t0; eauto. match goal with |- context [match ?u with TU8 => _ | _ => _ end] => destruct u; eauto end.
    - repeat match goal with E : to_meta s _ = Some _ |- _ => rewrite E; clear E end. eauto.
    - destruct t0; eauto.
      + match goal with |- context [match ?u with ECallback => _ | ETrait _ => _ end] => destruct u; eauto end.
      + match goal with |- context [match ?u with TCallback _ _ => _ | _ => _ end] => destruct u; eauto end.
  Qed.
End Shows.

(** ** Parameters *)
Lemma param_none {A} (env : list (str * A)) p args : is_param (map fst env) p args = false <-> param_of env p args = None.
Proof.
  unfold is_param, param_of. destruct (lead p); [easy|]. destruct (segs p) as [| x [| y l]]; [easy| |easy].
  destruct args; [|easy]. induction env as [| [y a] env IH]; cbn; [easy|].
  destruct (bytes_eqb_spec y x) as [-> | NE].
  - destruct (bytes_eqb_spec x x); [|congruence]. easy.
  - destruct (bytes_eqb_spec x y); [congruence|]. exact IH.
Qed.

Definition mentions_arg (xs : list str) (g : garg) : bool := match g with GType t => mentions xs t | GOther => false end.
Lemma mentions_path xs p args : mentions xs (SPath p args) = is_param xs p args || existsb (mentions_arg xs) args.
Proof.
  cbn [mentions]. f_equal. induction args as [| g args IH]; [reflexivity|]. cbn [existsb]. destruct g; cbn [mentions_arg]; now rewrite IH.
Qed.
Definition only_arg (g : garg) : bool := match g with GType t => only_types t | GOther => false end.
Lemma only_path p args : only_types (SPath p args) = forallb only_arg args.
Proof.
  cbn [only_types]. induction args as [| g args IH]; [reflexivity|]. cbn [forallb]. destruct g; cbn [only_arg]; [|reflexivity]. now rewrite IH.
Qed.
Lemma is_param_nil p args : is_param [] p args = false.
Proof. unfold is_param. destruct (lead p); auto. destruct (segs p) as [| x [| y l]]; auto. now destruct args. Qed.
Lemma mentions_incl xs ys : incl xs ys -> forall t, mentions ys t = false -> mentions xs t = false.
Proof.
  intro I. assert (IP : forall p args, is_param ys p args = false -> is_param xs p args = false).
  { intros p args. unfold is_param. destruct (lead p); auto. destruct (segs p) as [| x [| y l]]; auto.
    destruct args; auto. intro E. apply not_true_is_false. intro E'. apply existsb_exists in E' as (y & Iy & Ey).
    apply not_true_iff_false in E. apply E. apply existsb_exists. eauto. }
  fix IH 1. intros [p args | b t | t | | t | l |]; try (exact (IH t)); try reflexivity.
  intro E. cbn [mentions] in *. apply orb_false_elim in E as [A B]. rewrite (IP _ _ A). cbn [orb]. clear A. revert B.
  induction args as [| [u|] args IA]; auto. intro B. apply orb_false_elim in B as [A B]. now rewrite (IH u A), (IA B).
Qed.
Lemma mentions_nil t : mentions [] t = false.
Proof.
  revert t. fix IH 1. intros [p args | b t | t | | t | l |]; try (exact (IH t)); try reflexivity.
  cbn [mentions]. rewrite is_param_nil. cbn [orb]. induction args as [| [u|] args IA]; auto. now rewrite (IH u), IA.
Qed.
Lemma plain_nil t : plain_type [] t = true.
Proof.
  revert t. fix IH 1. intros [p args | b t | t | | t | l |]; cbn [plain_type]; try (exact (IH t)); try reflexivity.
  rewrite is_param_nil. cbn [negb andb]. apply forallb_forall. intros [u|] _; [|reflexivity]. cbn [plain_arg].
  rewrite mentions_nil. destruct u; try reflexivity. now rewrite is_param_nil.
Qed.
Scheme denotes_mut := Minimality for denotes Sort Prop with given_mut := Minimality for given_args Sort Prop.
Combined Scheme denotes_both from denotes_mut, given_mut.
Lemma type_args_mentions xs args : existsb (mentions_arg xs) args = false -> Forall (fun t => mentions xs t = false) (type_args args).
Proof.
  induction args as [| [t|] args IH]; cbn [existsb type_args mentions_arg]; [constructor| |auto].
  intro E. apply orb_false_elim in E as [A B]. constructor; auto.
Qed.
(** Types that mention no parameters mean the same with them. *)
Lemma weaken_both w to :
  (forall self env t m, denotes w to self env t m -> env = [] -> forall env', mentions (map fst env') t = false ->
     denotes w to self env' t m) /\
  (forall self env up before ps args e, given_args w to self env up before ps args e -> env = [] ->
     forall env', Forall (fun t => mentions (map fst env') t = false) args -> given_args w to self env' up before ps args e).
Proof.
  apply denotes_both; intros; subst env; try rewrite mentions_path in *;
    repeat match goal with
    | E : _ || _ = false |- _ => apply orb_false_elim in E as [? ?]
    | E : is_param _ _ _ = false |- _ => apply param_none in E
    | E : existsb (mentions_arg _) _ = false |- _ => apply type_args_mentions in E
    end; try (econstructor; eauto; fail).
  - exfalso. match goal with E : param_of [] _ _ = Some _ |- _ => revert E end. unfold param_of. cbn [assoc].
    destruct (lead p); [discriminate|]. now destruct (segs p) as [| x [| y l]].
  - match goal with E : type_args args = _, F : Forall _ (type_args args) |- _ => rewrite E in F; inversion F; subst end.
    eapply dn_generic1; eauto.
  - match goal with E : type_args args = _, F : Forall _ (type_args args) |- _ => rewrite E in F; inversion F as [| ? ? F1 F2]; subst; inversion F2; subst end.
    eapply dn_generic2; eauto.
  - match goal with F : Forall _ (_ :: _) |- _ => inversion F; subst end. econstructor; eauto.
Qed.
Lemma weaken w to self env t m : denotes w to self [] t m -> mentions (map fst env) t = false -> denotes w to self env t m.
Proof. intros D M. exact (proj1 (weaken_both w to) _ _ _ _ D eq_refl _ M). Qed.

(** ** What is resolved is what the type may denote *)
Lemma nominal_asked r it up : tree r -> place r (it :: up) -> nominal it = true -> exists root, asked (it :: up) it root.
Proof.
  intros (_ & T2 & _) P N. inversion P as [x i I | p m self i P' K I | b]; subst.
  - destruct (T2 _ _ I) as [k K]. unfold nominal in N. rewrite K in N. discriminate.
  - destruct (rev (it :: p :: self)) as [| root l] eqn:RV.
    + apply (f_equal (@length item)) in RV. rewrite rev_length in RV. discriminate.
    + exists root. exists p, self. split; auto. unfold crate_of. now rewrite RV.
  - discriminate.
Qed.
Lemma nominal_name it up : nominal it = true -> has_name (it :: up).
Proof.
  intro N. exists it, up. split; auto. unfold nominal in N. unfold ident. destruct (i_kind it); discriminate.
Qed.
Lemma kind_nominal k it : kind_of k it -> nominal it = true.
Proof. unfold nominal. destruct k; intros [b ->]; reflexivity. Qed.
Lemma known0_simple x : match known0 x, simple x with
  | Some t, Some m => forall w named, shows w named m t
  | None, None => True
  | _, _ => False
  end.
Proof.
  unfold known0, simple. cbn [assoc].
  repeat match goal with |- context [bytes_eqb ?a x] => destruct (bytes_eqb_spec a x); [subst; vm_compute; intros; constructor|] end.
  exact I.
Qed.
Definition same1 (f : rty -> rty) (g : sem -> sem) : Prop := forall w named m t, shows w named m t -> shows w named (g m) (f t).
Lemma known1_generic x : match known1 x, generic1 x with
  | Some f, Some g => same1 f g
  | None, None => True
  | _, _ => False
  end.
Proof.
  unfold known1, generic1. cbn [assoc].
  repeat match goal with |- context [bytes_eqb ?a x] => destruct (bytes_eqb_spec a x); [intros ? ? ? ? ?; now constructor|] end.
  exact I.
Qed.
Definition same2 (f : rty -> rty -> rty) (g : sem -> sem -> sem) : Prop :=
  forall w named m t k u, shows w named m t -> shows w named k u -> shows w named (g m k) (f t u).
Lemma known2_generic x : match known2 x, generic2 x with
  | Some f, Some g => same2 f g
  | None, None => True
  | _, _ => False
  end.
Proof.
  unfold known2, generic2. cbn [assoc].
  repeat match goal with |- context [bytes_eqb ?a x] => destruct (bytes_eqb_spec a x); [intros ? ? ? ? ? ? ? ?; now constructor|] end.
  exact I.
Qed.

Section Sound.
  Variable w : world.
  Let r := w_ir w.
  Hypothesis TR : tree r.
  Hypothesis OWN : own_addresses r.
  Hypothesis ONE : one_of_each r.
  Hypothesis PL : plain w.
  Variable d b : nat.
  Notation sh := (shows w (named_somehow r)).
  Notation dn := (denotes w (may_be w)).
  Definition rel_env : list (str * sem) -> list (str * rty) -> Prop :=
    Forall2 (fun a b => fst a = fst b /\ sh (snd a) (snd b)).
  Lemma rel_fst me e : rel_env me e -> map fst me = map fst e.
  Proof. induction 1 as [| [x m] [y t] me e [E _] _ IH]; auto. cbn in *. congruence. Qed.
  Lemma rel_param me e p args t : rel_env me e -> param_of e p args = Some t ->
    exists m, param_of me p args = Some m /\ sh m t.
  Proof.
    intro RE. unfold param_of. destruct (lead p); [discriminate|]. destruct (segs p) as [| x [| y l]]; try discriminate.
    destruct args; [|discriminate]. induction RE as [| [y m] [z u] me e [E S] _ IH]; [discriminate|]. cbn in *. subst z.
    destruct (bytes_eqb y x); [|exact IH]. intros [= <-]. eauto.
  Qed.
  Lemma rel_none me e p args : rel_env me e -> param_of e p args = None -> param_of me p args = None.
  Proof. intros RE E. apply param_none. rewrite (rel_fst _ _ RE). now apply param_none. Qed.
  Lemma find_sound self p c o c' : place r self -> reached r d b c -> find_path w d self p c = Some (o, c') ->
    reached r d b c' /\ (forall q, o = Found q -> place r q /\ may_be w self p q).
  Proof.
    intros P RC E. unfold find_path in E. fold r in E.
    destruct (lookup r d self p NsType (p_cache c)) as [[o1 c1]|] eqn:L; [|discriminate]. injection E as <- <-.
    split; [eapply reached_look; eauto|].
    exact (proj1 (proj2 (lookup_ready _ _ _ _ _ _ _ _ TR P (reached_ready _ _ _ _ TR RC) L))).
  Qed.
  Lemma named_sound k it up c o c' : place r (it :: up) -> kind_of k it -> reached r d b c ->
    named_at w d b k (it :: up) c = Some (o, c') ->
    reached r d b c' /\ (forall t, o = Found t -> sh (MItem (it :: up)) t).
  Proof.
    intros P K RC E. pose proof (kind_nominal _ _ K) as N. destruct (nominal_asked _ _ _ TR P N) as [root AS].
    unfold named_at, bind in E. fold r in E.
    destruct (public r d b (it :: up) c) as [[[[nm|] | e] c1]|] eqn:PU; try discriminate E; injection E as <- <-;
      (split; [eapply reached_public; eauto using nominal_name|]; intros t' [= <-]).
    constructor; auto. unfold named_somehow.
    assert (NP : named_publicly r (it :: up) (n_module nm) (n_name nm)).
    { exists it, root, nm. repeat split; auto;
      destruct (pub_cached_proof _ _ _ _ _ _ _ _ _ TR OWN ONE P (nominal_name _ _ N) AS RC PU); auto. }
    unfold nominal in N. destruct (i_kind it); try discriminate; exact NP.
  Qed.
  Definition good {A} (c : M pcache A) (ok : A -> Prop) : Prop :=
    forall s o s', reached r d b s -> c s = Some (o, s') -> reached r d b s' /\ (forall a, o = Found a -> ok a).
  Lemma good_ret {A} (a : A) (ok : A -> Prop) : ok a -> good (ret a) ok.
  Proof. intros H s o s' RC [= <- <-]. split; auto. now intros a' [= <-]. Qed.
  Lemma good_fail {A} e (ok : A -> Prop) : good (fail e) ok.
  Proof. intros s o s' RC [= <- <-]. split; auto. discriminate. Qed.
  Lemma good_bind {A B} (x : M pcache A) (f : A -> M pcache B) ok ok' : good x ok -> (forall a, ok a -> good (f a) ok') ->
    good (bind x f) ok'.
  Proof.
    intros GX GF s o s' RC E. unfold bind in E. destruct (x s) as [[[a | e] s1]|] eqn:X; try discriminate E.
    - destruct (GX _ _ _ RC X) as [R1 O1]. exact (GF a (O1 a eq_refl) _ _ _ R1 E).
    - injection E as <- <-. destruct (GX _ _ _ RC X) as [R1 O1]. split; auto. discriminate.
  Qed.
  Lemma good_none {A} (ok : A -> Prop) : good (fun _ => None) ok.
  Proof. intros s o s' _ E. discriminate. Qed.
  Section Step.
    Variable again : rpath -> sty -> list (list str) -> list (str * rty) -> M pcache rty.
    Definition resolves self t seen env me : Prop :=
      place r self -> plain_type (map fst me) t = true -> existsb (bytes_eqb self_name) (map fst me) = false ->
      rel_env me env -> good (again self t seen env) (fun R => exists m, dn self me t m /\ sh m R).
    Hypothesis HA : forall self t seen env me, resolves self t seen env me.
    Lemma alone self t : place r self -> good (again self t [] []) (fun R => exists m, dn self [] t m /\ sh m R).
    Proof. intro P. apply (HA self t [] [] []); auto. - apply plain_nil. - constructor. Qed.
    Lemma not_self (me : list (str * sem)) p args m : existsb (bytes_eqb self_name) (map fst me) = false -> param_of me p args = Some m ->
      args = [] /\ is_self p args = false.
    Proof.
      intros NS E. unfold param_of in E. unfold is_self. destruct (lead p); [discriminate|].
      destruct (segs p) as [| x [| y l]]; try discriminate. destruct args; [|discriminate]. split; auto.
      induction me as [| [y a] me IH]; [discriminate|]. cbn [map fst existsb assoc] in *. apply orb_false_elim in NS as [A B].
      destruct (bytes_eqb_spec y x) as [-> | NE]; [|exact (IH B E)].
      apply not_true_is_false. intro X. apply eqb_eq in X. subst x. rewrite eqb_refl in A. discriminate.
    Qed.
    Lemma garg_sound self env me g : place r self -> existsb (bytes_eqb self_name) (map fst me) = false -> rel_env me env ->
      plain_arg (map fst me) g = true ->
      good (garg_type again self env g) (fun R => exists t m, g = GType t /\ dn self me t m /\ sh m R).
    Proof.
      intros P NS RE PA. destruct g as [t|]; [|apply good_fail]. cbn [garg_type].
      assert (A : mentions (map fst me) t = false ->
        good (again self t [] []) (fun R => exists u m, GType t = GType u /\ dn self me u m /\ sh m R)).
      { intros ME s o s' RC E. destruct (alone self t P s o s' RC E) as [R1 O1]. split; auto.
        intros R Q. destruct (O1 R Q) as (m & D & S). exists t, m. split; auto. split; auto. now apply weaken. }
      destruct t as [p args | | | | | |];
        try (apply A; cbn [plain_arg] in PA; now apply negb_true_iff in PA).
      destruct (param_of env p args) as [t|] eqn:PE.
      - apply good_ret. destruct (rel_param _ _ _ _ _ RE PE) as (m & PM & S).
        destruct (not_self _ _ _ _ NS PM) as [-> IS]. exists (SPath p []), m. split; auto. split; auto. now constructor.
      - apply A. cbn [plain_arg] in PA. pose proof (rel_none _ _ _ _ RE PE) as PN. apply param_none in PN.
        rewrite PN in PA. now apply negb_true_iff in PA.
    Qed.
    Lemma params_sound self env me up : place r self -> place r up -> existsb (bytes_eqb self_name) (map fst me) = false ->
      rel_env me env -> forall ps args before, forallb (plain_arg (map fst me)) args = true ->
      (forall x t, In (x, Some t) ps -> mentions (map fst before ++ map fst ps) t = false) ->
      (length args <= length ps)%nat ->
      good (params again self env up ps args)
        (fun e => exists me', rel_env me' e /\ map fst me' = map fst ps /\
           given_args w (may_be w) self me up before ps (type_args args) (before ++ me')).
    Proof.
      intros P PU NS RE. induction ps as [| [x dflt] ps IH]; intros args before PA DF LE.
      - destruct args; [|cbn in LE; lia]. cbn [params type_args]. apply good_ret. exists [].
        split; [constructor|]. split; [reflexivity|]. rewrite app_nil_r. constructor.
      - assert (DF' : forall m y t, In (y, Some t) ps -> mentions (map fst (before ++ [(x, m)]) ++ map fst ps) t = false).
        { intros m y t I. rewrite map_app, <- app_assoc. apply (DF y t). now right. }
        destruct args as [| g args]; cbn [params].
        + destruct dflt as [t|]; [|apply good_fail]. eapply good_bind; [apply (alone up t PU)|].
          intros R (m & D & S). eapply good_bind; [apply (IH [] (before ++ [(x, m)])); auto; [apply DF' | cbn; lia]|].
          intros e (me' & R1 & F1 & G1). apply good_ret. exists ((x, m) :: me'). split; [constructor; auto|].
          split; [cbn; congruence|]. rewrite <- app_assoc in G1. cbn [type_args]. eapply ga_default; [|exact G1].
          apply weaken; auto. eapply mentions_incl; [|apply (DF x t); now left]. apply incl_appl, incl_refl.
        + cbn [forallb] in PA. apply andb_prop in PA as [PG PA]. cbn in LE.
          eapply good_bind; [apply (garg_sound self env me g); auto|]. intros R (t & m & -> & D & S).
          eapply good_bind; [apply (IH args (before ++ [(x, m)])); auto; [apply DF' | lia]|].
          intros e (me' & R1 & F1 & G1). apply good_ret. exists ((x, m) :: me'). split; [constructor; auto|].
          split; [cbn; congruence|]. rewrite <- app_assoc in G1. cbn [type_args]. eapply ga_arg; [exact D | exact G1].
    Qed.
    Lemma known_sound self env me p args s0 it up : place r self -> is_self p args = false -> param_of me p args = None ->
      existsb (bytes_eqb self_name) (map fst me) = false -> rel_env me env -> forallb (plain_arg (map fst me)) args = true ->
      may_be w self p (it :: up) -> i_kind it = KStd s0 ->
      good (known_type again self env s0 args) (fun R => exists m, dn self me (SPath p args) m /\ sh m R).
    Proof.
      intros P IS PN NS RE PA TO KS. destruct s0 as [x | x]; [|apply good_fail]. cbn [known_type].
      pose proof (known0_simple x) as K0. pose proof (known1_generic x) as K1. pose proof (known2_generic x) as K2.
      destruct (known1 x) as [f1|]; [destruct (generic1 x) as [g1|] eqn:G1; [|easy]|].
      - destruct args as [| g [| h args]]; try apply good_fail. cbn [forallb] in PA. apply andb_prop in PA as [PG _].
        eapply good_bind; [apply (garg_sound self env me g); auto|]. intros R (t & m & -> & D & S). apply good_ret.
        exists (g1 m). split; [|now apply K1]. eapply dn_generic1; eauto; reflexivity.
      - clear K1. destruct (known2 x) as [f2|]; [destruct (generic2 x) as [g2|] eqn:G2; [|easy]|].
        + destruct args as [| g [| h [| i args]]]; try apply good_fail. cbn [forallb] in PA.
          apply andb_prop in PA as [PG PA]. apply andb_prop in PA as [PH _].
          eapply good_bind; [apply (garg_sound self env me g); auto|]. intros R (t & m & -> & D & S).
          eapply good_bind; [apply (garg_sound self env me h); auto|]. intros R' (u & k & -> & D' & S'). apply good_ret.
          exists (g2 m k). split; [|now apply K2]. eapply dn_generic2; eauto; reflexivity.
        + destruct (known0 x) as [R|]; [|apply good_fail]. destruct (simple x) as [m|] eqn:SI; [|easy].
          destruct args; [|apply good_fail]. cbn [no_args]. apply good_ret. exists m. split; [|apply K0].
          eapply dn_simple; eauto.
    Qed.
    Lemma in_plain it : plain_alias (w_alias w it) = true ->
      let ps := a_params (w_alias w it) in
      existsb (bytes_eqb self_name) (map fst ps) = false /\ plain_type (map fst ps) (a_ty (w_alias w it)) = true /\
      (forall x t, In (x, Some t) ps -> mentions (map fst ps) t = false).
    Proof.
      intro E. unfold plain_alias in E. apply andb_prop in E as [E C]. apply andb_prop in E as [A B].
      apply negb_true_iff in A. split; auto. split; auto. intros x t I.
      rewrite forallb_forall in C. specialize (C _ I). cbn in C. now apply negb_true_iff in C.
    Qed.
    Lemma named_at_sound self me p it up k : place r (it :: up) -> is_self p [] = false -> param_of me p [] = None ->
      may_be w self p (it :: up) -> kind_of k it ->
      good (named_at w d b k (it :: up)) (fun R => exists m, dn self me (SPath p []) m /\ sh m R).
    Proof.
      intros P IS PN TO K s o s' RC E. destruct (named_sound _ _ _ _ _ _ P K RC E) as [R1 O1]. split; auto.
      intros R Q. exists (MItem (it :: up)). split; auto. eapply dn_item; eauto using kind_nominal.
    Qed.
    Lemma item_sound self seen env me p args it up : place r self -> place r (it :: up) ->
      is_self p args = false -> param_of me p args = None ->
      existsb (bytes_eqb self_name) (map fst me) = false -> rel_env me env -> forallb (plain_arg (map fst me)) args = true ->
      may_be w self p (it :: up) ->
      good (item_type w d b again self seen env it up args) (fun R => exists m, dn self me (SPath p args) m /\ sh m R).
    Proof.
      intros P PI IS PN NS RE PA TO. unfold item_type.
      destruct (i_kind it) as [m| rr | rr | rr | | | | | | p' | p' | p' | | | s0] eqn:K; try apply good_fail.
      - destruct args; [|apply good_fail]. eapply named_at_sound; eauto. cbn. eauto.
      - destruct args; [|apply good_fail]. eapply named_at_sound; eauto. cbn. eauto.
      - destruct args; [|apply good_fail]. eapply named_at_sound; eauto. cbn. eauto.
      - destruct (existsb _ seen); [apply good_fail|]. destruct up as [| a up]; [apply good_fail|].
        set (ps := a_params (w_alias w it)). destruct (Nat.ltb_spec (length ps) (length args)); [apply good_fail|].
        assert (PU : place r (a :: up)) by (eapply place_tail; [exact PI | discriminate]).
        destruct (in_plain it (PL it)) as (A1 & A2 & A3). fold ps in A1, A2, A3.
        eapply good_bind; [apply (params_sound self env me (a :: up) P PU NS RE ps args []); auto|].
        intros e (me' & R1 & F1 & G1).
        intros s o s' RC E. destruct (HA (a :: up) (a_ty (w_alias w it)) (path_of (it :: a :: up) :: seen) e me') with (5 := RC) (6 := E)
          as [R2 O2]; auto; try (rewrite F1; auto; fail).
        split; auto. intros R Q. destruct (O2 R Q) as (m & D & S). exists m. split; auto. eapply dn_alias; eauto.
      - destruct up as [| a up]; [apply good_fail|].
        assert (PU : place r (a :: up)) by (eapply place_tail; [exact PI | discriminate]).
        eapply good_bind.
        + apply (HA (a :: up) (w_custom w it) seen [] []); auto; [apply plain_nil | constructor].
        + intros R (m & D & S). apply good_ret. exists (MCustom (it :: a :: up) m). split; [eapply dn_custom; eauto|].
          constructor; auto. unfold named_somehow. rewrite K. auto.
      - apply good_ret. exists (MUdl (it :: up)). split; [eapply dn_udl; eauto | constructor].
      - eapply known_sound; eauto.
    Qed.
    Lemma dyn_sound self me p it up : place r self -> may_be w self p (it :: up) ->
      good (dyn_type w self it) (fun R => exists m, dn self me (SDyn [p]) m /\ sh m R).
    Proof.
      intros P TO. unfold dyn_type. destruct (i_kind it) eqn:K; try apply good_fail.
      - apply good_ret. exists (MTrait (it :: up)). split; [eapply dn_dyn; eauto|]. constructor; auto.
        unfold named_somehow. rewrite K. split; auto. eauto.
      - destruct (w_udl w it) as [| | | | | | | | | | | | | | | mp x imp | | | | | | | | |] eqn:U; try apply good_fail; try (destruct imp as [| k]; try apply good_fail).
        + apply good_ret. exists (MTrait (it :: up)). split; [eapply dn_dyn_udl; eauto; now rewrite U | now constructor].
        + apply good_ret. exists (MTrait (it :: up)). split; [eapply dn_dyn_udl; eauto; now rewrite U | now constructor].
    Qed.
    Lemma one_sound self t seen env me : place r self -> plain_type (map fst me) t = true ->
      existsb (bytes_eqb self_name) (map fst me) = false -> rel_env me env ->
      good (one_type w d b again self t seen env) (fun R => exists m, dn self me t m /\ sh m R).
    Proof.
      intros P PT NS RE. destruct t as [p args | mu t | t | | t | bs |]; cbn [one_type plain_type] in *.
      - destruct (is_self p args) eqn:IS.
        + apply good_ret. exists MSelf. split; [|constructor]. assert (args = []) as ->.
          { unfold is_self in IS. destruct (lead p); [discriminate|]. destruct (segs p) as [| x [| y l]]; try discriminate.
            now destruct args. }
          now constructor.
        + apply andb_prop in PT as [PN PA]. apply negb_true_iff, param_none in PN.
          eapply good_bind; [intros s o s' RC E; exact (find_sound _ _ _ _ _ P RC E)|].
          intros q [PQ TO]. destruct q as [| it up]; [apply good_fail|]. eapply item_sound; eauto.
      - eapply good_bind; [apply (HA self t seen env me); auto|]. intros R (m & D & S). apply good_ret.
        exists (MRef mu m). split; now constructor.
      - eapply good_bind; [apply (HA self t seen env me); auto|]. intros R (m & D & S). apply good_ret.
        exists (MSlice m). split; now constructor.
      - apply good_ret. exists MUnit. split; constructor.
      - intros s o s' RC E. destruct (HA self t seen env me P PT NS RE _ _ _ RC E) as [R1 O1]. split; auto.
        intros R Q. destruct (O1 R Q) as (m & D & S). exists m. split; auto. now constructor.
      - destruct bs as [| p [| p' bs]]; try apply good_fail.
        eapply good_bind; [intros s o s' RC E; exact (find_sound _ _ _ _ _ P RC E)|].
        intros q [PQ TO]. destruct q as [| it up]; [apply good_fail|]. eapply dyn_sound; eauto.
      - apply good_fail.
    Qed.
  End Step.
  Lemma rtype_sound f : forall self t seen env me, resolves (rtype w d b f) self t seen env me.
  Proof.
    induction f as [| f IH]; intros self t seen env me P PT NS RE; [apply good_none|].
    cbn [rtype]. apply one_sound; auto.
  Qed.
  Lemma rtype_top f self t c R c' : place r self -> reached r d b c -> rtype w d b f self t [] [] c = Some (Found R, c') ->
    exists m, dn self [] t m /\ sh m R.
  Proof.
    intros P RC E. destruct (rtype_sound f self t [] [] [] P (plain_nil t) eq_refl (Forall2_nil _) _ _ _ RC E) as [_ A]. auto.
  Qed.
End Sound.
Lemma type_sound_proof : type_sound plain named_somehow.
Proof.
  intros w d b f s self t c T c' TR OWN ONE PL P RC E. unfold as_type, bind in E.
  destruct (rtype w d b f self t [] [] c) as [[[R | e] c1]|] eqn:RT; try discriminate E.
  destruct (rtype_top w TR OWN ONE PL d b f self t c R c1 P RC RT) as (m & D & S). exists m. split; auto.
  destruct (to_meta s R) as [T'|] eqn:TM; [|discriminate]. injection E as <- <-. eapply meta_sound; eauto.
Qed.
Lemma arg_sound_proof : arg_sound plain named_somehow.
Proof.
  intros w d b f s self t c T p c' TR OWN ONE PL P RC E. unfold as_argument, bind in E.
  destruct (rtype w d b f self t [] [] c) as [[[R | e] c1]|] eqn:RT; try discriminate E.
  destruct (rtype_top w TR OWN ONE PL d b f self t c R c1 P RC RT) as (m & D & S). exists m. split; auto.
  destruct (arg_meta s R) as [T'|] eqn:TM; [|discriminate]. injection E as -> <-. eapply arg_meta_sound; eauto.
Qed.
Lemma return_sound_proof : return_sound plain named_somehow.
Proof.
  intros w d b f s self t c T e c' TR OWN ONE PL P RC E. unfold as_return, bind in E.
  destruct (rtype w d b f self t [] [] c) as [[[R | e'] c1]|] eqn:RT; try discriminate E.
  destruct (rtype_top w TR OWN ONE PL d b f self t c R c1 P RC RT) as (m & D & S). exists m. split; auto.
  destruct (result_meta s R) as [T'|] eqn:TM; [|discriminate]. injection E as -> <-. eapply result_meta_sound; eauto.
Qed.
Lemma self_sound_proof : self_sound.
Proof.
  intros w d b f self t c a c' TR OWN ONE PL P RC E. unfold as_self, bind in E.
  destruct (rtype w d b f self t [] [] c) as [[[R | e'] c1]|] eqn:RT; try discriminate E.
  destruct (rtype_top w TR OWN ONE PL d b f self t c R c1 P RC RT) as (m & D & S).
  destruct R as [| | | | | | | | | | | u | | | | | | [] u]; cbn [self_meta] in E; try discriminate E; destruct u; try discriminate E.
  all: injection E as <- <-; inversion S as [| | | | | | | | | | | | | ? ? S' | | | | | | ? ? ? S']; subst; inversion S'; subst; exact D.
Qed.


(** ** A type that denotes something is resolved to that *)
Lemma refers_place r self p n q : tree r -> place r self -> refers r self p n (Some q) -> place r q.
Proof.
  intros TR P RI. destruct (refers_found _ _ _ _ _ RI P) as (E & RE).
  destruct (resolve_unary r unit (pure r E) (fun _ => True)) with (4 := RE) as [_ G]; auto.
  - intros self0 x0 n0 s0 o0 s0' PS _ EE. eapply pure_sound; eauto.
  - exact (proj1 (G _ eq_refl)).
Qed.
Lemma lookup_any r p : exists k, forall d self n c, (k <= d)%nat -> ready r c -> exists o c', lookup r d self p n c = Some (o, c').
Proof.
  set (U := all_names r [([], p, NsType)]). exists (length (all_keys r U) + 2)%nat.
  intros d self n c LD (_ & _ & BU).
  assert (IU : forall m it, In it (items_of r m) -> incl (Path_Claims.path_names it) U).
  { intros m it I y Iy. apply items_in in I as (its & A & B). unfold U, all_names. apply in_or_app. left.
    apply in_flat_map. exists (m, its). split; auto. cbn [snd]. apply in_flat_map. eauto. }
  destruct (resolve_total r cache (child r d) (fun s => c_busy s = []) U) with (self := self) (p := p) (n := n) (s := c)
      as (o & c1 & E & B1); auto.
  - intros self2 x2 n2 s X2 B2. destruct (child_total r U IU d self2 x2 n2 s X2) as (o & c' & E & B3).
    + rewrite B2. constructor.
    + rewrite B2. intros ? [].
    + lia.
    + exists o, c'. split; auto. congruence.
  - intros y Iy. unfold U, all_names. apply in_or_app. right. cbn. now rewrite app_nil_r.
  - unfold lookup. eauto.
Qed.
Inductive chain (w : world) : rpath -> sty -> list rpath -> Prop :=
| ch_paren self t l : chain w self t l -> chain w self (SParen t) l
| ch_ref self b t l : chain w self t l -> chain w self (SRef b t) l
| ch_slice self t l : chain w self t l -> chain w self (SSlice t) l
| ch_unit self : chain w self SUnit []
| ch_dyn self bs : chain w self (SDyn bs) []
| ch_self self p args : is_self p args = true -> chain w self (SPath p args) []
| ch_leaf self p args it up : is_self p args = false -> is_ w self p (it :: up) -> i_kind it <> KType -> i_kind it <> KCustom ->
    chain w self (SPath p args) []
| ch_custom self p args it up l : is_self p args = false -> is_ w self p (it :: up) -> i_kind it = KCustom ->
    place (w_ir w) up -> chain w up (w_custom w it) l -> chain w self (SPath p args) l
| ch_alias self p args it up l : is_self p args = false -> is_ w self p (it :: up) -> i_kind it = KType ->
    place (w_ir w) (it :: up) -> place (w_ir w) up -> chain w up (a_ty (w_alias w it)) l -> chain w self (SPath p args) ((it :: up) :: l).

Section Complete.
  Variable w : world.
  Let r := w_ir w.
  Hypothesis TR : tree r.
  Hypothesis OWN : own_addresses r.
  Hypothesis ONE : one_of_each r.
  Hypothesis ST : settled r NsType.
  Hypothesis OFF : all_offered r.
  Hypothesis PL : plain w.
  Hypothesis TY : types_only w.
  Notation sh := (shows w (named_somehow r)).
  Notation rel := (rel_env w).
  Lemma is_one self p a b : place r self -> is_ w self p a -> is_ w self p b -> a = b.
  Proof. intros P A B. pose proof (one_meaning_proof _ _ _ _ _ _ TR P A B) as E. now injection E. Qed.
  Lemma chain_one self t l : chain w self t l -> place r self -> forall l', chain w self t l' -> l = l'.
  Proof.
    induction 1; intros P l' C; inversion C; subst; auto; try congruence;
      repeat match goal with A : is_ w _ _ ?x, B : is_ w _ _ ?y |- _ =>
        match x with y => fail 1 | _ => pose proof (is_one _ _ _ _ P A B) as EQ; injection EQ as -> ->; clear B end end;
      try congruence; eauto.
    f_equal. auto.
  Qed.
  Lemma chain_in self t l : chain w self t l -> forall q, In q l -> exists it up l', q = it :: up /\ place r q /\ i_kind it = KType /\
    place r up /\ chain w up (a_ty (w_alias w it)) l' /\ (length l' < length l)%nat.
  Proof.
    induction 1; intros q I; try (destruct I; fail); eauto.
    destruct I as [<- | I].
    - exists it, up, l. repeat split; auto.
    - destruct (IHchain q I) as (it' & up' & l' & A1 & A2 & A3 & A4 & A5 & A6). exists it', up', l'. repeat split; auto. cbn. lia.
  Qed.
  Lemma chain_once it up l : place r up -> chain w up (a_ty (w_alias w it)) l -> ~ In (it :: up) l.
  Proof.
    intros P C I. destruct (chain_in _ _ _ C _ I) as (it' & up' & l' & E & _ & _ & _ & C' & L). injection E as <- <-.
    rewrite (chain_one _ _ _ C P _ C') in L. lia.
  Qed.
  Lemma alias_name it up : i_kind it = KType -> has_name (it :: up).
  Proof. intro K. exists it, up. split; auto. unfold ident. rewrite K. discriminate. Qed.

  Lemma find_found self p q : place r self -> is_ w self p q -> place r q /\ exists k, forall d b c, reached r d b c ->
    (find_path w d self p c = None /\ ~ (k <= d)%nat) \/
    exists c', find_path w d self p c = Some (Found q, c') /\ reached r d b c'.
  Proof.
    intros P I. split; [eapply refers_place; eauto|]. destruct (lookup_any r p) as [k K]. exists k. intros d b c RC.
    unfold find_path. fold r. destruct (lookup r d self p NsType (p_cache c)) as [[o c']|] eqn:L.
    2: { left. split; auto. intro LD. destruct (K d self NsType (p_cache c) LD (reached_ready _ _ _ _ TR RC)) as (? & ? & ?). congruence. }
    right.
    pose proof (proj2 (proj2 (lookup_ready _ _ _ _ _ _ _ _ TR P (reached_ready _ _ _ _ TR RC) L)) _ I) as EO. cbn in EO.
    subst o. eexists. split; [reflexivity|]. eapply reached_look; eauto.
  Qed.
  Lemma of_found d b it up root c o c' : place r (it :: up) -> nominal it = true -> asked (it :: up) it root ->
    reached r d b c -> public_of r d b (it :: up) (p_cache c) = Some (o, c') -> exists nm, o = Found (Some nm).
  Proof.
    intros P N AS RC E. destruct (OFF it up P N) as (root' & q & x & i & CR & PM & DO & IP).
    assert (root' = root) as -> by (destruct AS as (? & ? & ? & CR'); congruence).
    assert (NF : i_kind it <> KFn) by (intro K; unfold nominal in N; now rewrite K in N).
    assert (NI : ident it <> None) by (unfold nominal in N; unfold ident; destruct (i_kind it); discriminate).
    destruct (pub_complete_proof _ _ _ _ _ _ _ _ _ TR OWN P AS RC NF NI ST E) as [A _].
    destruct (A q x i PM DO IP) as (nm & -> & _). eauto.
  Qed.
  Lemma public_found d b it up c : place r (it :: up) -> nominal it = true -> reached r d b c ->
    (public r d b (it :: up) c = None /\ ~ ((depth_bound r [] <= d)%nat /\ (modules_of r < d)%nat /\ (modules_of r < b)%nat)) \/
    exists nm c', public r d b (it :: up) c = Some (Found (Some nm), c') /\ reached r d b c'.
  Proof.
    intros P N RC. destruct (nominal_asked _ _ _ TR P N) as [root AS].
    destruct (public r d b (it :: up) c) as [[o c']|] eqn:E.
    2: { left. split; auto. intros (L1 & L2 & L3). destruct (pub_ends_proof _ _ _ _ _ TR P L1 L2 L3 RC) as (? & ? & ?). congruence. }
    right. assert (A : exists nm, o = Found (Some nm)); [|destruct A as [nm ->]; exists nm, c'; split; auto; eapply reached_public; eauto using nominal_name].
    assert (INV : forall it up root o, place r (it :: up) -> nominal it = true -> asked (it :: up) it root ->
      p_find (p_known c) (path_of (it :: up)) = Some o -> exists nm, o = Found (Some nm)).
    { clear -TR OWN ONE ST OFF RC. induction RC as [| c self p n o c' RC IH P L | c self o c' RC IH P HN E].
      - cbn. discriminate.
      - exact IH.
      - unfold public in E. destruct (p_find (p_known c) (path_of self)) eqn:F; [now injection E as <- <-|].
        destruct (public_of r d b self (p_cache c)) as [[o1 c1]|] eqn:PO; [|discriminate]. injection E as <- <-.
        intros it up root o P2 N2 AS F2. cbn [p_known p_find] in F2.
        destruct (strs_eqb (path_of self) (path_of (it :: up))) eqn:SE; [|eapply IH; eauto].
        apply strs_eqb_eq in SE. assert (self = it :: up) as -> by (apply ONE; auto using nominal_name). injection F2 as <-.
        eapply of_found; eauto. }
    unfold public in E. destruct (p_find (p_known c) (path_of (it :: up))) eqn:F.
    - injection E as <- <-. eauto.
    - destruct (public_of r d b (it :: up) (p_cache c)) as [[o1 c1]|] eqn:PO; [|discriminate]. injection E as <- <-.
      eapply of_found; eauto.
  Qed.
  (** Something right is found, or the steps do not suffice. *)
  Definition big (n d b f : nat) : Prop := (n <= d)%nat /\ (n <= b)%nat /\ (n <= f)%nat.
  Definition fnd {A} (B : Prop) (d b : nat) (x : M pcache A) (ok : A -> Prop) : Prop :=
    forall c, reached r d b c -> (x c = None /\ ~ B) \/ exists a c', x c = Some (Found a, c') /\ reached r d b c' /\ ok a.
  Lemma fnd_ret {A} (B : Prop) d b (a : A) (ok : A -> Prop) : ok a -> fnd B d b (ret a) ok.
  Proof. intros H c RC. right. exists a, c. auto. Qed.
  Lemma fnd_bind {A C} (B : Prop) d b (x : M pcache A) (f : A -> M pcache C) ok ok' : fnd B d b x ok ->
    (forall a, ok a -> fnd B d b (f a) ok') -> fnd B d b (bind x f) ok'.
  Proof.
    intros FX FF c RC. unfold bind. destruct (FX c RC) as [[E NB] | (a & c1 & E & R1 & O1)]; rewrite E; [left; auto|].
    exact (FF a O1 c1 R1).
  Qed.
  Lemma fnd_weak {A} (B B' : Prop) d b (x : M pcache A) ok : (B' -> B) -> fnd B d b x ok -> fnd B' d b x ok.
  Proof. intros I F c RC. destruct (F c RC) as [[E NB] | G]; [left; split; auto | right; exact G]. Qed.
  Lemma fnd_none {A} (B : Prop) d b (x : M pcache A) ok : (forall c, x c = None) -> ~ B -> fnd B d b x ok.
  Proof. intros E NB c _. left. auto. Qed.
  Definition mode (env env0 : list (str * sem)) (t : sty) : Prop :=
    (env0 = env /\ plain_type (map fst env) t = true) \/ (env0 = [] /\ mentions (map fst env) t = false).
  Definition arg_mode (env env0 : list (str * sem)) (t : sty) : Prop :=
    (env0 = env /\ plain_arg (map fst env) (GType t) = true) \/ (env0 = [] /\ mentions (map fst env) t = false).
  Definition Q (self : rpath) (env : list (str * sem)) (t : sty) (m : sem) : Prop :=
    place r self -> existsb (bytes_eqb self_name) (map fst env) = false -> only_types t = true ->
    forall env0, mode env env0 t -> exists l n, chain w self t l /\
      forall d b f seen envr, rel env0 envr ->
        (forall q, In q l -> ~ In (path_of q) seen) ->
        fnd (big n d b f) d b (rtype w d b f self t seen envr) (fun R => sh m R).
  Lemma mode_inner env env0 t u : mentions (map fst env) u = mentions (map fst env) t ->
    plain_type (map fst env) u = plain_type (map fst env) t -> mode env env0 t -> mode env env0 u.
  Proof. unfold mode. intros -> ->. auto. Qed.
  Lemma mode_path env env0 p args : mode env env0 (SPath p args) -> is_param (map fst env) p args = false /\
    forall t, In (GType t) args -> arg_mode env env0 t.
  Proof.
    intros [[-> E] | [-> E]].
    - cbn [plain_type] in E. apply andb_prop in E as [A B]. split; [now apply negb_true_iff in A|].
      intros t I. left. split; auto. rewrite forallb_forall in B. auto.
    - rewrite mentions_path in E. apply orb_false_elim in E as [A B]. split; auto. intros t I. right. split; auto.
      apply not_true_is_false. intro M. apply not_true_iff_false in B. apply B. apply existsb_exists.
      exists (GType t). auto.
  Qed.
  Lemma q_garg self env t m : denotes w (is_ w) self env t m -> Q self env t m -> place r self ->
    existsb (bytes_eqb self_name) (map fst env) = false -> only_types t = true ->
    forall env0, arg_mode env env0 t -> exists n, forall d b f envr, rel env0 envr ->
      fnd (big n d b f) d b (garg_type (rtype w d b f) self envr (GType t)) (fun R => sh m R).
  Proof.
    intros D HQ P NS OT env0 MO.
    assert (CASE : (env0 = env /\ exists p args, t = SPath p args /\ is_param (map fst env) p args = true) \/
      (mentions (map fst env) t = false)).
    { destruct MO as [[-> E] | [-> E]]; auto. cbn [plain_arg] in E.
      destruct t as [p args | | | | | |]; try (right; now apply negb_true_iff in E).
      destruct (is_param (map fst env) p args) eqn:IP; [left; eauto | right; now apply negb_true_iff in E]. }
    destruct CASE as [[-> (p & args & -> & IP)] | ME].
    - destruct (param_of env p args) as [m0|] eqn:PO.
      2: { apply param_none in PO. congruence. }
      destruct (not_self _ _ _ _ NS PO) as [-> IS].
      assert (m0 = m) as -> by (inversion D; subst; congruence).
      exists O. intros d b f envr RE. cbn [garg_type].
      destruct (param_of envr p []) as [R|] eqn:PE.
      + destruct (rel_param _ _ _ _ _ _ RE PE) as (m' & PM & S). apply fnd_ret. assert (m' = m) as -> by congruence. exact S.
      + pose proof (rel_none _ _ _ _ _ RE PE). congruence.
    - destruct (HQ P NS OT [] (or_intror (conj eq_refl ME))) as (l & n & _ & F). exists n. intros d b f envr RE.
      assert (G : fnd (big n d b f) d b (rtype w d b f self t [] []) (fun R => sh m R)).
      { apply F; auto. constructor. }
      cbn [garg_type]. destruct t as [p args | | | | | |]; auto.
      destruct (param_of envr p args) as [R|] eqn:PE; auto. exfalso.
      destruct (rel_param _ _ _ _ _ _ RE PE) as (m' & PM & S).
      rewrite mentions_path in ME. apply orb_false_elim in ME as [A _]. apply param_none in A.
      destruct MO as [[-> _] | [-> _]]; [congruence|]. revert PM. unfold param_of. destruct (lead p); [discriminate|].
      destruct (segs p) as [| x [| y s]]; try discriminate. now destruct args.
  Qed.
  Definition Q' (self : rpath) (env : list (str * sem)) (up : rpath) (before : list (str * sem)) (ps : list (str * option sty))
      (args : list sty) (e : list (str * sem)) : Prop :=
    place r self -> place r up -> existsb (bytes_eqb self_name) (map fst env) = false ->
    existsb (bytes_eqb self_name) (map fst before ++ map fst ps) = false ->
    Forall (fun t => only_types t = true) args -> (forall x t, In (x, Some t) ps -> only_types t = true) ->
    (forall x t, In (x, Some t) ps -> mentions (map fst before ++ map fst ps) t = false) ->
    forall env0, Forall (arg_mode env env0) args -> (length args <= length ps)%nat /\
      exists me n, e = before ++ me /\ map fst me = map fst ps /\
        forall d b f envr, rel env0 envr ->
          fnd (big n d b f) d b (params (rtype w d b f) self envr up ps (map GType args)) (fun e' => rel me e').
  Lemma existsb_app_l {A} (f : A -> bool) l1 l2 : existsb f (l1 ++ l2) = false -> existsb f l1 = false.
  Proof. rewrite existsb_app. intro E. now apply orb_false_elim in E. Qed.
  Lemma q_nil self env up before : Q' self env up before [] [] before.
  Proof.
    intros P PU NS NB _ _ _ env0 _. split; auto. exists [], O. split; [now rewrite app_nil_r|]. split; auto.
    intros. cbn [params map]. apply fnd_ret. constructor.
  Qed.
  Lemma q_arg self env up before x dd ps t args m e : denotes w (is_ w) self env t m -> Q self env t m ->
    Q' self env up (before ++ [(x, m)]) ps args e -> Q' self env up before ((x, dd) :: ps) (t :: args) e.
  Proof.
    intros D HQ HQ' P PU NS NB OA OD DF env0 MO. inversion MO as [| ? ? M1 M2]; subst. inversion OA as [| ? ? O1 O2]; subst.
    destruct (q_garg _ _ _ _ D HQ P NS O1 env0 M1) as [n1 F1].
    destruct (HQ' P PU NS) with (env0 := env0) as (LE & me & n2 & -> & FE & F2); auto.
    - rewrite map_app, <- app_assoc. exact NB.
    - intros y u I. apply (OD y u). now right.
    - intros y u I. rewrite map_app, <- app_assoc. apply (DF y u). now right.
    - split; [cbn; lia|]. exists ((x, m) :: me), (n1 + n2)%nat. split; [now rewrite <- app_assoc|]. split; [cbn; congruence|].
      intros d b f envr RE. cbn [map params].
      eapply fnd_bind; [eapply fnd_weak; [|apply (F1 d b f envr); auto]; unfold big; lia|]. intros R S.
      eapply fnd_bind; [eapply fnd_weak; [|apply (F2 d b f envr); auto]; unfold big; lia|]. intros e' RE'. apply fnd_ret. constructor; auto.
  Qed.
  Lemma q_default self env up before x t ps m e : denotes w (is_ w) up before t m -> Q up before t m ->
    Q' self env up (before ++ [(x, m)]) ps [] e -> Q' self env up before ((x, Some t) :: ps) [] e.
  Proof.
    intros D HQ HQ' P PU NS NB OA OD DF env0 MO.
    assert (ME : mentions (map fst before) t = false).
    { eapply mentions_incl; [|apply (DF x t); now left]. apply incl_appl, incl_refl. }
    destruct (HQ PU (existsb_app_l _ _ _ NB) (OD x t (or_introl eq_refl)) [] (or_intror (conj eq_refl ME))) as (l & n1 & _ & F1).
    destruct (HQ' P PU NS) with (env0 := env0) as (LE & me & n2 & -> & FE & F2); auto.
    - rewrite map_app, <- app_assoc. exact NB.
    - intros y u I. apply (OD y u). now right.
    - intros y u I. rewrite map_app, <- app_assoc. apply (DF y u). now right.
    - split; [cbn; lia|]. exists ((x, m) :: me), (n1 + n2)%nat. split; [now rewrite <- app_assoc|]. split; [cbn; congruence|].
      intros d b f envr RE. cbn [map params].
      eapply fnd_bind; [eapply fnd_weak; [|apply (F1 d b f [] []); [constructor | auto]]; unfold big; lia|]. intros R S.
      eapply fnd_bind; [eapply fnd_weak; [|apply (F2 d b f envr); auto]; unfold big; lia|]. intros e' RE'. apply fnd_ret. constructor; auto.
  Qed.
  (** A path and the item it refers to. *)
  Lemma q_path self env0 p args it up m l (n : nat) : place r self -> is_self p args = false -> is_ w self p (it :: up) ->
    chain w self (SPath p args) l ->
    (forall d b f seen envr, rel env0 envr ->
      (forall q, In q l -> ~ In (path_of q) seen) ->
      fnd (big n d b f) d b (item_type w d b (rtype w d b f) self seen envr it up args) (fun R => sh m R)) ->
    exists l n, chain w self (SPath p args) l /\
      forall d b f seen envr, rel env0 envr ->
        (forall q, In q l -> ~ In (path_of q) seen) ->
        fnd (big n d b f) d b (rtype w d b f self (SPath p args) seen envr) (fun R => sh m R).
  Proof.
    intros P IS I CH F. destruct (find_found self p _ P I) as (PQ & k & K). exists l, (S (n + k)). split; auto.
    intros d b f seen envr RE NI. destruct f as [| f]; [apply fnd_none; [reflexivity | unfold big; lia]|]. cbn [rtype one_type]. rewrite IS.
    apply fnd_bind with (ok := fun q => q = it :: up).
    - intros c RC. destruct (K d b c RC) as [[E NB] | (c' & E & R1)]; [left; split; auto; unfold big; lia | right; eauto].
    - intros q ->. eapply fnd_weak; [|apply F; auto]. unfold big; lia.
  Qed.
  Lemma type_args_all args : forallb only_arg args = true -> args = map GType (type_args args).
  Proof.
    induction args as [| [t|] args IH]; cbn; auto; [|discriminate]. intro E. apply andb_prop in E as [_ E]. now rewrite <- IH.
  Qed.
  Lemma type_args_in args t : In t (type_args args) -> In (GType t) args.
  Proof. induction args as [| [u|] args IH]; cbn; intuition congruence. Qed.
  Lemma only_in args t : forallb only_arg args = true -> In t (type_args args) -> only_types t = true.
  Proof. intros E I. rewrite forallb_forall in E. exact (E _ (type_args_in _ _ I)). Qed.
  Lemma q_item self env0 p it up : place r self -> is_self p [] = false -> is_ w self p (it :: up) -> nominal it = true ->
    exists l n, chain w self (SPath p []) l /\
      forall d b f seen envr, rel env0 envr ->
        (forall q, In q l -> ~ In (path_of q) seen) ->
        fnd (big n d b f) d b (rtype w d b f self (SPath p []) seen envr) (fun R => sh (MItem (it :: up)) R).
  Proof.
    intros P IS I N. eapply (q_path self env0 p [] it up _ [] (S (depth_bound r [] + modules_of r))); eauto.
    - eapply ch_leaf; eauto; intro K; unfold nominal in N; rewrite K in N; discriminate.
    - intros d b f seen envr _ _. destruct (find_found self p _ P I) as (PQ & _).
      assert (G : forall k, kind_of k it -> fnd (big (S (depth_bound r [] + modules_of r)) d b f) d b (named_at w d b k (it :: up)) (fun R => sh (MItem (it :: up)) R)).
      { intros k K c RC. destruct (public_found d b it up c PQ N RC) as [[E NB] | (nm & c' & E & R1)].
        { left. unfold named_at, bind. fold r. rewrite E. split; auto. unfold big. lia. }
        right.
        assert (E2 : named_at w d b k (it :: up) c = Some (Found (RNamed k (n_module nm) (n_name nm)), c')).
        { unfold named_at, bind. fold r. now rewrite E. }
        exists (RNamed k (n_module nm) (n_name nm)), c'. split; auto. split; auto.
        exact (proj2 (named_sound w TR OWN ONE d b k it up c _ c' PQ K RC E2) _ eq_refl). }
      unfold item_type. unfold nominal in N. destruct (i_kind it) eqn:K; try discriminate N; cbn [no_args]; apply G; cbn; eauto.
  Qed.
  Lemma all_q : (forall self env t m, denotes w (is_ w) self env t m -> Q self env t m) /\
    (forall self env up before ps args e, given_args w (is_ w) self env up before ps args e -> Q' self env up before ps args e).
  Proof.
    assert (BOTH : (forall self env t m, denotes w (is_ w) self env t m -> denotes w (is_ w) self env t m /\ Q self env t m) /\
      (forall self env up before ps args e, given_args w (is_ w) self env up before ps args e -> Q' self env up before ps args e)).
    2: { split; [|apply BOTH]. intros. now apply BOTH. }
    apply denotes_both.
    - intros self env t m D [D' IH]. split; [now constructor|]. intros P NS OT env0 MO.
      destruct (IH P NS OT env0 (mode_inner _ _ _ _ eq_refl eq_refl MO)) as (l & n & C & F).
      exists l, (S n). split; [now constructor|]. intros d b f seen envr RE NI. destruct f as [| f]; [apply fnd_none; [reflexivity | unfold big; lia]|].
      cbn [rtype one_type]. eapply fnd_weak; [|apply F; auto]. unfold big; lia.
    - intros self env b0 t m D [D' IH]. split; [now constructor|]. intros P NS OT env0 MO.
      destruct (IH P NS OT env0 (mode_inner _ _ _ _ eq_refl eq_refl MO)) as (l & n & C & F).
      exists l, (S n). split; [now constructor|]. intros d b f seen envr RE NI. destruct f as [| f]; [apply fnd_none; [reflexivity | unfold big; lia]|].
      cbn [rtype one_type]. eapply fnd_bind; [eapply fnd_weak; [|apply F; auto]; unfold big; lia|]. intros R S. apply fnd_ret. now constructor.
    - intros self env t m D [D' IH]. split; [now constructor|]. intros P NS OT env0 MO.
      destruct (IH P NS OT env0 (mode_inner _ _ _ _ eq_refl eq_refl MO)) as (l & n & C & F).
      exists l, (S n). split; [now constructor|]. intros d b f seen envr RE NI. destruct f as [| f]; [apply fnd_none; [reflexivity | unfold big; lia]|].
      cbn [rtype one_type]. eapply fnd_bind; [eapply fnd_weak; [|apply F; auto]; unfold big; lia|]. intros R S. apply fnd_ret. now constructor.
    - intros self env. split; [now constructor|]. intros P NS OT env0 MO. exists [], 1%nat. split; [constructor|].
      intros d b f seen envr RE NI. destruct f as [| f]; [apply fnd_none; [reflexivity | unfold big; lia]|]. cbn [rtype one_type]. apply fnd_ret. constructor.
    - intros self env p IS. split; [now constructor|]. intros P NS OT env0 MO. exists [], 1%nat. split; [now constructor|].
      intros d b f seen envr RE NI. destruct f as [| f]; [apply fnd_none; [reflexivity | unfold big; lia]|]. cbn [rtype one_type]. rewrite IS. apply fnd_ret. constructor.
    - intros self env p m IS PO. split; [now constructor|]. intros P NS OT env0 MO. exfalso.
      apply mode_path in MO as [A _]. apply param_none in A. congruence.
    - intros self env p it up IS PN I N. split; [eapply dn_item; eauto|]. intros P NS OT env0 MO. apply q_item; auto.
    - intros self env p args it up IS PN I K. split; [eapply dn_udl; eauto|]. intros P NS OT env0 MO.
      eapply (q_path self env0 p args it up _ [] O); eauto.
      + eapply ch_leaf; eauto; congruence.
      + intros. unfold item_type. rewrite K. apply fnd_ret. constructor.
    - intros self env p args it up m IS PN I K D [D' IH]. split; [eapply dn_custom; eauto|]. intros P NS OT env0 MO.
      destruct (find_found self p _ P I) as (PQ & _). destruct up as [| a up].
      { exfalso. pose proof PQ as PQ'. inversion PQ'; subst; [|discriminate].
        destruct TR as (_ & T2 & _). match goal with H : In (_, it) _ |- _ => destruct (T2 _ _ H) end. congruence. }
      assert (PU : place r (a :: up)) by (eapply place_tail; [exact PQ | discriminate]).
      destruct (IH PU eq_refl (proj2 (proj2 TY) it) [] (or_intror (conj eq_refl (mentions_nil _)))) as (l & n & C & F).
      eapply (q_path self env0 p args it (a :: up) _ l n); eauto.
      + eapply ch_custom; eauto.
      + intros d b f seen envr RE NI. unfold item_type. rewrite K.
        eapply fnd_bind; [apply (F d b f seen []); auto; constructor|]. intros R S. apply fnd_ret. constructor; auto.
        unfold named_somehow. rewrite K. auto.
    - intros self env p x it up m IS PN I K SI. split; [eapply dn_simple; eauto|]. intros P NS OT env0 MO.
      eapply (q_path self env0 p [] it up _ [] O); eauto.
      + eapply ch_leaf; eauto; congruence.
      + intros. unfold item_type. rewrite K. unfold known_type.
        assert (N1 : known1 x = None /\ known2 x = None /\ exists t, known0 x = Some t /\ sh m t).
        { pose proof (known0_simple x) as K0. rewrite SI in K0. destruct (known0 x) as [t|] eqn:E0; [|easy].
          split; [|split; [|eauto]].
          - revert E0. clear. unfold known0, known1. cbn [assoc].
            repeat match goal with |- context [bytes_eqb ?a x] => destruct (bytes_eqb_spec a x); [subst; vm_compute; congruence|] end.
            discriminate.
          - revert E0. clear. unfold known0, known2. cbn [assoc].
            repeat match goal with |- context [bytes_eqb ?a x] => destruct (bytes_eqb_spec a x); [subst; vm_compute; congruence|] end.
            discriminate. }
        destruct N1 as (-> & -> & t & -> & S). cbn [no_args]. now apply fnd_ret.
    - intros self env p args x it up g t m IS PN I K GE TA D [D' IH]. split; [eapply dn_generic1; eauto|]. intros P NS OT env0 MO.
      rewrite only_path in OT. destruct (mode_path _ _ _ _ MO) as [_ AM].
      assert (IT : In t (type_args args)) by (rewrite TA; now left).
      destruct (q_garg self env t m D IH P NS (only_in _ _ OT IT) env0 (AM t (type_args_in _ _ IT))) as [n F].
      eapply (q_path self env0 p args it up _ [] n); eauto.
      + eapply ch_leaf; eauto; congruence.
      + intros d b f seen envr RE NI. unfold item_type. rewrite K. unfold known_type.
        rewrite (type_args_all args OT), TA. cbn [map]. pose proof (known1_generic x) as K1. rewrite GE in K1.
        destruct (known1 x) as [f1|]; [|easy]. eapply fnd_bind; [apply (F d b f envr); auto|]. intros R S. apply fnd_ret. now apply K1.
    - intros self env p args x it up g t u m k IS PN I K GE TA D [D' IH] E [E' IH2]. split; [eapply dn_generic2; eauto|].
      intros P NS OT env0 MO. rewrite only_path in OT. destruct (mode_path _ _ _ _ MO) as [_ AM].
      assert (IT : In t (type_args args)) by (rewrite TA; now left).
      assert (IU : In u (type_args args)) by (rewrite TA; right; now left).
      destruct (q_garg self env t m D IH P NS (only_in _ _ OT IT) env0 (AM t (type_args_in _ _ IT))) as [n F].
      destruct (q_garg self env u k E IH2 P NS (only_in _ _ OT IU) env0 (AM u (type_args_in _ _ IU))) as [n2 F2].
      eapply (q_path self env0 p args it up _ [] (n + n2)); eauto.
      + eapply ch_leaf; eauto; congruence.
      + intros d b f seen envr RE NI. unfold item_type. rewrite K. unfold known_type.
        rewrite (type_args_all args OT), TA. cbn [map]. pose proof (known2_generic x) as K2. rewrite GE in K2.
        assert (known1 x = None) as ->.
        { revert GE. clear. unfold generic2, known1. cbn [assoc].
          repeat match goal with |- context [bytes_eqb ?a x] => destruct (bytes_eqb_spec a x); [subst; vm_compute; congruence|] end.
          reflexivity. }
        destruct (known2 x) as [f2|]; [|easy]. eapply fnd_bind; [eapply fnd_weak; [|apply (F d b f envr); auto]; unfold big; lia|]. intros R S.
        eapply fnd_bind; [eapply fnd_weak; [|apply (F2 d b f envr); auto]; unfold big; lia|]. intros R' S'. apply fnd_ret. now apply K2.
    - intros self env p args it up env' m IS PN I K G HQ' D [D' IH]. split; [eapply dn_alias; eauto|]. intros P NS OT env0 MO.
      rewrite only_path in OT. destruct (mode_path _ _ _ _ MO) as [_ AM].
      destruct (find_found self p _ P I) as (PQ & _). destruct up as [| a up].
      { exfalso. pose proof PQ as PQ'. inversion PQ'; subst; [|discriminate].
        destruct TR as (_ & T2 & _). match goal with H : In (_, it) _ |- _ => destruct (T2 _ _ H) end. congruence. }
      assert (PU : place r (a :: up)) by (eapply place_tail; [exact PQ | discriminate]).
      destruct (in_plain w it (PL it)) as (A1 & A2 & A3). destruct TY as (TY1 & TY2 & TY3).
      destruct (HQ' P PU NS) with (env0 := env0) as (LE & me & n1 & -> & FE & F1); auto.
      { apply Forall_forall. intros t IT. eapply only_in; eauto. }
      { exact (TY2 it). }
      { apply Forall_forall. intros t IT. apply AM. now apply type_args_in. }
      cbn [app] in *.
      destruct (IH PU ltac:(rewrite FE; exact A1) (TY1 it) me ltac:(left; rewrite FE; auto)) as (l & n2 & C & F2).
      eapply (q_path self env0 p args it (a :: up) _ ((it :: a :: up) :: l) (n1 + n2)); eauto.
      + eapply ch_alias; eauto.
      + intros d b f seen envr RE NI. unfold item_type. rewrite K.
        assert (EX : existsb (strs_eqb (path_of (it :: a :: up))) seen = false).
        { apply not_true_is_false. intro X. apply existsb_exists in X as (y & Iy & Ey). apply strs_eqb_eq in Ey. subst y.
          apply (NI (it :: a :: up)); [now left | auto]. }
        rewrite EX. rewrite (type_args_all args OT), map_length.
        destruct (Nat.ltb_spec (length (a_params (w_alias w it))) (length (type_args args))); [lia|].
        eapply fnd_bind; [eapply fnd_weak; [|apply (F1 d b f envr); auto]; unfold big; lia|]. intros e' RE'.
        eapply fnd_weak; [|apply F2; auto]; [unfold big; lia|]. intros q IQ [EQ | IS'].
        * destruct (chain_in _ _ _ C q IQ) as (it' & up' & l' & Eq & Pq & Kq & _). subst q.
          assert (it :: a :: up = it' :: up') as EI by (apply ONE; auto using alias_name).
          apply (chain_once it (a :: up) l PU C). rewrite EI. exact IQ.
        * apply (NI q); [now right | auto].
    - intros self env p it up I K. split; [eapply dn_dyn; eauto|]. intros P NS OT env0 MO.
      destruct (find_found self p _ P I) as (PQ & k & KF). exists [], (S k). split; [constructor|].
      intros d b f seen envr RE NI. destruct f as [| f]; [apply fnd_none; [reflexivity | unfold big; lia]|]. cbn [rtype one_type].
      apply fnd_bind with (ok := fun q => q = it :: up).
      + intros c RC. destruct (KF d b c RC) as [[E NB] | (c' & E & R1)]; [left; split; auto; unfold big; lia | right; eauto].
      + intros q ->. unfold dyn_type. rewrite K. apply fnd_ret. constructor; auto. unfold named_somehow. rewrite K. split; auto. eauto.
    - intros self env p it up I K U. split; [eapply dn_dyn_udl; eauto|]. intros P NS OT env0 MO.
      destruct (find_found self p _ P I) as (PQ & k & KF). exists [], (S k). split; [constructor|].
      intros d b f seen envr RE NI. destruct f as [| f]; [apply fnd_none; [reflexivity | unfold big; lia]|]. cbn [rtype one_type].
      apply fnd_bind with (ok := fun q => q = it :: up).
      + intros c RC. destruct (KF d b c RC) as [[E NB] | (c' & E & R1)]; [left; split; auto; unfold big; lia | right; eauto].
      + intros q ->. unfold dyn_type. rewrite K.
        destruct (w_udl w it) as [| | | | | | | | | | | | | | | mp x imp | | | | | | | | |] eqn:WU; try discriminate U;
          try (destruct imp; try discriminate U); apply fnd_ret; now constructor.
    - intros. apply q_nil.
    - intros self env up before x dd ps t args m e D [D' IH] G HG. eapply q_arg; eauto.
    - intros self env up before x t ps m e D [D' IH] G HG. eapply q_default; eauto.
  Qed.
End Complete.
Lemma type_both w s self t m : tree (w_ir w) -> own_addresses (w_ir w) -> one_of_each (w_ir w) -> settled (w_ir w) NsType ->
  all_offered (w_ir w) -> all_plain w t -> place (w_ir w) self -> denotes w (is_ w) self [] t m ->
  (exists T, records w (named_somehow (w_ir w)) s m T) ->
  exists n, forall d b f c, reached (w_ir w) d b c ->
    (as_type w d b f s self t c = None /\ ~ big n d b f) \/
    exists T c', as_type w d b f s self t c = Some (Found T, c') /\ records w (named_somehow (w_ir w)) s m T.
Proof.
  intros TR OWN ONE ST OFF (PL & TY & OT) P D [T0 RT].
  destruct (proj1 (all_q w TR OWN ONE ST OFF PL TY) _ _ _ _ D P eq_refl OT [] (or_intror (conj eq_refl (mentions_nil _))))
    as (l & n & _ & F).
  exists n. intros d b f c RC. unfold as_type, bind.
  destruct (F d b f [] [] (Forall2_nil _) ltac:(auto) c RC) as [[E NB] | (R & c' & E & _ & S)]; rewrite E; [left; auto|]. right.
  destruct (meta_found w (named_somehow (w_ir w)) s m T0 RT R S) as [T TM]. exists T, c'.
  rewrite TM. split; auto. eapply meta_sound; eauto.
Qed.
Lemma type_found_proof : type_found all_plain.
Proof.
  intros w s self t m TR OWN ONE ST OFF AP P D RT.
  destruct (type_both w s self t m TR OWN ONE ST OFF AP P D RT) as [n F]. exists n. intros d b f c L1 L2 L3 RC.
  destruct (F d b f c RC) as [[_ NB] | G]; [|exact G]. elim NB. unfold big. auto.
Qed.
Lemma type_exact_proof : type_exact all_plain named_somehow.
Proof.
  intros w s self t m TR OWN ONE ST OFF AP P D RT d b f c o c' RC E.
  destruct (type_both w s self t m TR OWN ONE ST OFF AP P D RT) as [n F].
  destruct (F d b f c RC) as [[N _] | (T & c1 & E1 & RR)]; [congruence|]. exists T. split; auto. congruence.
Qed.
