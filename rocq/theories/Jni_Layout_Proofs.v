(** Proofs about layouts, FFI types and slots of the JNI bindings. *)
From Coq Require Import Permutation.
From Verif Require Import Base Meta_Types Sort_Model Jni_Model Jni_Spec.
Local Open Scope list_scope.
Local Open Scope Z_scope.

(** ** Outcomes and comparisons *)

Lemma obind_ret {A B} (x : out A) (f : A -> out B) b :
  obind x f = Ret b -> exists a, x = Ret a /\ f a = Ret b.
Proof. destruct x as [a|e]; cbn; intros P; [eauto|discriminate]. Qed.

Ltac ob H := apply obind_ret in H; destruct H as (? & ? & H).

Lemma obj_impl_eqb_eq a b : obj_impl_eqb a b = true <-> a = b.
Proof.
  destruct a as [|[]], b as [|[]]; cbn; split; intros P; try reflexivity; try discriminate.
Qed.

Lemma bytes_eqb_true a b : bytes_eqb a b = true <-> a = b.
Proof. destruct (bytes_eqb_spec a b); split; intros; congruence. Qed.

Lemma ty_eqb_eq a : forall b, ty_eqb a b = true <-> a = b.
Proof.
  induction a; intros b; destruct b; cbn [ty_eqb]; split; intros P;
    try discriminate; try reflexivity;
    repeat match goal with
      | H : _ && _ = true |- _ => apply andb_prop in H; destruct H
      | H : bytes_eqb _ _ = true |- _ => apply bytes_eqb_true in H
      | H : obj_impl_eqb _ _ = true |- _ => apply obj_impl_eqb_eq in H
      | IH : forall b, ty_eqb ?x b = true <-> _, H : ty_eqb ?x _ = true |- _ => apply IH in H
      end; try congruence.
  all: inversion P; subst; repeat (apply andb_true_intro; split);
    try (apply bytes_eqb_true; reflexivity); try (apply obj_impl_eqb_eq; reflexivity);
    match goal with IH : forall b, ty_eqb ?x b = true <-> _ |- ty_eqb ?x ?x = true =>
      apply IH; reflexivity end.
Qed.

Lemma ty_eqb_refl t : ty_eqb t t = true.
Proof. now apply ty_eqb_eq. Qed.

Lemma ty_eqb_neq a b : a <> b -> ty_eqb a b = false.
Proof. intros N. destruct (ty_eqb a b) eqn:E; [|reflexivity]. apply ty_eqb_eq in E. contradiction. Qed.

Lemma fty_beq_eq a b : fty_beq a b = true <-> a = b.
Proof. split; [apply internal_fty_dec_bl|apply internal_fty_dec_lb]. Qed.

Lemma fty_beq_refl a : fty_beq a a = true.
Proof. now apply fty_beq_eq. Qed.

Lemma lookup_in {A} t (m : list (ty * A)) a : lookup t m = Some a -> In (t, a) m.
Proof.
  induction m as [|[t' a'] m IH]; cbn [lookup]; [discriminate|].
  destruct (ty_eqb t t') eqn:E; intros P.
  - apply ty_eqb_eq in E. left. congruence.
  - right. auto.
Qed.

Lemma omap_in {A B} (f : A -> out B) l r a : omap f l = Ret r -> In a l -> exists b, f a = Ret b.
Proof.
  revert r. induction l as [|x l IH]; intros r P I; [destruct I|].
  cbn [omap] in P. ob P. ob P. destruct I as [->|I]; eauto.
Qed.

Lemma omap_length {A B} (f : A -> out B) l : forall r, omap f l = Ret r -> length r = length l.
Proof.
  induction l as [|x l IH]; intros r P; cbn [omap] in P.
  - assert (r = []) as -> by congruence. reflexivity.
  - ob P. ob P. assert (r = x0 :: x1) as -> by congruence. cbn. f_equal. auto.
Qed.

(** ** Rounding up *)

Definition pow2 (a : Z) : Prop := a = 1 \/ a = 2 \/ a = 4 \/ a = 8.

Lemma pow2_pos a : pow2 a -> 0 < a.
Proof. unfold pow2. lia. Qed.

Lemma pow2_divide a b : pow2 a -> pow2 b -> a <= b -> (a | b).
Proof.
  unfold pow2. intros [->|[->|[->| ->]]] [->|[->|[->| ->]]] L; try lia;
    match goal with |- (?x | ?y) => exists (y / x); reflexivity end.
Qed.

Lemma pow2_max a b : pow2 a -> pow2 b -> pow2 (Z.max a b).
Proof. unfold pow2. lia. Qed.

Lemma round_up_spec s a : 0 < a -> s <= round_up s a < s + a /\ (a | round_up s a).
Proof.
  intros P. unfold round_up. split.
  - pose proof (Z.div_mod (s + a - 1) a ltac:(lia)).
    pose proof (Z.mod_pos_bound (s + a - 1) a P). lia.
  - apply Z.divide_factor_r.
Qed.

(** ** Layouts *)

(** Offsets in order, each aligned, from [lo] to [hi]. *)
Fixpoint laid (m : lmap) (lo hi al : Z) (l : list (Z * ty)) : Prop :=
  match l with
  | [] => lo <= hi
  | (o, t) :: l =>
      exists lt, get m t = Ret lt /\ lo <= o /\ (l_align lt | o) /\ pow2 (l_align lt) /\
                 0 <= l_size lt /\ l_align lt <= al /\ laid m (o + l_size lt) hi al l
  end.

Lemma laid_le m l : forall lo hi al, laid m lo hi al l -> lo <= hi.
Proof.
  induction l as [|[o t] l IH]; cbn [laid]; intros lo hi al H; [exact H|].
  destruct H as (lt & _ & A & _ & _ & B & _ & C). apply IH in C. lia.
Qed.

Lemma laid_weaken m l : forall lo lo' hi hi' al al',
  lo' <= lo -> hi <= hi' -> al <= al' -> laid m lo hi al l -> laid m lo' hi' al' l.
Proof.
  induction l as [|[o t] l IH]; cbn [laid]; intros lo lo' hi hi' al al' A B C H; [lia|].
  destruct H as (lt & G & L & D & P2 & S0 & AL & R). exists lt.
  repeat (split; [first [assumption|lia]|]). eapply IH; [| | |exact R]; lia.
Qed.

Lemma laid_app m l1 : forall l2 lo mid hi al,
  laid m lo mid al l1 -> laid m mid hi al l2 -> laid m lo hi al (l1 ++ l2).
Proof.
  induction l1 as [|[o t] l1 IH]; cbn [laid app]; intros l2 lo mid hi al H1 H2.
  - eapply laid_weaken; [exact H1|reflexivity|reflexivity|exact H2].
  - destruct H1 as (lt & G & L & D & P2 & S0 & AL & R). exists lt.
    repeat (split; [assumption|]). eapply IH; eassumption.
Qed.

Lemma laid_shift m l : forall lo hi al k, pow2 al -> (al | k) ->
  laid m lo hi al l -> laid m (k + lo) (k + hi) al (map (fun p => (k + fst p, snd p)) l).
Proof.
  induction l as [|[o t] l IH]; cbn [laid map fst snd]; intros lo hi al k PA K H; [lia|].
  destruct H as (lt & G & L & D & P2 & S0 & AL & R). exists lt.
  split; [assumption|]. split; [lia|]. split.
  { apply Z.divide_add_r; [|assumption].
    eapply Z.divide_trans; [apply (pow2_divide _ al); assumption|assumption]. }
  repeat (split; [assumption|]).
  replace (k + o + l_size lt) with (k + (o + l_size lt)) by lia. apply IH; assumption.
Qed.

(** The alignment of a layout is a power of two; its size is positive when [P]. *)
Definition good_layout (P : Prop) (l : layout) : Prop :=
  pow2 (l_align l) /\ 0 <= l_size l /\ (P -> 0 < l_size l).

Definition all_good (P : Prop) (m : lmap) : Prop :=
  forall t l, lookup t m = Some l -> good_layout P l.

Lemma good_get P m : all_good P m -> forall t l, get m t = Ret l -> good_layout P l.
Proof.
  intros G. induction t; intros l H; cbn [get] in H;
    try (assert (l = Layout 1 1) as -> by congruence);
    try (assert (l = Layout 2 2) as -> by congruence);
    try (assert (l = Layout 4 4) as -> by congruence);
    try (assert (l = Layout 8 8) as -> by congruence);
    try (assert (l = Layout 24 8) as -> by congruence);
    try (assert (l = Layout 16 8) as -> by congruence);
    try (unfold good_layout, pow2; cbn [l_size l_align]; lia).
  all: try (match type of H with of_opt _ ?o = _ => destruct o eqn:E end; cbn in H;
    [assert (l0 = l) as -> by congruence; eapply G; eassumption|discriminate]).
  auto.
Qed.

Lemma layout_new_inv s a l : layout_new s a = Ret l -> l = Layout s a.
Proof. unfold layout_new. destruct (_ <=? _); congruence. Qed.

Lemma offsets_spec P m : all_good P m -> forall ts l r l',
  pow2 (l_align l) -> 0 <= l_size l -> offsets m l ts = Ret (r, l') ->
  laid m (l_size l) (l_size l') (l_align l') r /\ map snd r = ts /\
  l_align l <= l_align l' /\ pow2 (l_align l') /\ l_size l <= l_size l' /\
  (P -> ts <> [] -> l_size l < l_size l').
Proof.
  intros G. induction ts as [|t ts IH]; intros l r l' PA S0 H; cbn [offsets] in H.
  - assert (r = []) as -> by congruence. assert (l' = l) as -> by congruence.
    cbn [laid map]. repeat split; try lia; try assumption. congruence.
  - ob H. ob H. ob H. rename x into lt, x0 into x, x1 into y.
    destruct (good_get P m G _ _ H0) as (Pt & St & Zt).
    unfold extend in H1. ob H1. apply layout_new_inv in H3. subst x0.
    assert (x = (Layout (round_up (l_size l) (l_align lt) + l_size lt) (Z.max (l_align l) (l_align lt)),
                 round_up (l_size l) (l_align lt))) as -> by congruence. clear H1.
    destruct y as [r0 l0]. cbn [fst snd] in *.
    assert (r = (round_up (l_size l) (l_align lt), t) :: r0) as -> by congruence.
    assert (l' = l0) as -> by congruence.
    destruct (round_up_spec (l_size l) (l_align lt) (pow2_pos _ Pt)) as [RU RD].
    apply IH in H2; cbn [l_size l_align] in *; [|now apply pow2_max|lia].
    destruct H2 as (L & M & A & PA' & SS & ZZ).
    split; [|split; [|split; [|split; [|split]]]].
    + cbn [laid]. exists lt. repeat (split; [first [assumption|lia]|]). exact L.
    + cbn [map snd]. congruence.
    + lia.
    + exact PA'.
    + lia.
    + intros p _. specialize (Zt p). lia.
Qed.

Lemma builder_pow2 : pow2 (l_align builder_new).
Proof. now left. Qed.

Lemma get_mono m t l s ls : get m t = Ret l -> lookup s m = None -> get ((s, ls) :: m) t = Ret l.
Proof.
  revert l. induction t; intros l H N; cbn [get] in *; try exact H; try auto.
  all: match type of H with of_opt _ ?o = _ => destruct o eqn:E end; [|discriminate].
  all: cbn [lookup]; rewrite ty_eqb_neq; [now rewrite E|]; intros Q;
    rewrite <- Q in N; congruence.
Qed.

Lemma offsets_mono m s ls : lookup s m = None -> forall ts l r,
  offsets m l ts = Ret r -> offsets ((s, ls) :: m) l ts = Ret r.
Proof.
  intros N. induction ts as [|t ts IH]; intros l r H; cbn [offsets] in *; [exact H|].
  ob H. rewrite (get_mono _ _ _ _ _ H0 N). cbn [obind]. ob H. rewrite H1. cbn [obind].
  ob H. rewrite (IH _ _ H2). cbn [obind]. exact H.
Qed.

Lemma layout_for_types_mono m s ls ts l : lookup s m = None ->
  layout_for_types m ts = Ret l -> layout_for_types ((s, ls) :: m) ts = Ret l.
Proof.
  intros N H. unfold layout_for_types in *. ob H. rewrite (offsets_mono _ _ _ N _ _ _ H0). exact H.
Qed.

Lemma enum_size_mono m s ls : lookup s m = None -> forall vs x y r,
  enum_size m vs x y = Ret r -> enum_size ((s, ls) :: m) vs x y = Ret r.
Proof.
  intros N. induction vs as [|v vs IH]; intros x y r H; cbn [enum_size] in *; [exact H|].
  ob H. rewrite (layout_for_types_mono _ _ _ _ _ N H0). cbn [obind]. auto.
Qed.

Lemma def_layout_mono m s ls d o : lookup s m = None ->
  def_layout m d = Ret o -> def_layout ((s, ls) :: m) d = Ret o.
Proof.
  intros N H. destruct d; cbn [def_layout] in *; try exact H.
  - ob H. rewrite (layout_for_types_mono _ _ _ _ _ N H0). exact H.
  - ob H. rewrite (layout_for_types_mono _ _ _ _ _ N H0). exact H.
  - ob H. rewrite (enum_size_mono _ _ _ N _ _ _ _ H0). exact H.
Qed.

(** The layout of an enum covers its variants. *)
Lemma enum_size_spec P m : all_good P m -> forall vs x y r,
  pow2 y -> 0 <= x -> enum_size m vs x y = Ret r ->
  pow2 (snd r) /\ x <= fst r /\ y <= snd r /\ (vs <> [] -> 4 <= fst r) /\
  forall v, In v vs -> exists l q, offsets m builder_new (TI32 :: v) = Ret (q, l) /\
    l_size l <= fst r /\ l_align l <= snd r.
Proof.
  intros G. induction vs as [|v vs IH]; intros x y r PY X0 H; cbn [enum_size] in H.
  - assert (r = (x, y)) as -> by congruence. cbn [fst snd]. repeat split; try lia; try assumption.
    + congruence.
    + intros v [].
  - ob H. unfold layout_for_types in H0. ob H0. destruct x1 as [q l]. cbn [snd] in H0.
    assert (x0 = l) as -> by congruence. clear H0.
    pose proof (offsets_spec P m G _ _ _ _ builder_pow2 ltac:(cbn; lia) H1) as (L & M & A & PA & SS & _).
    cbn [builder_new l_size l_align] in *.
    apply IH in H; [|now apply pow2_max|lia]. destruct H as (P1 & P2 & P3 & P4 & P5).
    assert (4 <= l_size l) as L4.
    { destruct q as [|[o t] q]; cbn [map snd] in M; [discriminate|].
      assert (t = TI32) as -> by congruence. cbn [laid] in L.
      destruct L as (lt & Gt & L1 & _ & _ & _ & _ & L2). cbn [get] in Gt.
      assert (lt = Layout 4 4) as -> by congruence. cbn [l_size] in L2. apply laid_le in L2. lia. }
    repeat split; try lia; try assumption.
    intros w [->|I].
    + exists l, q. split; [assumption|]. lia.
    + auto.
Qed.

(** What the layout oracle knows comes from a definition, and is good. *)
Definition lay_inv (P : Prop) (ds : list type_definition) (m : lmap) : Prop :=
  all_good P m /\
  forall t l, lookup t m = Some l -> exists d, In d ds /\ self_type d = t /\ def_layout m d = Ret (Some l).

Lemma def_layout_good (P : Prop) m d l : all_good P m ->
  (P -> match d with TDRecord _ [] | TDEnum _ [] => False | _ => True end) ->
  def_layout m d = Ret (Some l) -> good_layout P l.
Proof.
  intros G S0 H. destruct d; cbn [def_layout] in H; try discriminate.
  - ob H. assert (x = l) as -> by congruence. unfold layout_for_types in H0. ob H0.
    destruct x as [q l']. assert (l' = l) as -> by (cbn in H0; congruence).
    pose proof (offsets_spec P m G _ _ _ _ builder_pow2 ltac:(cbn; lia) H1) as (_ & _ & _ & A & B & C).
    cbn [builder_new l_size] in *. split; [exact A|]. split; [lia|]. intros p. apply C; [exact p|congruence].
  - ob H. assert (x = l) as -> by congruence. unfold layout_for_types in H0. ob H0.
    destruct x as [q l']. assert (l' = l) as -> by (cbn in H0; congruence).
    pose proof (offsets_spec P m G _ _ _ _ builder_pow2 ltac:(cbn; lia) H1) as (_ & _ & _ & A & B & C).
    cbn [builder_new l_size] in *. split; [exact A|]. split; [lia|]. intros p. apply C; [exact p|].
    intros ->. exact (S0 p).
  - ob H. ob H. assert (x0 = l) as -> by congruence. apply layout_new_inv in H1. subst l.
    pose proof (enum_size_spec P m G _ 0 1 _ builder_pow2 ltac:(lia) H0) as (A & B & _ & C & _).
    split; [exact A|]. cbn [l_size]. split; [lia|]. intros p.
    enough (4 <= fst x) by lia. apply C. intros ->. exact (S0 p).
Qed.

Lemma build_layouts_inv (P : Prop) all : (P -> solid all) -> forall ds done m m',
  (forall d, In d (done ++ ds) -> In d all) ->
  lay_inv P done m -> build_layouts m ds = Ret m' -> lay_inv P (done ++ ds) m'.
Proof.
  intros SO. induction ds as [|d ds IH]; intros done m m' IN I H; cbn [build_layouts] in H.
  - rewrite app_nil_r. assert (m' = m) as -> by congruence. exact I.
  - replace (done ++ d :: ds) with ((done ++ [d]) ++ ds) by (now rewrite <- app_assoc).
    assert (forall m, lay_inv P done m -> lay_inv P (done ++ [d]) m) as W.
    { intros m0 [A B]. split; [exact A|]. intros t l L. destruct (B t l L) as (x & X & Y).
      exists x. split; [apply in_or_app; now left|exact Y]. }
    assert (forall d', In d' ((done ++ [d]) ++ ds) -> In d' all) as IN'.
    { intros d' D. apply IN. rewrite <- app_assoc in D. exact D. }
    destruct (lookup (self_type d) m) eqn:E; [eapply IH; [exact IN'|apply W; exact I|exact H]|].
    ob H. destruct x as [l|]; [|eapply IH; [exact IN'|apply W; exact I|exact H]].
    eapply IH; [exact IN'| |exact H]. destruct I as [A B]. split.
    + intros t l' L. cbn [lookup] in L. destruct (ty_eqb t (self_type d)) eqn:T.
      * assert (l' = l) as -> by congruence. eapply def_layout_good; [exact A| |exact H0].
        intros p. destruct (SO p) as [S1 S2].
        assert (In d all) by (apply IN; apply in_or_app; right; now left).
        destruct d as [| | | | | |s [|f fs]|s [|v vs]| | | |]; auto; [apply (S1 s)|apply (S2 s)]; assumption.
      * eapply A; exact L.
    + intros t l' L. cbn [lookup] in L. destruct (ty_eqb t (self_type d)) eqn:T.
      * apply ty_eqb_eq in T. subst t. assert (l' = l) as -> by congruence.
        exists d. split; [apply in_or_app; right; now left|]. split; [reflexivity|].
        apply def_layout_mono; assumption.
      * destruct (B t l' L) as (x & X & Y & Z). exists x. split; [apply in_or_app; now left|].
        split; [exact Y|]. apply def_layout_mono; assumption.
Qed.

(** ** FFI types *)

Lemma ffi_types_mono f t l s ls : ffi_types f t = Ret l -> lookup s f = None ->
  ffi_types ((s, ls) :: f) t = Ret l.
Proof.
  unfold ffi_types. destruct (standard t); [auto|]. intros H N. cbn [lookup].
  destruct (lookup t f) eqn:E; [|discriminate]. rewrite ty_eqb_neq; [exact H|].
  intros ->. congruence.
Qed.

Lemma omap_mono {A B} (f f' : A -> out B) : (forall a b, f a = Ret b -> f' a = Ret b) ->
  forall l r, omap f l = Ret r -> omap f' l = Ret r.
Proof.
  intros M. induction l as [|a l IH]; intros r H; cbn [omap] in *; [exact H|].
  ob H. rewrite (M _ _ H0). cbn [obind]. ob H. rewrite (IH _ H1). exact H.
Qed.

Lemma ffi_types_all_mono f ts l s ls : ffi_types_all f ts = Ret l -> lookup s f = None ->
  ffi_types_all ((s, ls) :: f) ts = Ret l.
Proof.
  intros H N. unfold ffi_types_all in *. ob H.
  rewrite (omap_mono _ (ffi_types ((s, ls) :: f)) (fun a b E => ffi_types_mono f a b s ls E N) _ _ H0).
  exact H.
Qed.

Lemma enum_ffi_mono f s ls : lookup s f = None -> forall vs all r,
  enum_ffi f vs all = Ret r -> enum_ffi ((s, ls) :: f) vs all = Ret r.
Proof.
  intros N. induction vs as [|v vs IH]; intros all r H; cbn [enum_ffi] in *; [exact H|].
  ob H. rewrite (ffi_types_all_mono _ _ _ _ _ H0 N). cbn [obind]. auto.
Qed.

Lemma def_ffi_mono flat f s ls d o : lookup s f = None ->
  def_ffi flat f d = Ret o -> def_ffi flat ((s, ls) :: f) d = Ret o.
Proof.
  intros N H. destruct d; cbn [def_ffi] in *; try exact H.
  - destruct (standard self); [exact H|]. ob H. rewrite (ffi_types_mono _ _ _ _ _ H0 N). exact H.
  - ob H. rewrite (ffi_types_all_mono _ _ _ _ _ H0 N). exact H.
  - destruct (flat self); [exact H|]. ob H. rewrite (enum_ffi_mono _ _ _ N _ _ _ H0). exact H.
  - ob H. rewrite (ffi_types_mono _ _ _ _ _ H0 N). exact H.
Qed.

Definition ffi_inv flat (ds : list type_definition) (f : fmap) : Prop :=
  forall t l, lookup t f = Some l ->
    exists d, In d ds /\ self_type d = t /\ def_ffi flat f d = Ret (Some l).

Lemma build_ffi_inv flat : forall ds done f f',
  NoDup (map self_type (done ++ ds)) ->
  ffi_inv flat done f -> build_ffi flat f ds = Ret f' -> ffi_inv flat (done ++ ds) f'.
Proof.
  induction ds as [|d ds IH]; intros done f f' ND I H; cbn [build_ffi] in H.
  - rewrite app_nil_r. assert (f' = f) as -> by congruence. exact I.
  - assert (lookup (self_type d) f = None) as N.
    { destruct (lookup (self_type d) f) eqn:E; [|reflexivity]. exfalso.
      destruct (I _ _ E) as (x & X & Y & _). rewrite map_app in ND. cbn [map] in ND.
      apply NoDup_remove_2 in ND. apply ND. apply in_or_app. left. rewrite <- Y. now apply in_map. }
    replace (done ++ d :: ds) with ((done ++ [d]) ++ ds) in * by (now rewrite <- app_assoc).
    assert (ffi_inv flat (done ++ [d]) f) as W.
    { intros t l L. destruct (I t l L) as (x & X & Y).
      exists x. split; [apply in_or_app; now left|exact Y]. }
    ob H. destruct x as [l|]; [|eapply IH; [exact ND|exact W|exact H]].
    eapply IH; [exact ND| |exact H]. intros t l' L. cbn [lookup] in L.
    destruct (ty_eqb t (self_type d)) eqn:T.
    + apply ty_eqb_eq in T. subst t. assert (l' = l) as -> by congruence.
      exists d. split; [apply in_or_app; right; now left|]. split; [reflexivity|].
      apply def_ffi_mono; assumption.
    + destruct (W t l' L) as (x & X & Y & Z). exists x. split; [exact X|].
      split; [exact Y|]. apply def_ffi_mono; assumption.
Qed.

(** ** Slots *)

Lemma mem_fty_in t l : mem_fty t l = true <-> In t l.
Proof.
  induction l as [|x l IH]; cbn [mem_fty In]; [split; [discriminate|tauto]|].
  rewrite orb_true_iff, fty_beq_eq, IH. firstorder congruence.
Qed.

Definition cnt (t : fty) (l : list fty) : nat := count_occ fty_eq_dec l t.

Lemma cnt_app t a b : cnt t (a ++ b) = (cnt t a + cnt t b)%nat.
Proof. apply count_occ_app. Qed.

Lemma to_set_in t l : In t (to_set l) <-> In t l.
Proof.
  induction l as [|x l IH]; cbn [to_set In]; [tauto|].
  destruct (mem_fty x l) eqn:E.
  - apply mem_fty_in in E. rewrite IH. split; [auto|]. intros [->|I]; assumption.
  - cbn [In]. rewrite IH. tauto.
Qed.

Lemma set_remove_in t x l : In x (set_remove t l) <-> In x l /\ x <> t.
Proof.
  unfold set_remove. rewrite filter_In. split; intros [A B]; split; auto.
  - intros ->. now rewrite fty_beq_refl in B.
  - destruct (fty_beq t x) eqn:E; [|reflexivity]. apply fty_beq_eq in E. congruence.
Qed.

(** Adding the fields of a variant keeps what is there, and leaves enough of each type. *)
Lemma add_fields_spec fields : forall existing all,
  exists more, add_fields existing fields all = all ++ more /\
    forall t, (cnt t fields <= cnt t more + (if in_dec fty_eq_dec t existing then 1 else 0))%nat.
Proof.
  induction fields as [|x fields IH]; intros existing all; cbn [add_fields].
  - exists []. rewrite app_nil_r. split; [reflexivity|]. intros t. cbn. lia.
  - destruct (mem_fty x existing) eqn:E.
    + destruct (IH (set_remove x existing) all) as (more & A & B). exists more. split; [exact A|].
      intros t. specialize (B t). unfold cnt in *. cbn [count_occ].
      apply mem_fty_in in E.
      destruct (fty_eq_dec x t) as [->|N].
      * destruct (in_dec fty_eq_dec t (set_remove t existing)) as [I|_].
        { apply set_remove_in in I. destruct I. congruence. }
        destruct (in_dec fty_eq_dec t existing) as [_|I]; [lia|contradiction].
      * destruct (in_dec fty_eq_dec t (set_remove x existing)) as [I|I],
          (in_dec fty_eq_dec t existing) as [J|J]; try lia.
        apply set_remove_in in I. destruct I. contradiction.
    + destruct (IH existing (all ++ [x])) as (more & A & B). exists (x :: more). split.
      * rewrite A, <- app_assoc. reflexivity.
      * intros t. specialize (B t). unfold cnt in *. cbn [count_occ].
        destruct (fty_eq_dec x t); lia.
Qed.

Lemma tl_app {A} (l m : list A) : l <> [] -> tl (l ++ m) = tl l ++ m.
Proof. destruct l; [congruence|reflexivity]. Qed.

Lemma enum_ffi_spec f : forall vs all r, all <> [] -> enum_ffi f vs all = Ret r ->
  (exists more, r = all ++ more) /\
  forall v, In v vs -> exists fields, ffi_types_all f v = Ret fields /\
    forall t, (cnt t fields <= cnt t (tl r))%nat.
Proof.
  induction vs as [|v vs IH]; intros all r NE H; cbn [enum_ffi] in H.
  - assert (r = all) as -> by congruence. split; [exists []; now rewrite app_nil_r|]. intros v [].
  - ob H. destruct (add_fields_spec x (to_set (tl all)) all) as (more & A & B).
    rewrite A in H. apply IH in H; [|destruct all; [congruence|discriminate]].
    destruct H as [[more' R] V]. split.
    + exists (more ++ more'). now rewrite R, <- app_assoc.
    + intros w [->|I]; [|auto]. exists x. split; [assumption|]. intros t. rewrite R.
      rewrite <- app_assoc, (tl_app all) by assumption. rewrite !cnt_app.
      specialize (B t). destruct (in_dec fty_eq_dec t (to_set (tl all))) as [I|I]; [|lia].
      apply (proj1 (to_set_in _ _)) in I. apply (proj1 (count_occ_In fty_eq_dec _ _)) in I.
      unfold cnt in *. lia.
Qed.

Lemma set_nth_perm {A} (x y : A) : forall l i, nth_error l i = Some y ->
  Permutation (y :: set_nth i x l) (x :: l).
Proof.
  induction l as [|z l IH]; intros i H; destruct i as [|i]; cbn [nth_error set_nth] in *; try discriminate.
  - assert (z = y) as -> by congruence. apply perm_swap.
  - specialize (IH i H).
    eapply perm_trans; [apply perm_swap|]. eapply perm_trans; [apply perm_skip; exact IH|].
    apply perm_swap.
Qed.

Lemma swap_remove_perm {A} (l : list A) i y : nth_error l i = Some y ->
  Permutation (y :: swap_remove l i) l.
Proof.
  intros H. unfold swap_remove. destruct l as [|z l] using rev_ind; [destruct i; discriminate|]. clear IHl.
  rewrite rev_app_distr. cbn [rev app]. rewrite removelast_last.
  destruct (Nat.ltb_spec i (length l)).
  - rewrite nth_error_app1 in H by assumption.
    eapply perm_trans; [apply set_nth_perm; exact H|].
    apply (Permutation_app_comm [z] l).
  - rewrite nth_error_app2 in H by assumption.
    destruct (i - length l)%nat as [|k]; cbn [nth_error] in H; [|destruct k; discriminate].
    assert (z = y) as -> by congruence. apply (Permutation_app_comm [y] l).
Qed.

Lemma position_some t : forall l i ix, position t l = Some (i, ix) -> nth_error l i = Some (ix, t).
Proof.
  induction l as [|[ix' t'] l IH]; intros i ix H; cbn [position] in H; [discriminate|].
  destruct (fty_beq t' t) eqn:E.
  - apply fty_beq_eq in E. assert (i = O) as -> by congruence. cbn. congruence.
  - destruct (position t l) as [[i' ix'']|]; [|discriminate].
    assert (i = S i') as -> by congruence. cbn [nth_error]. apply IH. congruence.
Qed.

Lemma position_none t : forall l, position t l = None -> ~ In t (map snd l).
Proof.
  induction l as [|[ix' t'] l IH]; intros H; cbn [position map snd In] in *; [tauto|].
  destruct (fty_beq t' t) eqn:E; [discriminate|].
  destruct (position t l) as [[? ?]|]; [discriminate|].
  intros [->|I]; [now rewrite fty_beq_refl in E|]. now apply IH.
Qed.

(** Allocating: what is asked for is available, and it is taken out. *)
Lemma alloc_slots_spec : forall ts avail,
  (forall t, (cnt t ts <= cnt t (map snd avail))%nat) ->
  exists slots rest, alloc_slots avail ts = Ret (slots, rest) /\
    length slots = length ts /\
    Permutation (combine slots ts ++ rest) avail.
Proof.
  induction ts as [|t ts IH]; intros avail H; cbn [alloc_slots].
  - exists [], avail. repeat split. apply Permutation_refl.
  - assert (exists i ix, position t avail = Some (i, ix)) as (i & ix & PO).
    { destruct (position t avail) as [[i ix]|] eqn:E; [eauto|]. exfalso.
      apply position_none in E. apply (count_occ_not_In fty_eq_dec) in E.
      specialize (H t). unfold cnt in *. cbn [count_occ] in H.
      destruct (fty_eq_dec t t); [lia|congruence]. }
    unfold alloc_slot. rewrite PO. cbn [obind fst snd].
    pose proof (swap_remove_perm _ _ _ (position_some _ _ _ _ PO)) as PM.
    destruct (IH (swap_remove avail i)) as (slots & rest & A & B & C).
    { intros u. specialize (H u).
      pose proof (Permutation_map snd PM) as PM'. cbn [map snd] in PM'.
      pose proof (proj1 (Permutation_count_occ fty_eq_dec _ _) PM' u) as Q.
      unfold cnt in *. cbn [count_occ] in *. destruct (fty_eq_dec t u); lia. }
    rewrite A. cbn [obind fst snd]. exists (ix :: slots), rest. split; [reflexivity|].
    split; [cbn; now rewrite B|]. cbn [combine app].
    eapply perm_trans; [apply perm_skip; exact C|exact PM].
Qed.

(** [slots_of slots fieldss]: the pairs of slot and type, for lists of the same shape. *)
Definition slot_pairs (slots : list (list nat)) (tss : list (list fty)) : list (nat * fty) :=
  concat (map (fun p => combine (fst p) (snd p)) (combine slots tss)).

Lemma field_slots_spec f : forall ts tss avail,
  omap (ffi_types f) ts = Ret tss ->
  (forall t, (cnt t (concat tss) <= cnt t (map snd avail))%nat) ->
  exists slots rest, field_slots f avail ts = Ret slots /\
    map (@length nat) slots = map (@length fty) tss /\
    Permutation (slot_pairs slots tss ++ rest) avail.
Proof.
  induction ts as [|t ts IH]; intros tss avail H C; cbn [omap field_slots] in *.
  - assert (tss = []) as -> by congruence. exists [], avail. repeat split. apply Permutation_refl.
  - ob H. ob H. assert (tss = x :: x0) as -> by congruence. rewrite H0. cbn [obind].
    destruct (alloc_slots_spec x avail) as (sl & rest & A & B & D).
    { intros u. specialize (C u). cbn [concat] in C. rewrite cnt_app in C. lia. }
    rewrite A. cbn [obind fst snd].
    destruct (IH x0 rest H1) as (slots & rest' & A' & B' & D').
    { intros u. specialize (C u). cbn [concat] in C. rewrite cnt_app in C.
      pose proof (Permutation_map snd D) as PM.
      pose proof (proj1 (Permutation_count_occ fty_eq_dec _ _) PM u) as Q.
      rewrite map_app, count_occ_app in Q.
      assert (map snd (combine sl x) = x) as E.
      { clear - B. revert x B. induction sl as [|a sl IH]; intros [|b x] B; try discriminate; cbn; [reflexivity|].
        f_equal. apply IH. now injection B. }
      rewrite E in Q. unfold cnt in *. lia. }
    rewrite A'. cbn [obind]. exists (sl :: slots), rest'. split; [reflexivity|].
    split; [cbn [map]; congruence|].
    unfold slot_pairs in *. cbn [combine map concat fst snd].
    rewrite <- app_assoc. eapply perm_trans; [apply Permutation_app_head; exact D'|exact D].
Qed.

Lemma available_spec all : available all = combine (seq 1 (length all - 1)) (tl all).
Proof.
  unfold available. destruct all as [|x all]; [reflexivity|].
  cbn [length seq combine tl]. now rewrite Nat.sub_0_r || rewrite Nat.sub_succ, Nat.sub_0_r.
Qed.

Lemma map_snd_combine {A B} (a : list A) : forall b : list B, length a = length b -> map snd (combine a b) = b.
Proof.
  induction a as [|x a IH]; intros [|y b] H; try discriminate; cbn; [reflexivity|].
  f_equal. apply IH. now injection H.
Qed.

Lemma map_fst_combine {A B} (a : list A) : forall b : list B, length a = length b -> map fst (combine a b) = a.
Proof.
  induction a as [|x a IH]; intros [|y b] H; try discriminate; cbn; [reflexivity|].
  f_equal. apply IH. now injection H.
Qed.

Lemma available_types all : map snd (available all) = tl all.
Proof.
  rewrite available_spec. apply map_snd_combine. rewrite seq_length. destruct all; cbn; lia.
Qed.

Lemma available_slots all : map fst (available all) = seq 1 (length all - 1).
Proof.
  rewrite available_spec. apply map_fst_combine. rewrite seq_length. destruct all; cbn; lia.
Qed.

(** ** What generating establishes *)

Lemma standard_nonempty t l : standard t = Some l -> l <> [].
Proof.
  intros H. destruct t; cbn [standard] in H; try discriminate;
    try (assert (l <> []) by (intros ->; discriminate); assumption).
  - destruct t; try discriminate; try (intros ->; discriminate).
    destruct t; try discriminate; intros ->; discriminate.
  - destruct (array_type t); intros ->; discriminate.
Qed.

Lemma ffi_types_nonempty (f : fmap) t l :
  (forall t l, lookup t f = Some l -> l <> []) -> ffi_types f t = Ret l -> l <> [].
Proof.
  intros N H. unfold ffi_types in H. destruct (standard t) eqn:E.
  - assert (l0 = l) as -> by congruence. eapply standard_nonempty; exact E.
  - destruct (lookup t f) eqn:E'; [|discriminate]. cbn in H.
    assert (l0 = l) as -> by congruence. eapply N; exact E'.
Qed.

Lemma build_ffi_nonempty flat all : solid all -> forall ds f f',
  (forall d, In d ds -> In d all) ->
  (forall t l, lookup t f = Some l -> l <> []) -> build_ffi flat f ds = Ret f' ->
  forall t l, lookup t f' = Some l -> l <> [].
Proof.
  intros [SR SE]. induction ds as [|d ds IH]; intros f f' IN N H; cbn [build_ffi] in H.
  - assert (f' = f) as -> by congruence. exact N.
  - ob H. assert (forall d', In d' ds -> In d' all) as IN' by (intros; apply IN; now right).
    destruct x as [l|]; [|eapply IH; eassumption].
    eapply IH; [exact IN'| |exact H]. intros t l' L. cbn [lookup] in L.
    destruct (ty_eqb t (self_type d)); [|eapply N; exact L].
    assert (l' = l) as -> by congruence. clear L.
    assert (In d all) as ID by (apply IN; now left).
    destruct d; cbn [def_ffi] in H0; try discriminate.
    + destruct (standard self); [discriminate|]. ob H0. intros ->. discriminate.
    + ob H0. assert (x = l) as -> by congruence. unfold ffi_types_all in H1. ob H1.
      destruct fields as [|t0 fields]; [exfalso; eapply SR; exact ID|].
      cbn [omap] in H2. ob H2. ob H2.
      assert (l = concat (x0 :: x1)) as -> by congruence. cbn [concat]. intros Q.
      apply app_eq_nil in Q. destruct Q as [Q _].
      eapply ffi_types_nonempty; [exact N|exact H3|exact Q].
    + destruct (flat self).
      * intros ->. discriminate.
      * ob H0. assert (x = l) as -> by congruence.
        apply enum_ffi_spec in H1; [|discriminate]. destruct H1 as [[more ->] _]. discriminate.
    + ob H0. assert (x = l) as -> by congruence. eapply ffi_types_nonempty; [exact N|exact H1].
Qed.

Lemma NoDup_map_inj {A B} (f : A -> B) l a b :
  NoDup (map f l) -> In a l -> In b l -> f a = f b -> a = b.
Proof.
  induction l as [|x l IH]; intros ND I J E; [destruct I|]. cbn [map] in ND. inversion ND; subst.
  destruct I as [->|I], J as [->|J]; auto.
  - exfalso. apply H1. rewrite E. now apply in_map.
  - exfalso. apply H1. rewrite <- E. now apply in_map.
Qed.

Lemma find_record_in ds t fs : find_record ds t = Some fs -> In (TDRecord t fs) ds.
Proof.
  induction ds as [|d ds IH]; cbn [find_record]; [discriminate|].
  destruct d; intros H; try (right; auto; fail).
  destruct (ty_eqb t self) eqn:E; [|right; auto]. apply ty_eqb_eq in E. left. congruence.
Qed.

Lemma find_record_some ds t fs : In (TDRecord t fs) ds -> exists fs', find_record ds t = Some fs'.
Proof.
  induction ds as [|d ds IH]; intros I; [destruct I|]. cbn [find_record].
  destruct I as [->|I]; [rewrite ty_eqb_refl; eauto|].
  destruct d; auto. destruct (ty_eqb t self); eauto.
Qed.

Lemma find_enum_in ds t vs : find_enum ds t = Some vs -> In (TDEnum t vs) ds.
Proof.
  induction ds as [|d ds IH]; cbn [find_enum]; [discriminate|].
  destruct d; intros H; try (right; auto; fail).
  destruct (ty_eqb t self) eqn:E; [|right; auto]. apply ty_eqb_eq in E. left. congruence.
Qed.

Lemma find_enum_some ds t vs : In (TDEnum t vs) ds -> exists vs', find_enum ds t = Some vs'.
Proof.
  induction ds as [|d ds IH]; intros I; [destruct I|]. cbn [find_enum].
  destruct I as [->|I]; [rewrite ty_eqb_refl; eauto|].
  destruct d; auto. destruct (ty_eqb t self); eauto.
Qed.

Lemma cycle_length n ts : length (cycle n ts) = (n * length ts)%nat.
Proof. induction n; cbn [cycle]; [reflexivity|]. rewrite app_length, IHn. lia. Qed.

Section generated.
  Context (flat : ty -> bool) (ds : list type_definition) (g : gen).
  Hypothesis GEN : generate flat ds = Ret g.
  Hypothesis IF : interface ds.

  Lemma gen_defs : g_defs g = ds.
  Proof. pose proof GEN as H. unfold generate in H. ob H. ob H. ob H. injection H as <-. reflexivity. Qed.

  Lemma gen_flat : g_flat g = flat.
  Proof. pose proof GEN as H. unfold generate in H. ob H. ob H. ob H. injection H as <-. reflexivity. Qed.

  Lemma gen_lay : lay_inv (solid ds) ds (g_lay g).
  Proof.
    pose proof GEN as H. unfold generate in H. ob H. ob H. ob H. injection H as <-. cbn [g_lay].
    change ds with ([] ++ ds) at 2. eapply (build_layouts_inv (solid ds) ds); [auto| | |exact H1].
    - auto.
    - split; intros t l L; discriminate.
  Qed.

  Lemma gen_ffi : ffi_inv flat ds (g_ffi g).
  Proof.
    pose proof GEN as H. unfold generate in H. ob H. ob H. ob H. injection H as <-. cbn [g_ffi].
    change ds with ([] ++ ds). eapply build_ffi_inv; [| |exact H0].
    - apply IF.
    - intros t l L; discriminate.
  Qed.

  Lemma gen_map d : In d ds -> map_def (g_ffi g) (g_lay g) d = Ret tt.
  Proof.
    pose proof GEN as H. unfold generate in H. ob H. ob H. ob H. injection H as <-.
    cbn [g_ffi g_lay]. intros I. destruct (omap_in _ _ _ _ H2 I) as [[] E]. exact E.
  Qed.

  Lemma gen_unique d d' : In d ds -> In d' ds -> self_type d = self_type d' -> d = d'.
  Proof. apply NoDup_map_inj, IF. Qed.

  Lemma gen_formed d : In d ds -> well_formed d.
  Proof. intros I. pose proof (iface_formed ds IF) as W. rewrite Forall_forall in W. auto. Qed.

  Lemma gen_record t fs : In (TDRecord t fs) ds -> find_record (g_defs g) t = Some fs.
  Proof.
    intros I. rewrite gen_defs. destruct (find_record_some _ _ _ I) as [fs' E]. rewrite E.
    apply find_record_in in E. pose proof (gen_unique _ _ I E eq_refl) as Q. congruence.
  Qed.

  Lemma gen_enum t vs : In (TDEnum t vs) ds -> find_enum (g_defs g) t = Some vs.
  Proof.
    intros I. rewrite gen_defs. destruct (find_enum_some _ _ _ I) as [vs' E]. rewrite E.
    apply find_enum_in in E. pose proof (gen_unique _ _ I E eq_refl) as Q. congruence.
  Qed.

  Lemma gen_good : all_good (solid ds) (g_lay g).
  Proof. apply gen_lay. Qed.

  Lemma lookup_layout d l : In d ds -> lookup (self_type d) (g_lay g) = Some l ->
    def_layout (g_lay g) d = Ret (Some l).
  Proof.
    intros I L. destruct gen_lay as [_ B]. destruct (B _ _ L) as (d' & J & E & D).
    now rewrite <- (gen_unique _ _ J I E).
  Qed.

  Lemma record_layout t fs l : In (TDRecord t fs) ds -> get (g_lay g) t = Ret l ->
    exists r, offsets (g_lay g) builder_new fs = Ret (r, l).
  Proof.
    intros I H. destruct (gen_formed _ I) as (mp & n & ->). cbn [get] in H.
    destruct (lookup (TRecord mp n) (g_lay g)) eqn:E; [|discriminate]. cbn in H.
    assert (l0 = l) as -> by congruence.
    pose proof (lookup_layout _ _ I E) as D. cbn [def_layout] in D. ob D.
    unfold layout_for_types in H0. ob H0. destruct x0 as [r l']. exists r. cbn in H0. congruence.
  Qed.

  Lemma enum_layout t vs v l : In (TDEnum t vs) ds -> In v vs -> get (g_lay g) t = Ret l ->
    exists r, variant_offsets (g_lay g) v = Ret r /\ map snd r = v /\ 4 <= l_size l /\
      4 <= l_align l /\ laid (g_lay g) 4 (l_size l) (l_align l) r.
  Proof.
    intros I V H. destruct (gen_formed _ I) as (mp & n & ->). cbn [get] in H.
    destruct (lookup (TEnum mp n) (g_lay g)) eqn:E; [|discriminate]. cbn in H.
    assert (l0 = l) as -> by congruence.
    pose proof (lookup_layout _ _ I E) as D. cbn [def_layout] in D. ob D. ob D.
    apply layout_new_inv in H1. assert (l = Layout (fst x) (snd x)) as -> by congruence.
    destruct (enum_size_spec _ _ gen_good _ 0 1 _ builder_pow2 ltac:(lia) H0) as (_ & _ & _ & _ & C).
    destruct (C v V) as (l' & q & O & SL & AL).
    pose proof (offsets_spec _ _ gen_good _ _ _ _ builder_pow2 ltac:(cbn; lia) O) as (L & M & _).
    unfold variant_offsets. rewrite O. cbn [obind fst l_size l_align] in *.
    destruct q as [|[o t] q]; cbn [map snd] in M; [discriminate|].
    assert (t = TI32) as -> by congruence. cbn [laid] in L.
    destruct L as (lt & Gt & L1 & _ & _ & _ & LA & L2). cbn [get] in Gt.
    assert (lt = Layout 4 4) as -> by congruence. cbn [l_size l_align builder_new] in *.
    pose proof (laid_le _ _ _ _ _ L2).
    exists q. split; [reflexivity|]. split; [congruence|]. split; [lia|]. split; [lia|].
    eapply laid_weaken; [| | |exact L2]; lia.
  Qed.

  Lemma option_layout i l : In (TDOptional (TOption i) i) ds -> get (g_lay g) (TOption i) = Ret l ->
    exists o li, some_offset g i = Ret o /\ get (g_lay g) i = Ret li /\ 1 <= o /\
      (l_align li | o) /\ pow2 (l_align li) /\ l_align li <= l_align l /\ pow2 (l_align l) /\
      0 <= l_size li /\ o + l_size li <= l_size l.
  Proof.
    intros I H. cbn [get] in H.
    destruct (lookup (TOption i) (g_lay g)) eqn:E; [|discriminate]. cbn in H.
    assert (l0 = l) as -> by congruence.
    pose proof (lookup_layout _ _ I E) as D. cbn [def_layout] in D. ob D.
    assert (x = l) as -> by congruence. unfold layout_for_types in H0. ob H0. destruct x as [q l'].
    assert (l' = l) as -> by (cbn in H0; congruence). clear H0 D.
    pose proof (offsets_spec _ _ gen_good _ _ _ _ builder_pow2 ltac:(cbn; lia) H1)
      as (L & M & _ & PA & _).
    unfold some_offset. rewrite H1. cbn [obind fst].
    destruct q as [|[o1 t1] [|[o2 t2] [|]]]; cbn [map snd] in M; try discriminate.
    assert (t1 = TBool) as -> by congruence. assert (t2 = i) as -> by congruence.
    cbn [laid builder_new l_size] in L.
    destruct L as (lt & Gt & L1 & _ & _ & _ & _ & li & Gi & L2 & L3 & L4 & L5 & L6 & L7).
    cbn [get] in Gt. assert (lt = Layout 1 1) as -> by congruence. cbn [l_size] in *.
    exists o2, li. cbn [fst]. repeat (split; [first [assumption|reflexivity|lia]|]). lia.
  Qed.

  (** Items of collections. *)
  Lemma item_layout ts x : ts <> [] -> solid ds -> item_of (g_lay g) ts = Ret x ->
    0 < fst x /\ map snd (snd x) = ts /\
    exists al, pow2 al /\ (al | fst x) /\ laid (g_lay g) 0 (fst x) al (snd x).
  Proof.
    intros NE SO H. unfold item_of in H. ob H. destruct x0 as [r l]. cbn [fst snd] in H.
    assert (x = (l_size (pad_to_align l), r)) as -> by congruence. cbn [fst snd].
    pose proof (offsets_spec _ _ gen_good _ _ _ _ builder_pow2 ltac:(cbn; lia) H0)
      as (L & M & _ & PA & _ & Z0).
    cbn [builder_new l_size] in *. unfold pad_to_align. cbn [l_size].
    destruct (round_up_spec (l_size l) (l_align l) (pow2_pos _ PA)) as [R D].
    specialize (Z0 SO NE). split; [lia|]. split; [exact M|].
    exists (l_align l). split; [exact PA|]. split; [exact D|].
    eapply laid_weaken; [| | |exact L]; lia.
  Qed.

  Lemma coll_layout t ts : solid ds -> defined ds t -> coll_parts t = Some ts ->
    exists isz ps al, coll_info g t = Ret (isz, ps) /\ item_of (g_lay g) ts = Ret (isz, ps) /\
      0 < isz /\ map snd ps = ts /\ pow2 al /\ (al | isz) /\ laid (g_lay g) 0 isz al ps.
  Proof.
    intros SO D C.
    assert (ts <> [] /\ exists x, item_of (g_lay g) ts = Ret x) as [NE [x X]].
    { destruct t; cbn [coll_parts] in C; try discriminate; cbn [defined] in D;
        pose proof (gen_map _ D) as MD; cbn [map_def] in MD; ob MD;
        (assert (ts <> []) by congruence); split; try assumption; exists x; congruence. }
    destruct (item_layout _ _ NE SO X) as (A & B & al & E & F & G).
    exists (fst x), (snd x), al. unfold coll_info. rewrite C. cbn [of_opt obind]. rewrite X.
    cbn [obind]. replace (fst x =? 0) with false by (symmetry; apply Z.eqb_neq; lia).
    rewrite <- surjective_pairing. repeat (split; [first [assumption|reflexivity]|]). exact G.
  Qed.

  Lemma items_at_types n isz ps : forall pos,
    map snd (items_at n isz ps pos) = cycle n (map snd ps).
  Proof.
    induction n as [|n IH]; intros pos; cbn [items_at cycle]; [reflexivity|].
    rewrite map_app, IH, map_map. reflexivity.
  Qed.

  Lemma items_at_laid isz ps al : pow2 al -> (al | isz) -> 0 < isz -> laid (g_lay g) 0 isz al ps ->
    forall n pos, (al | pos) ->
    laid (g_lay g) pos (pos + Z.of_nat n * isz) al (items_at n isz ps pos).
  Proof.
    intros PA D I L. induction n as [|n IH]; intros pos P; cbn [items_at].
    - cbn [laid]. lia.
    - eapply laid_app.
      + pose proof (laid_shift _ _ _ _ _ pos PA P L) as Q. rewrite Z.add_0_r in Q. exact Q.
      + replace (pos + Z.of_nat (S n) * isz) with ((pos + isz) + Z.of_nat n * isz) by lia.
        apply IH. now apply Z.divide_add_r.
  Qed.

  (** FFI types. *)
  Lemma ffi_defined t : defined ds t -> exists l, ffi_types (g_ffi g) t = Ret l.
  Proof.
    intros D. destruct t; cbn [defined] in D; try (eexists; reflexivity).
    - destruct D as [fs I]. pose proof (gen_map _ I) as M. cbn [map_def] in M. ob M. eauto.
    - destruct D as [vs I]. pose proof (gen_map _ I) as M. cbn [map_def] in M. ob M. eauto.
    - pose proof (gen_map _ D) as M. cbn [map_def] in M. ob M. ob M. ob M. eauto.
    - unfold ffi_types. cbn [standard]. destruct (array_type t); eauto.
    - pose proof (gen_map _ D) as M. cbn [map_def] in M. ob M. ob M. eauto.
  Qed.

  Lemma ffi_nonempty t l : solid ds -> ffi_types (g_ffi g) t = Ret l -> l <> [].
  Proof.
    intros SO. apply ffi_types_nonempty.
    pose proof GEN as H. unfold generate in H. ob H. ob H. ob H. injection H as <-. cbn [g_ffi].
    eapply (build_ffi_nonempty flat ds SO ds); [auto| |exact H0]. intros t' l' L. discriminate.
  Qed.

  Lemma lookup_ffi d l : In d ds -> lookup (self_type d) (g_ffi g) = Some l ->
    def_ffi flat (g_ffi g) d = Ret (Some l).
  Proof.
    intros I L. destruct (gen_ffi _ _ L) as (d' & J & E & D).
    now rewrite <- (gen_unique _ _ J I E).
  Qed.

  Lemma record_ffi t fs l : In (TDRecord t fs) ds -> ffi_types (g_ffi g) t = Ret l ->
    ffi_types_all (g_ffi g) fs = Ret l.
  Proof.
    intros I H. destruct (gen_formed _ I) as (mp & n & ->). unfold ffi_types in H. cbn [standard] in H.
    destruct (lookup (TRecord mp n) (g_ffi g)) eqn:E; [|discriminate]. cbn in H.
    assert (l0 = l) as -> by congruence.
    pose proof (lookup_ffi _ _ I E) as D. cbn [def_ffi] in D. ob D. congruence.
  Qed.

  Lemma enum_ffi_types t vs l : In (TDEnum t vs) ds -> ffi_types (g_ffi g) t = Ret l ->
    if flat t then l = [FtInt32; FtString]
    else enum_ffi (g_ffi g) vs [FtInt32] = Ret l.
  Proof.
    intros I H. destruct (gen_formed _ I) as (mp & n & ->). unfold ffi_types in H. cbn [standard] in H.
    destruct (lookup (TEnum mp n) (g_ffi g)) eqn:E; [|discriminate]. cbn in H.
    assert (l0 = l) as -> by congruence.
    pose proof (lookup_ffi _ _ I E) as D. cbn [def_ffi] in D.
    destruct (flat (TEnum mp n)); [congruence|]. ob D. congruence.
  Qed.

  Lemma custom_ffi mp n b l : defined ds (TCustom mp n b) ->
    ffi_types (g_ffi g) (TCustom mp n b) = Ret l -> ffi_types (g_ffi g) b = Ret l.
  Proof.
    intros I H. cbn [defined] in I. unfold ffi_types in H at 1. cbn [standard] in H.
    destruct (lookup (TCustom mp n b) (g_ffi g)) eqn:E; [|discriminate]. cbn in H.
    assert (l0 = l) as -> by congruence.
    pose proof (lookup_ffi _ _ I E) as D. cbn [def_ffi] in D. ob D. congruence.
  Qed.

  Lemma option_ffi i l : defined ds (TOption i) -> standard (TOption i) = None ->
    ffi_types (g_ffi g) (TOption i) = Ret l ->
    exists li, ffi_types (g_ffi g) i = Ret li /\ l = FtBoolean :: li.
  Proof.
    intros I S0 H. cbn [defined] in I. unfold ffi_types in H at 1. rewrite S0 in H.
    destruct (lookup (TOption i) (g_ffi g)) eqn:E; [|discriminate]. cbn in H.
    assert (l0 = l) as -> by congruence.
    pose proof (lookup_ffi _ _ I E) as D. cbn [def_ffi self_type] in D. rewrite S0 in D. ob D.
    exists x. split; [assumption|]. congruence.
  Qed.

  (** The slots of a variant. *)
  Lemma variant_slots_spec t vs v all : In (TDEnum t vs) ds -> flat t = false -> In v vs ->
    ffi_types (g_ffi g) t = Ret all ->
    exists tss slots rest,
      omap (ffi_types (g_ffi g)) v = Ret tss /\
      variant_slots (g_ffi g) t v = Ret slots /\
      map (@length nat) slots = map (@length fty) tss /\
      Permutation (slot_pairs slots tss ++ rest) (available all) /\
      exists more, all = FtInt32 :: more.
  Proof.
    intros I F V H. pose proof (enum_ffi_types _ _ _ I H) as E. rewrite F in E.
    apply enum_ffi_spec in E; [|discriminate]. destruct E as [[more A] B].
    destruct (B v V) as (fields & C & D). unfold ffi_types_all in C. ob C.
    destruct (field_slots_spec (g_ffi g) v x (available all) H0) as (slots & rest & P & Q & R).
    { intros u. rewrite available_types. assert (concat x = fields) as -> by congruence. apply D. }
    exists x, slots, rest. split; [assumption|]. unfold variant_slots. rewrite H. cbn [obind].
    split; [exact P|]. split; [exact Q|]. split; [exact R|]. exists more. exact A.
  Qed.
End generated.
