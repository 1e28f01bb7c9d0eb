(** The JNI bindings for Kotlin: layouts are sound, slots are found, and generating succeeds. *)
From Coq Require Import Permutation Relation_Operators.
From Verif Require Import Base Meta_Types Canon_Model Sort_Model Sort_Spec Sort_Proofs.
From Verif Require Import Jni_Model Jni_Spec Jni_Layout_Proofs Jni_Mem_Proofs Jni_Proofs.
Local Open Scope list_scope.
Local Open Scope Z_scope.

(** ** Layouts *)

Lemma laid_bounds m l : forall lo hi al i o t, laid m lo hi al l -> nth_error l i = Some (o, t) ->
  exists lt, get m t = Ret lt /\ lo <= o /\ (l_align lt | o) /\ pow2 (l_align lt) /\ l_align lt <= al /\
             o + l_size lt <= hi.
Proof.
  induction l as [|[o' t'] l IH]; intros lo hi al i o t H N; [destruct i; discriminate|].
  cbn [laid] in H. destruct H as (lt & G & A & B & C & D & E & F). pose proof (laid_le _ _ _ _ _ F).
  destruct i as [|i]; cbn [nth_error] in N.
  - assert (o' = o) as -> by congruence. assert (t' = t) as -> by congruence. exists lt.
    repeat (split; [assumption|]). lia.
  - destruct (IH _ _ _ _ _ _ F N) as (l0 & A' & B' & C'). exists l0. split; [exact A'|]. split; [lia|exact C'].
Qed.

Lemma laid_apart m l : forall lo hi al i j oi ti oj tj li, laid m lo hi al l -> (i < j)%nat ->
  nth_error l i = Some (oi, ti) -> nth_error l j = Some (oj, tj) -> get m ti = Ret li ->
  oi + l_size li <= oj.
Proof.
  induction l as [|[o t] l IH]; intros lo hi al i j oi ti oj tj li H IJ NI NJ G; [destruct i; discriminate|].
  cbn [laid] in H. destruct H as (lt & GT & A & B & C & D & E & F). destruct j as [|j]; [lia|].
  cbn [nth_error] in NJ. destruct i as [|i]; cbn [nth_error] in NI.
  - assert (o = oi) as -> by congruence. assert (t = ti) as -> by congruence.
    assert (lt = li) as -> by congruence.
    destruct (laid_bounds _ _ _ _ _ _ _ _ F NJ) as (_ & _ & L & _). exact L.
  - eapply IH; [exact F| |exact NI|exact NJ|exact G]. lia.
Qed.

Lemma laid_placed m lo hi al l : pow2 al -> laid m lo hi al l -> placed m lo hi al l.
Proof.
  intros PA H. constructor.
  - intros i o t N. destruct (laid_bounds _ _ _ _ _ _ _ _ H N) as (lt & A & B & C & D & E & F).
    exists lt. split; [exact A|]. split; [now apply pow2_pos|]. split; [now apply pow2_divide|].
    auto.
  - intros. eapply laid_apart; eassumption.
Qed.

Lemma build_layouts_keeps : forall ds m m' t l, build_layouts m ds = Ret m' ->
  lookup t m = Some l -> exists l', lookup t m' = Some l'.
Proof.
  induction ds as [|d ds IH]; intros m m' t l H L; cbn [build_layouts] in H.
  - assert (m' = m) as -> by congruence. eauto.
  - destruct (lookup (self_type d) m) eqn:E; [eapply IH; eassumption|]. ob H.
    destruct x as [ld|]; [|eapply IH; eassumption].
    destruct (ty_eqb t (self_type d)) eqn:T.
    + eapply (IH _ _ t ld H). cbn [lookup]. now rewrite T.
    + eapply (IH _ _ t l H). cbn [lookup]. now rewrite T.
Qed.

Lemma build_layouts_has : forall ds m m' d, build_layouts m ds = Ret m' -> In d ds ->
  match d with TDRecord _ _ | TDEnum _ _ | TDOptional _ _ => True | _ => False end ->
  exists l, lookup (self_type d) m' = Some l.
Proof.
  induction ds as [|d0 ds IH]; intros m m' d H I K; [destruct I|]. cbn [build_layouts] in H.
  destruct (lookup (self_type d0) m) eqn:E.
  - destruct I as [->|I]; [eapply build_layouts_keeps; eassumption|eapply IH; eassumption].
  - ob H. destruct I as [->|I].
    + destruct d; try (destruct K; fail); cbn [def_layout] in H0; ob H0;
        try (ob H0); (assert (exists lx, x = Some lx) as [lx ->] by (eexists; symmetry; injection H0 as <-; reflexivity));
        eapply build_layouts_keeps; try exact H; cbn [lookup self_type]; rewrite ty_eqb_refl; reflexivity.
    + destruct x; eapply IH; eassumption.
Qed.

Section sound.
  Context (flat : ty -> bool) (ds : list type_definition) (g : gen).
  Hypothesis GEN : generate flat ds = Ret g.
  Hypothesis IF : interface ds.

  Lemma layout_exists d : In d ds ->
    match d with TDRecord _ _ | TDEnum _ _ | TDOptional _ _ => True | _ => False end ->
    exists l, get (g_lay g) (self_type d) = Ret l.
  Proof.
    intros I K. pose proof GEN as H. unfold generate in H. ob H. ob H. ob H. injection H as <-. cbn [g_lay].
    destruct (build_layouts_has _ _ _ _ H1 I K) as [l L]. exists l.
    pose proof (gen_formed _ IF _ I) as W.
    destruct d; try (destruct K; fail); cbn [self_type well_formed] in *.
    - subst self. cbn [get]. now rewrite L.
    - destruct W as (mp & n & ->). cbn [get]. now rewrite L.
    - destruct W as (mp & n & ->). cbn [get]. now rewrite L.
  Qed.

  Lemma records_placed t fs : In (TDRecord t fs) ds ->
    exists l r, get (g_lay g) t = Ret l /\ offsets (g_lay g) builder_new fs = Ret (r, l) /\
      map snd r = fs /\ placed (g_lay g) 0 (l_size l) (l_align l) r.
  Proof.
    intros I. destruct (layout_exists _ I Logic.I) as [l L]. cbn [self_type] in L.
    destruct (record_layout _ _ _ GEN IF t fs l I L) as [r O]. exists l, r. split; [exact L|]. split; [exact O|].
    pose proof (offsets_spec _ _ (gen_good _ _ _ GEN) _ _ _ _ builder_pow2 ltac:(cbn; lia) O)
      as (LA & MS & _ & PA & _). split; [exact MS|]. now apply laid_placed.
  Qed.

  Lemma enums_placed t vs v : In (TDEnum t vs) ds -> In v vs ->
    exists l r, get (g_lay g) t = Ret l /\ variant_offsets (g_lay g) v = Ret r /\ map snd r = v /\
      placed (g_lay g) 4 (l_size l) (l_align l) r /\ 4 <= l_size l /\ (4 | l_align l).
  Proof.
    intros I V. destruct (layout_exists _ I Logic.I) as [l L]. cbn [self_type] in L.
    destruct (enum_layout _ _ _ GEN IF t vs v l I V L) as (r & VO & MS & SZ & AL & LA).
    destruct (good_get _ _ (gen_good _ _ _ GEN) _ _ L) as (PA & _ & _).
    exists l, r. split; [exact L|]. split; [exact VO|]. split; [exact MS|].
    split; [now apply laid_placed|]. split; [exact SZ|].
    apply pow2_divide; [unfold pow2; lia|exact PA|exact AL].
  Qed.

  Lemma options_placed i : In (TDOptional (TOption i) i) ds ->
    exists l li o, get (g_lay g) (TOption i) = Ret l /\ get (g_lay g) i = Ret li /\
      some_offset g i = Ret o /\ 1 <= o /\ (l_align li | o) /\ (l_align li | l_align l) /\
      o + l_size li <= l_size l.
  Proof.
    intros I. destruct (layout_exists _ I Logic.I) as [l L]. cbn [self_type] in L.
    destruct (option_layout _ _ _ GEN IF i l I L) as (o & li & A & B & C & D & E & F & G & H & J).
    exists l, li, o. repeat (split; [first [assumption|now apply pow2_divide]|]). exact J.
  Qed.

  Lemma items_placed t ts n : solid ds -> defined ds t -> coll_parts t = Some ts ->
    exists isz ps al, item_of (g_lay g) ts = Ret (isz, ps) /\ 0 < isz /\ map snd ps = ts /\
      0 < al <= 8 /\
      map snd (items_at n isz ps 0) = cycle n ts /\
      placed (g_lay g) 0 (Z.of_nat n * isz) al (items_at n isz ps 0).
  Proof.
    intros SO DT CP. destruct (coll_layout _ _ _ GEN t ts SO DT CP)
      as (isz & ps & al & CI & IT & I0 & MS & PA & DA & LA).
    exists isz, ps, al. split; [exact IT|]. split; [exact I0|]. split; [exact MS|].
    split; [unfold pow2 in PA; lia|]. split; [now rewrite items_at_types, MS|].
    apply laid_placed; [exact PA|]. exact (items_at_laid g isz ps al PA DA I0 LA n 0 (Z.divide_0_r al)).
  Qed.
End sound.

(** ** Slots *)

Lemma ffi_types_some_lookup flat ds f t l vs : build_ffi flat [] ds = Ret f -> interface ds ->
  In (TDEnum t vs) ds -> ffi_types f t = Ret l -> def_ffi flat f (TDEnum t vs) = Ret (Some l).
Proof.
  intros BF IF I H. pose proof (iface_once ds IF) as ND.
  assert (ffi_inv flat ds f) as INV.
  { change ds with ([] ++ ds). eapply build_ffi_inv; [exact ND| |exact BF]. intros t' l' L. discriminate. }
  destruct (gen_formed _ IF _ I) as (mp & n & ->). unfold ffi_types in H. cbn [standard] in H.
  destruct (lookup (TEnum mp n) f) eqn:E; [|discriminate]. cbn in H. assert (l0 = l) as -> by congruence.
  destruct (INV _ _ E) as (d & J & ST & D).
  now rewrite (NoDup_map_inj self_type ds (TDEnum (TEnum mp n) vs) d ND I J (eq_sym ST)).
Qed.

Lemma build_ffi_keeps flat : forall ds f f' t l, build_ffi flat f ds = Ret f' ->
  lookup t f = Some l -> exists l', lookup t f' = Some l'.
Proof.
  induction ds as [|d ds IH]; intros f f' t l H L; cbn [build_ffi] in H.
  - assert (f' = f) as -> by congruence. eauto.
  - ob H. destruct x as [ld|]; [|eapply IH; eassumption].
    destruct (ty_eqb t (self_type d)) eqn:T.
    + eapply (IH _ _ t ld H). cbn [lookup]. now rewrite T.
    + eapply (IH _ _ t l H). cbn [lookup]. now rewrite T.
Qed.

Lemma build_ffi_has flat : forall ds f f' d, build_ffi flat f ds = Ret f' -> In d ds ->
  match d with TDRecord _ _ | TDEnum _ _ | TDCustom _ _ => True
             | TDOptional s _ => standard s = None | _ => False end ->
  exists l, lookup (self_type d) f' = Some l.
Proof.
  induction ds as [|d0 ds IH]; intros f f' d H I K; [destruct I|]. cbn [build_ffi] in H. ob H.
  destruct I as [->|I].
  - assert (exists lx, x = Some lx) as [lx ->].
    { destruct d; try (destruct K; fail); cbn [def_ffi] in H0.
      - rewrite K in H0. ob H0. eexists. injection H0 as <-. reflexivity.
      - ob H0. eexists. injection H0 as <-. reflexivity.
      - destruct (flat self); [injection H0 as <-; eexists; reflexivity|]. ob H0. eexists. injection H0 as <-. reflexivity.
      - ob H0. eexists. injection H0 as <-. reflexivity. }
    eapply build_ffi_keeps; [exact H|]. cbn [lookup]. rewrite ty_eqb_refl. reflexivity.
  - destruct x; eapply IH; eassumption.
Qed.

Lemma slot_pairs_fst slots : forall tss, map (@length nat) slots = map (@length fty) tss ->
  map fst (slot_pairs slots tss) = concat slots.
Proof.
  unfold slot_pairs. induction slots as [|sl slots IH]; intros [|ts tss] E; cbn [map] in E; try discriminate; [reflexivity|].
  injection E as E1 E2. cbn [combine map concat fst snd]. rewrite map_app, (IH _ E2). f_equal.
  now apply map_fst_combine.
Qed.

Lemma slot_pairs_nth slots : forall tss i j sl ts ix, map (@length nat) slots = map (@length fty) tss ->
  nth_error slots i = Some sl -> nth_error tss i = Some ts -> nth_error sl j = Some ix ->
  exists t, nth_error ts j = Some t /\ In (ix, t) (slot_pairs slots tss).
Proof.
  unfold slot_pairs. induction slots as [|sl0 slots IH]; intros [|ts0 tss] i j sl ts ix E NS NT NJ;
    cbn [map] in E; try discriminate; [destruct i; discriminate|].
  injection E as E1 E2. cbn [combine map concat fst snd]. destruct i as [|i]; cbn [nth_error] in NS, NT.
  - assert (sl0 = sl) as -> by congruence. assert (ts0 = ts) as -> by congruence.
    assert (exists t, nth_error ts j = Some t) as [t T].
    { destruct (nth_error ts j) eqn:Q; [eauto|]. apply nth_error_None in Q.
      assert (j < length sl)%nat by (apply nth_error_Some; congruence). lia. }
    exists t. split; [exact T|]. apply in_or_app. left. clear - NJ T. revert ts j NJ T.
    induction sl as [|a sl IH]; intros [|b ts] [|j] NJ T; cbn [nth_error combine] in *; try discriminate.
    + left. congruence.
    + right. eapply IH; eassumption.
  - destruct (IH _ _ _ _ _ _ E2 NS NT NJ) as (t & A & B). exists t. split; [exact A|]. apply in_or_app. now right.
Qed.

(** Every variant gets slots: as many as its fields have FFI values, of their types, no slot twice and
    never the one of the discriminant. *)
Lemma slots_found flat ds f t vs v : build_ffi flat [] ds = Ret f -> interface ds ->
  In (TDEnum t vs) ds -> flat t = false -> In v vs ->
  exists all tss slots,
    ffi_types f t = Ret all /\ nth_error all 0 = Some FtInt32 /\
    omap (ffi_types f) v = Ret tss /\ variant_slots f t v = Ret slots /\
    map (@length nat) slots = map (@length fty) tss /\
    NoDup (concat slots) /\
    forall i j sl ts ix, nth_error slots i = Some sl -> nth_error tss i = Some ts ->
      nth_error sl j = Some ix -> ix <> 0%nat /\ nth_error ts j = nth_error all ix.
Proof.
  intros BF IF I F V.
  destruct (build_ffi_has flat ds _ _ _ BF I Logic.I) as [all L]. cbn [self_type] in L.
  assert (ffi_types f t = Ret all) as FT.
  { destruct (gen_formed _ IF _ I) as (mp & n & ->). unfold ffi_types. cbn [standard]. now rewrite L. }
  pose proof (ffi_types_some_lookup flat ds f t all vs BF IF I FT) as D. cbn [def_ffi] in D. rewrite F in D.
  ob D. assert (x = all) as -> by congruence. apply enum_ffi_spec in H; [|discriminate].
  destruct H as [[more A] B]. destruct (B v V) as (fields & C & CN). unfold ffi_types_all in C. ob C.
  assert (concat x = fields) as CE by congruence.
  destruct (field_slots_spec f v x (available all) H) as (slots & rest & P & Q & R).
  { intros u. rewrite available_types, CE. apply CN. }
  exists all, x, slots. split; [exact FT|]. split; [rewrite A; reflexivity|]. split; [exact H|].
  split; [unfold variant_slots; rewrite FT; exact P|]. split; [exact Q|]. split.
  - pose proof (Permutation_map fst R) as PF. rewrite map_app, (slot_pairs_fst _ _ Q) in PF.
    eapply NoDup_app_l. eapply Permutation_NoDup; [apply Permutation_sym; exact PF|apply NoDup_available].
  - intros i j sl ts ix NS NT NJ. destruct (slot_pairs_nth _ _ _ _ _ _ _ Q NS NT NJ) as (u & NU & IU).
    assert (In (ix, u) (available all)) as IA.
    { eapply Permutation_in; [exact R|]. apply in_or_app. now left. }
    destruct (available_nth _ _ _ IA) as (k & -> & NK). split; [discriminate|]. rewrite NU.
    rewrite available_spec in NK. destruct all as [|a all]; [destruct k; discriminate|].
    cbn [tl length nth_error] in *. rewrite Nat.sub_succ, Nat.sub_0_r in NK.
    clear - NK. revert NK. generalize 1%nat at 1 as b. generalize (S k) as w.
    revert k. induction all as [|x all IH]; intros k w b NK; [destruct k; discriminate|].
    destruct k as [|k]; cbn [length seq combine nth_error] in *; [congruence|]. eapply IH; exact NK.
Qed.

(** ** Generating *)

Lemma offsets_bool m i : offsets m builder_new [TBool; i] =
  (r <-- offsets m (Layout 1 1) [i] ;;; Ret ((0, TBool) :: fst r, snd r)).
Proof. reflexivity. Qed.

Lemma offsets_i32 m v : offsets m builder_new (TI32 :: v) =
  (r <-- offsets m (Layout 4 4) v ;;; Ret ((0, TI32) :: fst r, snd r)).
Proof. reflexivity. Qed.

Definition ready (ds : list type_definition) (done : list type_definition) (t : ty) : Prop :=
  defined ds t /\
  match t with
  | TRecord _ _ | TEnum _ _ | TOption _ | TCustom _ _ _ => In t (map self_type done)
  | _ => True
  end.

(** Definitions that enter the maps. *)
Definition own (d : type_definition) : Prop :=
  match d with TDRecord _ _ | TDEnum _ _ | TDCustom _ _ | TDOptional _ _ => True | _ => False end.

Section succeeds.
  Context (flat : ty -> bool) (ds : list type_definition).
  Hypothesis IF : interface ds.
  Hypothesis ORD : ordered ds.

  Lemma ready_direct done d rest t : ds = done ++ d :: rest -> In t (direct d) -> ready ds done t.
  Proof.
    intros E I. split.
    - apply (iface_closed ds IF d t).
      + rewrite E. apply in_or_app. right. now left.
      + destruct d; cbn [direct parts] in *; try (destruct I; fail); exact I.
    - exact (ORD _ _ _ E t I).
  Qed.

  (** The definition a ready type has. *)
  Lemma ready_own done rest t : ds = done ++ rest -> ready ds done t ->
    match t with
    | TRecord _ _ | TEnum _ _ | TOption _ | TCustom _ _ _ => exists d, In d done /\ own d /\ self_type d = t
    | _ => True
    end.
  Proof.
    intros E [D O].
    assert (forall d0, In d0 ds -> self_type d0 = t -> own d0 -> In t (map self_type done) ->
              exists d, In d done /\ own d /\ self_type d = t) as K.
    { intros d0 I0 S0 W0 O'. apply in_map_iff in O'. destruct O' as (d & SD & ID). exists d. split; [exact ID|].
      split; [|exact SD].
      assert (In d ds) as IDS by (rewrite E; apply in_or_app; now left).
      rewrite (NoDup_map_inj self_type ds d d0 (iface_once ds IF) IDS I0 ltac:(congruence)). exact W0. }
    destruct t; try exact I; cbn [defined] in D.
    - destruct D as [fs D]. eapply K; [exact D|reflexivity|exact Logic.I|exact O].
    - destruct D as [vs D]. eapply K; [exact D|reflexivity|exact Logic.I|exact O].
    - eapply K; [exact D|reflexivity|exact Logic.I|exact O].
    - eapply K; [exact D|reflexivity|exact Logic.I|exact O].
  Qed.

  Definition ffi_ready (done : list type_definition) (f : fmap) : Prop :=
    forall d, In d done -> own d -> exists l, ffi_types f (self_type d) = Ret l.

  Lemma ffi_of_ready done rest f t : ds = done ++ rest -> ffi_ready done f -> ready ds done t ->
    exists l, ffi_types f t = Ret l.
  Proof.
    intros E R T. pose proof (ready_own _ _ _ E T) as O. destruct t; try (eexists; reflexivity);
      try (destruct O as (d & I & W & <-); now apply R).
    unfold ffi_types. cbn [standard]. destruct (array_type t); eauto.
  Qed.

  Lemma ffi_all_of_ready done rest f ts : ds = done ++ rest -> ffi_ready done f ->
    (forall t, In t ts -> ready ds done t) -> exists r, omap (ffi_types f) ts = Ret r.
  Proof.
    intros E R T. induction ts as [|t ts IH]; [exists []; reflexivity|]. cbn [omap].
    destruct (ffi_of_ready _ _ f t E R (T t ltac:(now left))) as [l ->]. cbn [obind].
    destruct IH as [r ->]; [intros u U; apply T; now right|]. cbn [obind]. eauto.
  Qed.

  Lemma def_ffi_ok done d rest f : ds = done ++ d :: rest -> ffi_ready done f ->
    exists o, def_ffi flat f d = Ret o /\
      (own d -> match o with Some _ => True | None => exists l, standard (self_type d) = Some l end).
  Proof.
    intros E R. pose proof (ready_direct done d rest) as RD. specialize (fun t => RD t E).
    destruct d; cbn [def_ffi own direct] in *; try (eexists; split; [reflexivity|tauto]).
    - destruct (standard self) eqn:ST; [eexists; split; [reflexivity|cbn [self_type]; eauto]|].
      destruct (ffi_of_ready _ _ f inner E R (RD _ ltac:(now left))) as [l ->]. cbn [obind]. eauto.
    - destruct (ffi_all_of_ready _ _ f fields E R RD) as [l HL]. unfold ffi_types_all. rewrite HL. cbn [obind]. eauto.
    - destruct (flat self); [eauto|].
      assert (forall all, exists r, enum_ffi f variants all = Ret r) as EF.
      { assert (forall v, In v variants -> forall t, In t v -> ready ds done t) as RV.
        { intros v V t T. apply RD. apply in_concat. eauto. }
        pose proof (fun ts => ffi_all_of_ready _ _ f ts E R) as FA.
        clear - RV FA. induction variants as [|v variants IH]; intros all; cbn [enum_ffi]; [eauto|].
        destruct (FA v (RV v ltac:(now left))) as [l HL]. unfold ffi_types_all.
        rewrite HL. cbn [obind]. apply IH. intros v' V'. apply RV. now right. }
      destruct (EF [FtInt32]) as [r ->]. cbn [obind]. eauto.
    - destruct (ffi_of_ready _ _ f builtin E R (RD _ ltac:(now left))) as [l ->]. cbn [obind]. eauto.
  Qed.

  Lemma build_ffi_ok : forall rest done f, ds = done ++ rest -> ffi_inv flat done f -> ffi_ready done f ->
    exists f', build_ffi flat f rest = Ret f' /\ ffi_ready ds f'.
  Proof.
    induction rest as [|d rest IH]; intros done f E INV R.
    - exists f. split; [reflexivity|]. rewrite app_nil_r in E. now subst.
    - cbn [build_ffi]. destruct (def_ffi_ok done d rest f E R) as (o & DO & OW). rewrite DO. cbn [obind].
      assert (ds = (done ++ [d]) ++ rest) as E' by (now rewrite <- app_assoc).
      assert (lookup (self_type d) f = None) as LN.
      { destruct (lookup (self_type d) f) eqn:L; [|reflexivity]. exfalso.
        destruct (INV _ _ L) as (d' & I & S0 & _). pose proof (iface_once ds IF) as ND.
        rewrite E, map_app in ND. cbn [map] in ND. apply NoDup_remove_2 in ND. apply ND.
        apply in_or_app. left. rewrite <- S0. now apply in_map. }
      destruct o as [l|].
      + apply (IH (done ++ [d])); [exact E'| |].
        * intros t l' L. cbn [lookup] in L. destruct (ty_eqb t (self_type d)) eqn:T.
          -- apply ty_eqb_eq in T. assert (l' = l) as -> by congruence. exists d.
             split; [apply in_or_app; right; now left|]. split; [congruence|]. now apply def_ffi_mono.
          -- destruct (INV _ _ L) as (d' & I & S0 & D'). exists d'. split; [apply in_or_app; now left|].
             split; [exact S0|]. now apply def_ffi_mono.
        * intros d' I W. apply in_app_or in I. destruct I as [I|[<-|[]]].
          -- destruct (R d' I W) as [l' L']. exists l'. now apply ffi_types_mono.
          -- unfold ffi_types. destruct (standard (self_type d)); [eauto|]. cbn [lookup].
             rewrite ty_eqb_refl. cbn. eauto.
      + apply (IH (done ++ [d])); [exact E'| |].
        * intros t l' L. destruct (INV _ _ L) as (d' & I & S0 & D'). exists d'.
          split; [apply in_or_app; now left|]. auto.
        * intros d' I W. apply in_app_or in I. destruct I as [I|[<-|[]]]; [now apply R|].
          destruct (OW W) as [l ST]. exists l. unfold ffi_types. now rewrite ST.
  Qed.

  (** Layouts, with weights. *)
  Hypothesis SUP : supported ds.
  Hypothesis PL : plain flat ds.
  Variable w : ty -> Z.
  Hypothesis WT : weights ds w.

  Definition fine (t : ty) (l : layout) : Prop := pow2 (l_align l) /\ 0 <= l_size l <= w t.

  Definition lay_ready (done : list type_definition) (m : lmap) : Prop :=
    (forall t l, lookup t m = Some l -> fine t l) /\
    forall d, In d done ->
      match d with TDRecord _ _ | TDEnum _ _ | TDOptional _ _ => True | _ => False end ->
      exists l, lookup (self_type d) m = Some l.

  (** Under custom types, too. *)
  Lemma get_ready done rest m t : ds = done ++ rest -> lay_ready done m -> ready ds done t -> bufferable t ->
    exists l, get m t = Ret l /\ fine t l.
  Proof.
    intros E R. revert done rest E R.
    induction t; intros done rest E R T B; pose proof (ready_own _ _ _ E T) as O;
      pose proof (w_range _ _ WT) as WR;
      cbn [bufferable] in B; try (destruct B; fail); cbn [get];
      try (eexists; split; [reflexivity|]; unfold fine, pow2; cbn [l_size l_align];
           match goal with |- _ /\ _ <= _ <= w ?T => specialize (WR T) end; lia).
    - destruct O as (d & I & W & S0). pose proof (gen_formed _ IF d ltac:(rewrite E; apply in_or_app; now left)) as WF.
      destruct d; cbn [own] in W; try (destruct W; fail); cbn [self_type well_formed] in *.
      + congruence.
      + destruct (proj2 R _ I Logic.I) as [l L]. cbn [self_type] in L. rewrite S0 in L. rewrite L. cbn [of_opt].
        eexists. split; [reflexivity|]. exact (proj1 R _ _ L).
      + destruct WF as (? & ? & ->). discriminate.
      + destruct WF as (? & ? & ->). discriminate.
    - destruct O as (d & I & W & S0). pose proof (gen_formed _ IF d ltac:(rewrite E; apply in_or_app; now left)) as WF.
      destruct d; cbn [own] in W; try (destruct W; fail); cbn [self_type well_formed] in *.
      + congruence.
      + destruct WF as (? & ? & ->). discriminate.
      + destruct (proj2 R _ I Logic.I) as [l L]. cbn [self_type] in L. rewrite S0 in L. rewrite L. cbn [of_opt].
        eexists. split; [reflexivity|]. exact (proj1 R _ _ L).
      + destruct WF as (? & ? & ->). discriminate.
    - destruct O as (d & I & W & S0). pose proof (gen_formed _ IF d ltac:(rewrite E; apply in_or_app; now left)) as WF.
      destruct d; cbn [own] in W; try (destruct W; fail); cbn [self_type well_formed] in *.
      + destruct (proj2 R _ I Logic.I) as [l L]. cbn [self_type] in L. rewrite S0 in L. rewrite L. cbn [of_opt].
        eexists. split; [reflexivity|]. exact (proj1 R _ _ L).
      + destruct WF as (? & ? & ->). discriminate.
      + destruct WF as (? & ? & ->). discriminate.
      + destruct WF as (? & ? & ->). discriminate.
    - destruct O as (d & I & W & S0). pose proof (gen_formed _ IF d ltac:(rewrite E; apply in_or_app; now left)) as WF.
      destruct d; cbn [own] in W; try (destruct W; fail); cbn [self_type well_formed] in *.
      + congruence.
      + destruct WF as (? & ? & ->). discriminate.
      + destruct WF as (? & ? & ->). discriminate.
      + subst self. destruct WF as (mp' & n' & WF). assert (builtin = t) as -> by congruence.
        (* what the custom type is made of comes before it *)
        apply in_split in I. destruct I as (d1 & d2 & DE).
        assert (ds = d1 ++ TDCustom (TCustom mp name t) t :: d2 ++ rest) as E1.
        { rewrite E, DE, <- app_assoc. reflexivity. }
        pose proof (ready_direct _ _ _ t E1 ltac:(now left)) as RB.
        destruct (IHt done rest E R) as (l & GL & F).
        * split; [apply RB|]. destruct RB as [_ RB]. destruct t; try exact RB; rewrite DE, map_app; apply in_or_app; now left.
        * exact B.
        * exists l. split; [exact GL|]. destruct F as [P F]. split; [exact P|].
          pose proof (w_custom _ _ WT mp name t). lia.
  Qed.

  Lemma offsets_ok done rest m : ds = done ++ rest -> lay_ready done m -> forall ts l,
    (forall t, In t ts -> ready ds done t /\ bufferable t) -> pow2 (l_align l) -> 0 <= l_size l ->
    l_size l + total w ts <= 2 ^ 62 ->
    exists r l', offsets m l ts = Ret (r, l') /\ pow2 (l_align l') /\ l_size l <= l_size l' /\
      l_size l' <= l_size l + total w ts.
  Proof.
    intros E R. induction ts as [|t ts IH]; intros l RT PA S0 B; cbn [offsets total fold_right] in *.
    - exists [], l. split; [reflexivity|]. split; [exact PA|]. lia.
    - change (fold_right (fun t n => w t + 8 + n) 0 ts) with (total w ts) in *.
      destruct (RT t ltac:(now left)) as [RD BU].
      destruct (get_ready _ _ m t E R RD BU) as (lt & -> & PT & ST). cbn [obind]. unfold extend.
      destruct (round_up_spec (l_size l) (l_align lt) (pow2_pos _ PT)) as [RU _].
      set (off := round_up (l_size l) (l_align lt)) in *.
      assert (pow2 (Z.max (l_align l) (l_align lt))) as PM by now apply pow2_max.
      assert (l_align lt <= 8 /\ Z.max (l_align l) (l_align lt) <= 8) as A8 by (unfold pow2 in *; lia).
      assert (0 <= total w ts) as T0.
      { clear - WT. induction ts as [|t ts IH]; cbn [total fold_right]; [lia|].
        pose proof (w_range _ _ WT t). unfold total in IH. lia. }
      unfold layout_new.
      destruct (round_up_spec (off + l_size lt) (Z.max (l_align l) (l_align lt)) (pow2_pos _ PM)) as [RU2 _].
      replace (round_up (off + l_size lt) (Z.max (l_align l) (l_align lt)) <=? isize_max) with true
        by (symmetry; apply Z.leb_le; assert (isize_max = 2 ^ 63 - 1) as -> by reflexivity; lia).
      cbn [obind fst snd].
      destruct (IH (Layout (off + l_size lt) (Z.max (l_align l) (l_align lt)))) as (r & l' & O & P' & L1 & L2);
        cbn [l_size l_align] in *; [intros u U; apply RT; now right|exact PM|lia|lia|].
      rewrite O. cbn [obind fst snd]. exists ((off, t) :: r), l'. split; [reflexivity|]. split; [exact P'|]. lia.
  Qed.

  Lemma total_nonneg ts : 0 <= total w ts.
  Proof.
    induction ts as [|t ts IH]; cbn [total fold_right]; [lia|].
    pose proof (w_range _ _ WT t). unfold total in IH. lia.
  Qed.

  Lemma def_layout_ok done d rest m : ds = done ++ d :: rest -> lay_ready done m ->
    exists o, def_layout m d = Ret o /\
      match o with
      | Some l => fine (self_type d) l
      | None => match d with TDRecord _ _ | TDEnum _ _ | TDOptional _ _ => False | _ => True end
      end.
  Proof.
    intros E R. assert (In d ds) as ID by (rewrite E; apply in_or_app; right; now left).
    assert (forall t, In t (direct d) -> In t (buffered d) -> ready ds done t /\ bufferable t) as RD.
    { intros t I1 I2. split; [eapply ready_direct; eassumption|eapply SUP; eassumption]. }
    destruct d; cbn [def_layout]; try (eexists; split; [reflexivity|exact I]).
    - unfold layout_for_types.
      pose proof (w_option _ _ WT _ _ ID) as WO. pose proof (w_range _ _ WT self) as WS.
      cbn [total fold_right] in WO. pose proof (w_range _ _ WT inner) as WI.
      rewrite offsets_bool.
      destruct (offsets_ok _ _ m E R [inner] (Layout 1 1)) as (r & l' & O & P' & L1 & L2).
      + intros t [<-|[]]. apply RD; now left.
      + now left.
      + cbn; lia.
      + cbn [l_size total fold_right]. lia.
      + rewrite O. cbn [obind fst snd]. eexists. split; [reflexivity|].
        cbn [self_type l_size total fold_right] in *. split; [exact P'|]. lia.
    - unfold layout_for_types. pose proof (w_record _ _ WT _ _ ID) as WO. pose proof (w_range _ _ WT self) as WS.
      destruct (offsets_ok _ _ m E R fields builder_new) as (r & l' & O & P' & L1 & L2).
      + intros t T. apply RD; exact T.
      + exact builder_pow2.
      + cbn; lia.
      + cbn [builder_new l_size]. lia.
      + rewrite O. cbn [obind snd]. eexists. split; [reflexivity|]. cbn [self_type builder_new l_size] in *.
        split; [exact P'|]. lia.
    - pose proof (w_range _ _ WT self) as WS.
      assert (forall v, In v variants -> 8 + total w v <= w self) as WV by (intros v V; eapply w_enum; eassumption).
      assert (forall v, In v variants -> forall t, In t v -> ready ds done t /\ bufferable t) as RV.
      { intros v V t T. apply RD; cbn [direct buffered]; apply in_concat; eauto. }
      assert (forall x y, pow2 y -> 0 <= x <= w self ->
        exists r, enum_size m variants x y = Ret r /\ pow2 (snd r) /\ 0 <= fst r <= w self) as ES.
      { pose proof (offsets_ok _ _ m E R) as OO.
        clear - WV RV OO WT WS. induction variants as [|v variants IH]; intros x y PY X; cbn [enum_size].
        - exists (x, y). cbn [fst snd]. auto.
        - pose proof (WV v ltac:(now left)) as WVV. pose proof (total_nonneg v) as TN.
          unfold layout_for_types. rewrite offsets_i32.
          destruct (OO v (Layout 4 4)) as (r & l' & O & P' & L1 & L2).
          + intros t T. apply (RV v); [now left|exact T].
          + unfold pow2. cbn. lia.
          + cbn; lia.
          + cbn [l_size]. lia.
          + rewrite O. cbn [obind fst snd]. cbn [l_size] in *.
            apply IH; [intros; apply WV; now right|intros v' V'; apply RV; now right|now apply pow2_max|lia]. }
      destruct (ES 0 1 builder_pow2 ltac:(lia)) as ([sz al] & -> & PA & SZ). cbn [obind fst snd] in *.
      unfold layout_new. destruct (round_up_spec sz al (pow2_pos _ PA)) as [RU _].
      replace (round_up sz al <=? isize_max) with true.
      + cbn [obind]. eexists. split; [reflexivity|]. split; [exact PA|exact SZ].
      + symmetry. apply Z.leb_le. assert (isize_max = 2 ^ 63 - 1) as -> by reflexivity. unfold pow2 in PA. lia.
  Qed.

  Lemma build_layouts_ok : forall rest done m, ds = done ++ rest -> lay_ready done m ->
    (forall t l, lookup t m = Some l -> In t (map self_type done)) ->
    exists m', build_layouts m rest = Ret m' /\ lay_ready ds m'.
  Proof.
    induction rest as [|d rest IH]; intros done m E R KEYS.
    - exists m. split; [reflexivity|]. rewrite app_nil_r in E. now subst.
    - cbn [build_layouts].
      assert (ds = (done ++ [d]) ++ rest) as E' by (now rewrite <- app_assoc).
      assert (lookup (self_type d) m = None) as LN.
      { destruct (lookup (self_type d) m) eqn:L; [|reflexivity]. exfalso. apply KEYS in L.
        pose proof (iface_once ds IF) as ND. rewrite E, map_app in ND. cbn [map] in ND.
        apply NoDup_remove_2 in ND. apply ND. apply in_or_app. now left. }
      rewrite LN. destruct (def_layout_ok _ _ _ m E R) as (o & -> & F). cbn [obind].
      destruct R as [R1 R2]. destruct o as [l|].
      + apply (IH (done ++ [d])); [exact E'| |].
        * split.
          -- intros t l' L. cbn [lookup] in L. destruct (ty_eqb t (self_type d)) eqn:T; [|now apply R1].
             apply ty_eqb_eq in T. assert (l' = l) as -> by congruence. now subst t.
          -- intros d' I K. apply in_app_or in I. cbn [lookup].
             destruct (ty_eqb (self_type d') (self_type d)) eqn:T; [eauto|].
             destruct I as [I|[<-|[]]]; [now apply R2|]. now rewrite ty_eqb_refl in T.
        * intros t l' L. cbn [lookup] in L. rewrite map_app. apply in_or_app.
          destruct (ty_eqb t (self_type d)) eqn:T; [right; left; symmetry; now apply ty_eqb_eq|left; eapply KEYS; exact L].
      + apply (IH (done ++ [d])); [exact E'| |].
        * split; [exact R1|]. intros d' I K. apply in_app_or in I. destruct I as [I|[<-|[]]]; [now apply R2|].
          destruct d; try (destruct K; fail); destruct F.
        * intros t l' L. rewrite map_app. apply in_or_app. left. eapply KEYS; exact L.
  Qed.

  Lemma defined_ready t : defined ds t -> ready ds ds t.
  Proof.
    intros D. split; [exact D|]. destruct t; try exact I; cbn [defined] in D; apply in_map_iff.
    - destruct D as [fs D]. eexists. split; [|exact D]. reflexivity.
    - destruct D as [fs D]. eexists. split; [|exact D]. reflexivity.
    - eexists. split; [|exact D]. reflexivity.
    - eexists. split; [|exact D]. reflexivity.
  Qed.

  Lemma maps_ok : exists f m, build_ffi flat [] ds = Ret f /\ build_layouts [] ds = Ret m /\
    forall d, In d ds -> map_def f m d = Ret tt.
  Proof.
    destruct (build_ffi_ok ds [] [] eq_refl) as (f & BF & RF).
    { intros t l L. discriminate. } { intros d []. }
    destruct (build_layouts_ok ds [] [] eq_refl) as (m & BL & RL).
    { split; [intros t l L; discriminate|intros d []]. } { intros t l L. discriminate. }
    exists f, m. split; [exact BF|]. split; [exact BL|]. intros d ID.
    assert (ds = ds ++ []) as E by (now rewrite app_nil_r).
    assert (forall t, In t (parts d) -> exists l, ffi_types f t = Ret l) as FP.
    { intros t T. apply (ffi_of_ready ds [] f t E RF). apply defined_ready. exact (iface_closed ds IF d t ID T). }
    assert (own d -> exists l, ffi_types f (self_type d) = Ret l) as FS by (intros; now apply RF).
    assert (forall ts l, (forall t, In t ts -> In t (parts d) /\ In t (buffered d)) -> pow2 (l_align l) ->
      0 <= l_size l <= 8 -> total w ts <= 2 ^ 61 + 16 -> exists x, offsets m l ts = Ret x) as OF.
    { intros ts l T PA S0 B. destruct (offsets_ok ds [] m E RL ts l) as (r & l' & O & _).
      - intros t I. destruct (T t I) as [T1 T2]. split; [apply defined_ready; exact (iface_closed ds IF d t ID T1)|].
        eapply SUP; eassumption.
      - exact PA.
      - lia.
      - lia.
      - eauto. }
    pose proof (w_range _ _ WT) as WR.
    destruct d; cbn [map_def own parts buffered self_type] in *; try reflexivity.
    - destruct (FP inner ltac:(now left)) as [l ->]. reflexivity.
    - unfold item_of. rewrite offsets_bool.
      destruct (OF [inner] (Layout 1 1)) as [[r l'] O]; [intros t T; now split|now left|cbn; lia| |].
      { cbn [total fold_right]. specialize (WR inner). lia. }
      rewrite O. cbn [obind]. destruct (FP inner ltac:(now left)) as [l ->]. cbn [obind].
      destruct (FS Logic.I) as [l1 ->]. reflexivity.
    - unfold item_of. destruct (OF [inner] builder_new) as [[r l'] O]; [intros t T; now split|now left|cbn; lia| |].
      { cbn [total fold_right]. specialize (WR inner). lia. }
      rewrite O. cbn [obind]. destruct (FP inner ltac:(now left)) as [l ->]. reflexivity.
    - unfold item_of. destruct (OF [key; value] builder_new) as [[r l'] O]; [intros t T; now split|now left|cbn; lia| |].
      { cbn [total fold_right]. pose proof (WR key). pose proof (WR value). lia. }
      rewrite O. cbn [obind]. destruct (FP key ltac:(now left)) as [l ->]. cbn [obind].
      destruct (FP value ltac:(right; now left)) as [l1 ->]. reflexivity.
    - unfold item_of. destruct (OF [inner] builder_new) as [[r l'] O]; [intros t T; now split|now left|cbn; lia| |].
      { cbn [total fold_right]. specialize (WR inner). lia. }
      rewrite O. cbn [obind]. destruct (FP inner ltac:(now left)) as [l ->]. reflexivity.
    - destruct (FS Logic.I) as [l1 ->]. cbn [obind]. unfold ffi_types_all.
      destruct (ffi_all_of_ready ds [] f fields E RF) as [r ->].
      { intros t T. apply defined_ready. exact (iface_closed ds IF _ t ID T). }
      cbn [obind].
      destruct (OF fields builder_new) as [[r' l'] O]; [intros t T; now split|now left|cbn; lia| |].
      { pose proof (w_record _ _ WT _ _ ID). specialize (WR self). lia. }
      rewrite O. reflexivity.
    - destruct (FS Logic.I) as [l1 EL]. rewrite EL. cbn [obind].
      assert (exists r, omap (fun v => _ <-- variant_slots f self v ;;; variant_offsets m v) variants = Ret r) as [r ->];
        [|reflexivity].
      assert (forall v, In v variants -> exists r, (_ <-- variant_slots f self v ;;; variant_offsets m v) = Ret r) as EV.
      { intros v V. assert (exists sl, variant_slots f self v = Ret sl) as [sl ->].
        { destruct (flat self) eqn:FL.
          - rewrite (PL _ _ _ ID FL V). unfold variant_slots. rewrite EL. cbn [obind field_slots]. eauto.
          - destruct (slots_found flat ds f self variants v BF IF ID FL V) as (all & tss & slots & _ & _ & _ & VS & _).
            eauto. }
        cbn [obind]. unfold variant_offsets. rewrite offsets_i32.
        destruct (OF v (Layout 4 4)) as [[r' l'] O];
          [intros t T; split; apply in_concat; eauto|unfold pow2; cbn; lia|cbn; lia| |].
        { pose proof (w_enum _ _ WT _ _ _ ID V). specialize (WR self). lia. }
        rewrite O. cbn [obind fst snd]. eauto. }
      clear - EV. induction variants as [|v variants IH]; cbn [omap]; [eauto|].
      destruct (EV v ltac:(now left)) as [x ->]. cbn [obind]. destruct IH as [r ->]; [intros; apply EV; now right|].
      cbn [obind]. eauto.
    - destruct (FP builtin ltac:(now left)) as [l ->]. cbn [obind]. destruct (FS Logic.I) as [l1 ->]. reflexivity.
  Qed.
End succeeds.

Lemma omap_all {A B} (f : A -> out B) l : (forall x, In x l -> exists y, f x = Ret y) -> exists r, omap f l = Ret r.
Proof.
  induction l as [|x l IH]; intros H; cbn [omap]; [eauto|].
  destruct (H x ltac:(now left)) as [y ->]. cbn [obind].
  destruct IH as [r ->]; [intros; apply H; now right|]. cbn [obind]. eauto.
Qed.

Lemma generates flat ds : interface ds -> ordered ds -> supported ds -> plain flat ds -> light ds ->
  exists g, generate flat ds = Ret g.
Proof.
  intros IF ORD SUP PL [w WT]. destruct (maps_ok flat ds IF ORD SUP PL w WT) as (f & m & BF & BL & MD).
  unfold generate. rewrite BF. cbn [obind]. rewrite BL. cbn [obind].
  destruct (omap_all (map_def f m) ds) as [r ->]; [intros d I; rewrite (MD d I); eauto|]. cbn [obind]. eauto.
Qed.

Lemma split_unique {A} (x : A) : forall l1 l2 a b, NoDup (l1 ++ x :: l2) -> l1 ++ x :: l2 = a ++ x :: b -> l1 = a.
Proof.
  induction l1 as [|y l1 IH]; intros l2 a b ND E; destruct a as [|z a]; cbn [app] in *; [reflexivity| | |].
  - exfalso. injection E as <- E. inversion ND. subst. apply H1. apply in_or_app. right. now left.
  - exfalso. injection E as <- E. inversion ND. subst. apply H1. apply in_or_app. right. now left.
  - injection E as <- E. f_equal. eapply IH; [|exact E]. now inversion ND.
Qed.

Lemma sorted_ordered ds r : interface ds -> names_distinct ds -> acyclic ds ->
  sort_type_definitions ds = Ok r -> interface r /\ ordered r /\ Permutation ds r.
Proof.
  intros IF ND AC S0. pose proof (iface_once ds IF) as NO.
  pose proof (types_once ds r NO ND S0) as P.
  assert (forall d, In d ds <-> In d r) as IN.
  { intros d. split; apply Permutation_in; [exact P|now apply Permutation_sym]. }
  assert (forall t, defined ds t -> defined r t) as DE.
  { intros t D. destruct t; cbn [defined] in *; try exact I; try (now apply IN);
      destruct D as [x D]; exists x; now apply IN. }
  assert (NoDup (map self_type r)) as NR.
  { eapply Permutation_NoDup; [apply Permutation_map; exact P|exact NO]. }
  split; [|split; [|exact P]].
  - constructor.
    + apply Forall_forall. intros d I. eapply Forall_forall; [exact (iface_formed ds IF)|now apply IN].
    + exact NR.
    + intros d t I T. apply DE. apply (iface_closed ds IF d t); [now apply IN|exact T].
  - intros l1 d l2 E t T.
    assert (In d ds) as ID by (apply IN; rewrite E; apply in_or_app; right; now left).
    assert (In t (parts d)) as TP by (destruct d; cbn [direct parts] in *; try (destruct T; fail); exact T).
    pose proof (iface_closed ds IF d t ID TP) as D.
    assert (mentions d t) as ME.
    { destruct d; cbn [direct mentions] in *; try (destruct T; fail); try (destruct T as [<-|[]]; reflexivity).
      - exact T.
      - apply in_concat in T. destruct T as (v & A & B). exists v. now split. }
    assert (forall y, In y ds -> self_type y = t ->
      match self_type y with TRecord _ _ | TEnum _ _ | TOption _ | TCustom _ _ _ => True | _ => False end ->
      In t (map self_type l1)) as K.
    { intros y IY SY U.
      destruct (types_in_order ds r NO ND S0 d y ID IY ltac:(unfold needs; now rewrite SY)) as [B|B].
      - destruct B as (a & b & c & B). assert (l1 = a ++ y :: b) as ->.
        { eapply (split_unique d l1 l2 (a ++ y :: b) c).
          - rewrite <- E. eapply NoDup_map_inv; exact NR.
          - rewrite <- E, B. now rewrite <- app_assoc. }
        rewrite map_app. apply in_or_app. right. left. exact SY.
      - exfalso. pose proof (AC d y ID IY ltac:(now rewrite SY)) as C. rewrite SY in *.
        destruct t; try (destruct U; fail); now apply C. }
    destruct t; cbn [defined] in D; try exact I.
    + destruct D as [fs D]. exact (K _ D eq_refl I).
    + destruct D as [fs D]. exact (K _ D eq_refl I).
    + exact (K _ D eq_refl I).
    + exact (K _ D eq_refl I).
Qed.

Lemma generates_root flat ds : interface ds -> names_distinct ds -> acyclic ds -> supported ds ->
  plain flat ds -> light ds -> exists g, generate_root flat ds = Ret g.
Proof.
  intros IF ND AC SUP PL [w WT]. assert (exists r, sort_type_definitions ds = Ok r) as [r S0] by exact (sort_total _ _ ds).
  destruct (sorted_ordered ds r IF ND AC S0) as (IR & OR & P).
  assert (forall d, In d r -> In d ds) as IN by (intros d; apply Permutation_in; now apply Permutation_sym).
  assert (supported r) as SR by (intros d t I T; eapply SUP; [apply IN; exact I|exact T]).
  assert (plain flat r) as PR by (intros t vs v I; apply PL; now apply IN).
  assert (weights r w) as WR.
  { constructor; [apply (w_range _ _ WT)|apply (w_custom _ _ WT)| | |].
    - intros t fs I. apply (w_record _ _ WT). now apply IN.
    - intros t vs v I. apply (w_enum _ _ WT). now apply IN.
    - intros t i I. apply (w_option _ _ WT). now apply IN. }
  destruct (maps_ok flat r IR OR SR PR w WR) as (f & m & BF & BL & MD).
  unfold generate_root. rewrite S0. cbn [obind]. rewrite BF. cbn [obind]. rewrite BL. cbn [obind].
  destruct (omap_all (map_def f m) ds) as [x ->]; [|cbn [obind]; eauto].
  intros d I. rewrite (MD d); [eauto|]. eapply Permutation_in; eassumption.
Qed.

(** What [generate_root] makes is what [generate] makes of the sorted definitions. *)
Lemma root_generate flat ds g : NoDup (map self_type ds) -> names_distinct ds -> generate_root flat ds = Ret g ->
  exists r, sort_type_definitions ds = Ok r /\ Permutation ds r /\ generate flat r = Ret g.
Proof.
  intros NO ND G. unfold generate_root in G. destruct (sort_type_definitions ds) as [r| | |] eqn:S0; try discriminate.
  cbn [obind] in G. exists r. split; [reflexivity|]. pose proof (types_once ds r NO ND S0) as P. split; [exact P|].
  ob G. ob G. ob G. unfold generate. rewrite H. cbn [obind]. rewrite H0. cbn [obind].
  assert (forall d, In d ds -> exists y, map_def x x0 d = Ret y) as MD.
  { intros d I. destruct (omap_in _ _ _ _ H1 I) as [y Y]. eauto. }
  destruct (omap_all (map_def x x0) r) as [y ->].
  - intros d I. apply MD. eapply Permutation_in; [apply Permutation_sym; exact P|exact I].
  - exact G.
Qed.

(** Definitions that put something without a layout into a buffer are refused, whatever else is
    there. *)
Lemma offsets_get m : forall ts l x, offsets m l ts = Ret x -> forall t, In t ts -> exists lt, get m t = Ret lt.
Proof.
  induction ts as [|u ts IH]; intros l x H t I; [destruct I|]. cbn [offsets] in H. ob H. ob H. ob H.
  destruct I as [<-|I]; [eauto|eapply IH; eassumption].
Qed.

Lemma get_bufferable flat ds g t : interface ds -> generate flat ds = Ret g -> forall l,
  get (g_lay g) t = Ret l -> bufferable t.
Proof.
  intros IF GEN. induction t; intros l G; cbn [bufferable]; try exact I;
    try (match type of G with get _ ?t = _ => rewrite (no_layout flat ds g GEN IF t I) in G end; discriminate G).
  eapply IHt; exact G.
Qed.

Lemma only_supported flat ds g : interface ds -> generate flat ds = Ret g -> supported ds.
Proof.
  intros IF GEN d t ID T. pose proof (gen_map _ _ _ GEN d ID) as M.
  assert (exists l, get (g_lay g) t = Ret l) as [l G]; [|eapply get_bufferable; eassumption].
  destruct d; cbn [buffered] in T; try (destruct T; fail); cbn [map_def] in M; unfold item_of in M.
  - ob M. ob H. eapply offsets_get; [exact H0|]. right. exact T.
  - ob M. ob H. eapply offsets_get; [exact H0|exact T].
  - ob M. ob H. eapply offsets_get; [exact H0|exact T].
  - ob M. ob H. eapply offsets_get; [exact H0|exact T].
  - ob M. ob M. ob M. eapply offsets_get; [exact H1|exact T].
  - apply in_concat in T. destruct T as (v & V & T). ob M. ob M.
    assert (exists y, (_ <-- variant_slots (g_ffi g) self v ;;; variant_offsets (g_lay g) v) = Ret y) as [y Y].
    { destruct (omap_in _ _ _ _ H0 V) as [y Y]. exists y. exact Y. }
    ob Y. unfold variant_offsets in Y. ob Y. eapply offsets_get; [exact H2|]. now right.
Qed.

(** ** From the definitions as they come *)

Lemma perm_in {A} (l r : list A) x : Permutation l r -> In x l -> In x r.
Proof. intros P. now apply Permutation_in. Qed.

Lemma defined_perm ds r t : Permutation ds r -> defined ds t -> defined r t.
Proof.
  intros P D. destruct t; cbn [defined] in *; try exact I; try (eapply perm_in; eassumption);
    destruct D as [x D]; exists x; eapply perm_in; eassumption.
Qed.

Lemma interface_perm ds r : Permutation ds r -> interface ds -> interface r.
Proof.
  intros P IF. pose proof (Permutation_sym P) as Q. constructor.
  - apply Forall_forall. intros d I. eapply Forall_forall; [exact (iface_formed ds IF)|now apply (perm_in _ _ _ Q)].
  - eapply Permutation_NoDup; [apply Permutation_map; exact P|exact (iface_once ds IF)].
  - intros d t I T. eapply defined_perm; [exact P|]. apply (iface_closed ds IF d t); [now apply (perm_in _ _ _ Q)|exact T].
Qed.

Lemma solid_perm ds r : Permutation ds r -> solid ds -> solid r.
Proof. intros P [A B]. apply Permutation_sym in P. split; intros s D; [eapply A|eapply B]; eapply perm_in; eassumption. Qed.

Lemma root_maps flat ds g r : generate flat r = Ret g -> Permutation ds r -> interface ds ->
  exists f, build_ffi flat [] r = Ret f /\ f = g_ffi g.
Proof.
  intros G P IF. unfold generate in G. ob G. ob G. ob G. injection G as <-. exists x. now split.
Qed.

Section root.
  Context (flat : ty -> bool) (ds : list type_definition) (g : gen).
  Hypothesis GEN : generate_root flat ds = Ret g.
  Hypothesis IF : interface ds.
  Hypothesis ND : names_distinct ds.

  Lemma root_sorted : exists r, Permutation ds r /\ interface r /\ generate flat r = Ret g.
  Proof.
    destruct (root_generate flat ds g (iface_once ds IF) ND GEN) as (r & _ & P & G).
    exists r. split; [exact P|]. split; [now apply (interface_perm ds)|exact G].
  Qed.

  Lemma root_records t fs : In (TDRecord t fs) ds ->
    exists l r, get (g_lay g) t = Ret l /\ offsets (g_lay g) builder_new fs = Ret (r, l) /\
      map snd r = fs /\ placed (g_lay g) 0 (l_size l) (l_align l) r.
  Proof.
    intros I. destruct root_sorted as (r & P & IR & G). apply (records_placed _ _ _ G IR). now apply (perm_in _ _ _ P).
  Qed.

  Lemma root_enums t vs v : In (TDEnum t vs) ds -> In v vs ->
    exists l r, get (g_lay g) t = Ret l /\ variant_offsets (g_lay g) v = Ret r /\ map snd r = v /\
      placed (g_lay g) 4 (l_size l) (l_align l) r /\ 4 <= l_size l /\ (4 | l_align l).
  Proof.
    intros I. destruct root_sorted as (r & P & IR & G). apply (enums_placed _ _ _ G IR). now apply (perm_in _ _ _ P).
  Qed.

  Lemma root_options i : In (TDOptional (TOption i) i) ds ->
    exists l li o, get (g_lay g) (TOption i) = Ret l /\ get (g_lay g) i = Ret li /\
      some_offset g i = Ret o /\ 1 <= o /\ (l_align li | o) /\ (l_align li | l_align l) /\
      o + l_size li <= l_size l.
  Proof.
    intros I. destruct root_sorted as (r & P & IR & G). apply (options_placed _ _ _ G IR). now apply (perm_in _ _ _ P).
  Qed.

  Lemma root_items t ts n : solid ds -> defined ds t -> coll_parts t = Some ts ->
    exists isz ps al, item_of (g_lay g) ts = Ret (isz, ps) /\ 0 < isz /\ map snd ps = ts /\
      0 < al <= 8 /\
      map snd (items_at n isz ps 0) = cycle n ts /\
      placed (g_lay g) 0 (Z.of_nat n * isz) al (items_at n isz ps 0).
  Proof.
    intros SO D. destruct root_sorted as (r & P & IR & G).
    apply (items_placed _ _ _ G). - now apply (solid_perm ds). - now apply (defined_perm ds).
  Qed.

  Lemma root_pass s n k t v h : solid ds -> defined ds t -> good g s n false t v -> (n <= k)%nat -> heap_ok h ->
    arrives (pass g k s t v h) v h.
  Proof.
    intros SO D. destruct root_sorted as (r & P & IR & G).
    apply (pass_good flat r g G IR). - now apply (solid_perm ds). - now apply (defined_perm ds).
  Qed.

  Lemma root_slots t vs v : In (TDEnum t vs) ds -> flat t = false -> In v vs ->
    exists all tss slots,
      ffi_types (g_ffi g) t = Ret all /\ nth_error all 0 = Some FtInt32 /\
      omap (ffi_types (g_ffi g)) v = Ret tss /\ variant_slots (g_ffi g) t v = Ret slots /\
      map (@length nat) slots = map (@length fty) tss /\
      NoDup (concat slots) /\
      forall i j sl ts ix, nth_error slots i = Some sl -> nth_error tss i = Some ts ->
        nth_error sl j = Some ix -> ix <> 0%nat /\ nth_error ts j = nth_error all ix.
  Proof.
    intros I. destruct root_sorted as (r & P & IR & G).
    destruct (root_maps _ _ _ _ G P IF) as (f & BF & ->).
    apply (slots_found flat r); [exact BF|exact IR|now apply (perm_in _ _ _ P)].
  Qed.

  Lemma root_supported : supported ds.
  Proof.
    destruct root_sorted as (r & P & IR & G). intros d t I T.
    apply (only_supported flat r g IR G d t); [now apply (perm_in _ _ _ P)|exact T].
  Qed.
End root.
