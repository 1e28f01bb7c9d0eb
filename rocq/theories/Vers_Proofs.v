From Verif Require Import Base Utf8 Meta_Types Meta_Model Meta_Spec Meta_Proofs Meta_Proofs2 Meta_Proofs3
  Meta_Eq Names_Model Names_Proofs Csum_Model Csum_Spec Csum_Proofs Vers_Model Vers_Spec Meta_Props Csum_Props.
Local Open Scope Z_scope.

Lemma eqb_str : forall a b : str, bytes_eqb a b = true <-> a = b.
Proof. intros a b. destruct (bytes_eqb_spec a b); split; congruence. Qed.

(** * Looking up *)
Lemma lookup_in : forall s l c, lookup s l = Some c -> In (s, c) l.
Proof.
  intros s l c. induction l as [|[k v] l IH]; cbn [lookup]; [discriminate|].
  destruct (bytes_eqb k s) eqn:Q; [|intro L; right; apply IH; exact L].
  apply eqb_str in Q. intro L. injection L as <-. subst. left. reflexivity.
Qed.
Lemma lookup_nodup : forall s c l, NoDup (map fst l) -> In (s, c) l -> lookup s l = Some c.
Proof.
  intros s c l. induction l as [|[k v] l IH]; intros N I; [contradiction|].
  cbn [map fst] in N. inversion N as [|u w N1 N2]; subst. cbn [lookup].
  destruct (bytes_eqb k s) eqn:Q.
  - apply eqb_str in Q. subst k. destruct I as [E | I]; [congruence|].
    exfalso. apply N1. apply (in_map fst) in I. exact I.
  - destruct I as [E | I]; [|apply IH; assumption]. injection E as -> ->.
    assert (bytes_eqb s s = true) by (apply eqb_str; reflexivity). congruence.
Qed.

Lemma export_spec : forall hash a s c, (forall k f, a = Udl k f -> u_stored f = None) ->
  In (s, c) (export hash a) -> api_symbol a = Some s /\ api_checksum hash a = Some c.
Proof.
  intros hash [omp m | k f] s c U I; cbn [export api_symbol api_checksum] in *.
  - destruct (checksum_symbol m); [|contradiction]. destruct (scaffolding_checksum omp m); [|contradiction].
    destruct I as [E | []]. injection E as -> ->. split; reflexivity.
  - destruct I as [E | []]. injection E as <- <-. unfold udl_scaffolding, ci_checksum.
    rewrite (U k f eq_refl). split; reflexivity.
Qed.
Lemma exports_spec : forall hash l s c, Forall (fun a => forall k f, a = Udl k f -> u_stored f = None) (lib_items l) ->
  In (s, c) (exports hash l) ->
  exists a, In a (lib_items l) /\ api_symbol a = Some s /\ api_checksum hash a = Some c.
Proof.
  intros hash l s c U I. unfold exports in I. apply in_flat_map in I. destruct I as (a & Ia & I).
  exists a. split; [exact Ia|]. apply export_spec; [|exact I]. exact (proj1 (Forall_forall _ _) U a Ia).
Qed.

(** * Reading *)
Definition reads (hash : bytes -> Z) (a : api) (x : loaded) : Prop :=
  match a, x with
  | Macro omp m, LMacro m' =>
      no_checksum m' = no_checksum m /\ (has_checksum m -> item_checksum m' = scaffolding_checksum omp m)
  | Udl k f, LUdl k' f' => k' = k /\ f' = load_udl hash k f
  | _, _ => False
  end.

Lemma load_item_reads : forall hash d a x, readable d a -> load_item hash d a = Some x -> reads hash a x.
Proof.
  intros hash d [omp m | k f] x R L; cbn [load_item readable] in *.
  - destruct R as (R1 & R2 & b & W). rewrite W in L.
    destruct (C27_read_back d omp m b R1 R2 W) as (m' & Q & N). rewrite Q in L. injection L as <-.
    split; [exact N|]. intro H.
    destruct (C31_checksums_agree d omp m b [] R1 R2 H W) as (m2 & Q2 & C). rewrite app_nil_r, Q in Q2.
    injection Q2 as <-. exact C.
  - injection L as <-. split; reflexivity.
Qed.
Lemma load_item_some : forall hash d a, readable d a -> exists x, load_item hash d a = Some x.
Proof.
  intros hash d [omp m | k f] R; cbn [load_item readable] in *; [|eauto].
  destruct R as (R1 & R2 & b & W). rewrite W.
  destruct (C27_read_back d omp m b R1 R2 W) as (m' & Q & N). rewrite Q. eauto.
Qed.

Lemma load_items_spec : forall hash d l xs, Forall (readable d) l -> load_items hash d l = Some xs ->
  Forall2 (reads hash) l xs.
Proof.
  intros hash d l. induction l as [|a l IH]; intros xs R L; cbn [load_items] in L.
  - injection L as <-. constructor.
  - inversion R as [|u v R1 R2]; subst.
    destruct (load_item hash d a) as [x|] eqn:Q; [|discriminate].
    destruct (load_items hash d l) as [ys|] eqn:Q2; [|discriminate]. injection L as <-.
    constructor; [eapply load_item_reads; eassumption | apply IH; [assumption | reflexivity]].
Qed.
Lemma load_items_some : forall hash d l, Forall (readable d) l -> exists xs, load_items hash d l = Some xs.
Proof.
  intros hash d l. induction l as [|a l IH]; intros R; cbn [load_items]; [eauto|].
  inversion R as [|u v R1 R2]; subst.
  destruct (load_item_some hash d a R1) as (x & ->). destruct (IH R2) as (xs & ->). eauto.
Qed.

Lemma forall2_in : forall {A B} (R : A -> B -> Prop) l l' a, Forall2 R l l' -> In a l -> exists b, In b l' /\ R a b.
Proof.
  intros A B R l l' a F. induction F as [|x y l l' r F IH]; intros [-> | I] || (intros I); try contradiction.
  - exists y. split; [left; reflexivity | exact r].
  - destruct (IH I) as (b & Ib & Rb). exists b. split; [right; exact Ib | exact Rb].
Qed.
Lemma forall2_in' : forall {A B} (R : A -> B -> Prop) l l' b, Forall2 R l l' -> In b l' -> exists a, In a l /\ R a b.
Proof.
  intros A B R l l' b F. induction F as [|x y l l' r F IH]; intros [-> | I] || (intros I); try contradiction.
  - exists x. split; [left; reflexivity | exact r].
  - destruct (IH I) as (a & Ia & Ra). exists a. split; [right; exact Ia | exact Ra].
Qed.

Lemma object_read : forall hash l xs s, Forall2 (reads hash) l xs ->
  (is_object xs s = true <-> object_named l s).
Proof.
  intros hash l xs s F. unfold is_object. rewrite existsb_exists. split.
  - intros (x & I & Q). destruct (forall2_in' _ _ _ x F I) as (a & Ia & R).
    destruct x as [m'|]; [|discriminate]. destruct m'; try discriminate.
    apply eqb_str in Q. destruct a as [omp m | k f]; [|contradiction]. destruct R as [R _].
    destruct m; try discriminate R;
      try (match type of R with context [no_checksum (MUniffiTrait ?u)] => destruct u; discriminate R end).
    cbn [no_checksum] in R. injection R as R. subst. eexists. eexists. split; [exact Ia | reflexivity].
  - intros (omp & o & I & Q). destruct (forall2_in _ _ _ _ F I) as (x & Ix & R).
    destruct x as [m'|]; [|contradiction]. destruct R as [R _].
    exists (LMacro m'). split; [exact Ix|].
    destruct m'; try discriminate R;
      try (match type of R with context [no_checksum (MUniffiTrait ?u)] => destruct u; discriminate R end).
    cbn [no_checksum] in R. injection R as R. subst. apply eqb_str. reflexivity.
Qed.

Lemma callback_read : forall hash l xs s, Forall2 (reads hash) l xs ->
  (is_callback xs s = true <-> callback_named l s).
Proof.
  intros hash l xs s F. unfold is_callback. rewrite existsb_exists. split.
  - intros (x & I & Q). destruct (forall2_in' _ _ _ x F I) as (a & Ia & R).
    destruct x as [m'|]; [|discriminate]. destruct m'; try discriminate.
    apply eqb_str in Q. destruct a as [omp m | k f]; [|contradiction]. destruct R as [R _].
    destruct m; try discriminate R;
      try (match type of R with context [no_checksum (MUniffiTrait ?u)] => destruct u; discriminate R end).
    cbn [no_checksum] in R. injection R as R1 R2 R3. subst. do 3 eexists. exact Ia.
  - intros (omp & mp & doc & I). destruct (forall2_in _ _ _ _ F I) as (x & Ix & R).
    destruct x as [m'|]; [|contradiction]. destruct R as [R _].
    exists (LMacro m'). split; [exact Ix|].
    destruct m'; try discriminate R;
      try (match type of R with context [no_checksum (MUniffiTrait ?u)] => destruct u; discriminate R end).
    cbn [no_checksum] in R. injection R as R1 R2 R3. subst. apply eqb_str. reflexivity.
Qed.

Definition checks_of (hash : bytes -> Z) (t : target) (xs : list loaded) : list (str * Z) :=
  match t with Python => pl_checks hash xs | _ => ci_checks hash xs end.

(** The checks cover the covered items. *)
Lemma covered_checked : forall hash t l xs a, Forall2 (reads hash) l xs ->
  (forall k f, In (Udl k f) l -> u_stored f = None) ->
  In a l -> covered t l a ->
  (forall omp m, a = Macro omp m -> exists b, write omp m = Some b) ->
  exists s c, api_symbol a = Some s /\ api_checksum hash a = Some c /\ In (s, c) (checks_of hash t xs).
Proof.
  intros hash t l xs a F U I C W. destruct (forall2_in _ _ _ _ F I) as (x & Ix & R).
  destruct a as [omp m | k f].
  - destruct x as [m'|]; [|contradiction]. destruct R as [R H].
    destruct (W omp m eq_refl) as (b & B).
    destruct m as [ | |f| | | | |s f|s f|s i f| | | ]; cbn [covered] in C; try contradiction;
      specialize (H Logic.I); unfold scaffolding_checksum in H |- *; cbn [api_symbol api_checksum checksum_symbol];
      unfold scaffolding_checksum; rewrite B in H |- *;
      (destruct m' as [ | |f'| | | | |s' f'|s' f'|s' i' f'| |u| ]; try discriminate R; [|destruct u; discriminate R]);
      cbn [no_checksum item_checksum] in R, H; unfold no_checksum_fn in R.
    + injection R as R1 R2 R3 R4 R5 R6 R7 R8. do 2 eexists. split; [reflexivity|]. split; [reflexivity|].
      unfold checks_of.
      assert (G : In (fn_checksum_symbol_name (f_mp f) (f_name f), calc_checksum b) (ci_checks hash xs) /\
                  In (fn_checksum_symbol_name (f_mp f) (f_name f), calc_checksum b) (pl_checks hash xs)).
      { split; apply in_flat_map; exists (LMacro (MFunc f')); (split; [exact Ix|]); cbn iota; unfold named; rewrite H, R2, R1; left.
        - reflexivity.
        - unfold fn_checksum_symbol_name. rewrite ns_idem. reflexivity. }
      destruct G as [G1 G2]. destruct t; assumption.
    + injection R as R0 R1 R2 R3 R4 R5 R6 R7 R8. do 2 eexists. split; [reflexivity|]. split; [reflexivity|].
      apply (object_read hash l xs s F) in C. unfold checks_of.
      assert (G : In (constructor_checksum_symbol_name (f_mp f) s (f_name f), calc_checksum b) (ci_checks hash xs) /\
                  In (constructor_checksum_symbol_name (f_mp f) s (f_name f), calc_checksum b) (pl_checks hash xs)).
      { split; apply in_flat_map; exists (LMacro (MConstructor s' f')); (split; [exact Ix|]); cbn iota;
          rewrite R0, C; unfold named; rewrite H, R2, R1; left.
        - reflexivity.
        - unfold constructor_checksum_symbol_name. rewrite ns_idem. reflexivity. }
      destruct G as [G1 G2]. destruct t; assumption.
    + injection R as R0 R1 R2 R3 R4 R5 R6 R7 R8. do 2 eexists. split; [reflexivity|]. split; [reflexivity|].
      apply (object_read hash l xs s F) in C. unfold checks_of.
      assert (G : In (method_checksum_symbol_name (f_mp f) s (f_name f), calc_checksum b) (ci_checks hash xs) /\
                  In (method_checksum_symbol_name (f_mp f) s (f_name f), calc_checksum b) (pl_checks hash xs)).
      { split; apply in_flat_map; exists (LMacro (MMethod s' f')); (split; [exact Ix|]); cbn iota;
          rewrite R0, C; unfold named; rewrite H, R2, R1; left.
        - reflexivity.
        - unfold method_checksum_symbol_name. rewrite ns_idem. reflexivity. }
      destruct G as [G1 G2]. destruct t; assumption.
    + injection R as R0 R00 R1 R2 R3 R4 R5 R6 R7 R8. do 2 eexists. split; [reflexivity|]. split; [reflexivity|].
      unfold checks_of.
      assert (G1 : is_callback xs s || is_object xs s = true ->
        In (method_checksum_symbol_name (f_mp f) s (f_name f), calc_checksum b) (ci_checks hash xs)).
      { intro G. apply in_flat_map; exists (LMacro (MTraitMethod s' i' f')); (split; [exact Ix|]); cbn iota.
        rewrite R0, G. unfold named. rewrite H, R2, R1. left. reflexivity. }
      assert (G2 : is_object xs s = true ->
        In (method_checksum_symbol_name (f_mp f) s (f_name f), calc_checksum b) (pl_checks hash xs)).
      { intro G. apply in_flat_map; exists (LMacro (MTraitMethod s' i' f')); (split; [exact Ix|]); cbn iota.
        rewrite R0, G. unfold named. rewrite H, R2, R1. left.
        unfold method_checksum_symbol_name. rewrite ns_idem. reflexivity. }
      destruct C as [C | [C1 C2]].
      * apply (object_read hash l xs s F) in C. rewrite C, orb_true_r in *. destruct t; auto.
      * apply (callback_read hash l xs s F) in C2. rewrite C2 in *. destruct t; cbn [orb] in *; auto; congruence.
  - destruct x as [|k' f']; [contradiction|]. destruct R as [-> ->]. specialize (U k f I).
    do 2 eexists. split; [reflexivity|]. split; [reflexivity|].
    assert (Q : forall k, ci_checksum hash k (load_udl hash k f) = hash (stream k f) mod 65536).
    { intro k0. unfold ci_checksum, load_udl. rewrite U. reflexivity. }
    assert (E : u_mp (load_udl hash k f) = u_mp f /\ u_name (load_udl hash k f) = u_name f /\
                u_self (load_udl hash k f) = u_self f) by (unfold load_udl; rewrite U; repeat split).
    destruct E as (E1 & E2 & E3).
    assert (G : In (u_checksum_name k f, hash (stream k f) mod 65536) (ci_checks hash xs) /\
                In (u_checksum_name k f, hash (stream k f) mod 65536) (pl_checks hash xs)).
    { split; apply in_flat_map; exists (LUdl k (load_udl hash k f)); (split; [exact Ix|]); cbn iota.
      - rewrite Q. left. unfold u_checksum_name. rewrite E1, E2, E3. reflexivity.
      - destruct k; rewrite Q, E1, E2, ?E3; left; cbn [u_checksum_name];
          unfold fn_checksum_symbol_name, method_checksum_symbol_name, constructor_checksum_symbol_name;
          rewrite ns_idem; reflexivity. }
    destruct G as [G1 G2]. destruct t; assumption.
Qed.

Lemma load_parts : forall hash o b l, load hash o b l = true ->
  (checks_version (b_target b) o = true -> b_version b = lib_version l) /\
  (checks_sums (b_target b) o = true -> forall s c, In (s, c) (b_checks b) -> lookup s (exports hash l) = Some c) /\
  (forall s c, In (s, c) (b_checks b) -> lookup s (exports hash l) <> None).
Proof.
  intros hash o b l L. unfold load in L. apply andb_prop in L. destruct L as [L L3].
  apply andb_prop in L. destruct L as [L1 L2]. split; [|split].
  - intro V. rewrite V in L2. cbn in L2. apply Z.eqb_eq. exact L2.
  - intros V s c I. rewrite V in L3. cbn [negb orb] in L3. rewrite forallb_forall in L3. specialize (L3 _ I).
    cbn [fst snd] in L3. destruct (lookup s (exports hash l)); [|discriminate].
    apply Z.eqb_eq in L3. congruence.
  - intros s c I. rewrite forallb_forall in L1. specialize (L1 _ I). cbn [fst] in L1.
    destruct (lookup s (exports hash l)); congruence.
Qed.

Definition udl_fresh (items : list api) : Prop := forall k f, In (Udl k f) items -> u_stored f = None.
Lemma readable_fresh : forall d l, Forall (readable d) l -> udl_fresh l.
Proof. intros d l R k f I. exact (proj1 (Forall_forall _ _) R _ I). Qed.

Lemma accepted : forall hash d t v items b o l,
  Forall (readable d) items -> Forall (readable d) (lib_items l) ->
  generate hash d t v items = Some b -> load hash o b l = true ->
  (checks_version t o = true -> lib_version l = v) /\
  (checks_sums t o = true -> forall a, In a items -> covered t items a ->
     exists a', In a' (lib_items l) /\ api_symbol a' = api_symbol a /\
                api_checksum hash a' = api_checksum hash a).
Proof.
  intros hash d t v items b o l R RL G L. unfold generate in G.
  destruct (load_items hash d items) as [xs|] eqn:Q; [|discriminate]. injection G as <-.
  pose proof (load_items_spec hash d items xs R Q) as F.
  apply load_parts in L. cbn [b_target b_version b_checks] in L. destruct L as (L1 & L2 & _).
  split; [intro V; symmetry; apply L1; exact V|].
  intros V a I C.
  destruct (covered_checked hash t items xs a F (readable_fresh d items R) I C) as (s & c & S1 & S2 & J).
  { intros omp m ->. pose proof (proj1 (Forall_forall _ _) R _ I) as X. cbn [readable] in X. tauto. }
  specialize (L2 V s c J). apply lookup_in in L2.
  apply exports_spec in L2.
  - destruct L2 as (a' & I' & A1 & A2). exists a'. rewrite S1, S2. auto.
  - apply Forall_forall. intros a' I' k f ->. exact (proj1 (Forall_forall _ _) RL _ I').
Qed.

Lemma accepted_same : forall hash d t v items b o l,
  Forall (fits d) items -> Forall (fits d) (lib_items l) -> collision_free hash items (lib_items l) ->
  generate hash d t v items = Some b -> checks_sums t o = true -> load hash o b l = true ->
  forall a, In a items -> covered t items a ->
    exists a', In a' (lib_items l) /\ api_symbol a' = api_symbol a /\ same_item a a'.
Proof.
  intros hash d t v items b o l R RL CF G V L a I C.
  assert (RR : forall xs, Forall (fits d) xs -> Forall (readable d) xs).
  { intros xs F. eapply Forall_impl; [|exact F]. intros [omp m | k f]; cbn [fits readable]; tauto. }
  destruct (accepted hash d t v items b o l (RR _ R) (RR _ RL) G L) as [_ A].
  destruct (A V a I C) as (a' & I' & S1 & S2). exists a'. split; [exact I'|]. split; [exact S1|].
  assert (CC := CF a a' I I' (eq_sym S1) (eq_sym S2)).
  pose proof (proj1 (Forall_forall _ _) R _ I) as FA. pose proof (proj1 (Forall_forall _ _) RL _ I') as FA'.
  destruct a as [omp m | k f], a' as [omp' m' | k' f']; cbn [same_item fits] in *; try contradiction.
  - destruct FA as (P1 & P2 & bb & P3), FA' as (Q1 & Q2 & bb' & Q3).
    destruct (Meta_Eq.metadata_eq_dec (no_checksum m) (no_checksum m')) as [E | N]; [exact E|]. exfalso.
    rewrite P3, Q3 in CC. injection CC as ->.
    exact (C32_different_items_different_bytes d omp m bb' omp' m' bb' [] [] P1 P2 P3 Q1 Q2 Q3 N eq_refl).
  - intros <-. destruct FA as [_ FA], FA' as [_ FA'].
    exact (streams_distinct k f f' [] [] FA FA' (f_equal (fun x => x ++ []) CC)).
Qed.

(** Bindings load their own library. *)
Lemma checks_from : forall hash t l xs s c, Forall2 (reads hash) l xs -> udl_fresh l ->
  (forall omp m, In (Macro omp m) l -> exists b, write omp m = Some b) ->
  In (s, c) (checks_of hash t xs) -> exists a, In a l /\ In (s, c) (export hash a).
Proof.
  intros hash t l xs s c F U W I.
  assert (G : exists x, In x xs /\
    ((exists k f, x = LUdl k f /\ (s, c) = (u_checksum_name k f, ci_checksum hash k f)) \/
     (exists m f, x = LMacro m /\ has_checksum m /\ item_checksum m = f_checksum f /\
        (forall sy, checksum_symbol m = Some sy -> sy = s) /\ f_checksum f = Some c))).
  { unfold checks_of in I.
    assert (NM : forall sy f, In (s, c) (named sy f) -> sy = s /\ f_checksum f = Some c).
    { intros sy f J. unfold named in J. destruct (f_checksum f); [|contradiction].
      destruct J as [J | []]. injection J as -> ->. split; reflexivity. }
    assert (I2 : In (s, c) (ci_checks hash xs) \/ In (s, c) (pl_checks hash xs)) by (destruct t; auto).
    clear I. destruct I2 as [I | I]; apply in_flat_map in I; destruct I as (x & Ix & I); exists x; (split; [exact Ix|]);
      (destruct x as [m | k f];
       [right; destruct m as [ | |f| | | | |so f|so f|so i f| | | ]; try contradiction;
        try (destruct (is_object xs so); [|try contradiction]); try (destruct (is_callback xs so); [|try contradiction]);
        try contradiction; cbn [orb] in I; try contradiction;
        apply NM in I; destruct I as [<- I]; (exists (match m with _ => f end) || idtac) | left]).
    all: try (eexists; exists f; split; [reflexivity|]; split; [exact Logic.I|]; split; [reflexivity|];
      split; [|exact I]; intros sy Q; injection Q as <-;
      unfold fn_checksum_symbol_name, method_checksum_symbol_name, constructor_checksum_symbol_name;
      rewrite ?ns_idem; reflexivity).
    - destruct I as [I | []]. exists k, f. split; [reflexivity | symmetry; exact I].
    - exists k, f. split; [reflexivity|].
      destruct k; destruct I as [I | []]; rewrite <- I; cbn [u_checksum_name];
        unfold fn_checksum_symbol_name, method_checksum_symbol_name, constructor_checksum_symbol_name;
        rewrite ns_idem; reflexivity. }
  destruct G as (x & Ix & G). destruct (forall2_in' _ _ _ _ F Ix) as (a & Ia & R). exists a. split; [exact Ia|].
  destruct G as [(k & f & -> & Q) | (m' & f & -> & H & IC & SY & FC)].
  - destruct a as [omp m | k' f']; [contradiction|]. destruct R as [-> ->]. cbn [export].
    rewrite Q. left. unfold udl_scaffolding, ci_checksum, load_udl. rewrite (U k' f' Ia). reflexivity.
  - destruct a as [omp m | k' f']; [|contradiction]. destruct R as [R RC]. cbn [export].
    assert (HM : has_checksum m /\ checksum_symbol m = checksum_symbol m').
    { destruct m' as [ | |f'| | | | |s' f'|s' f'|s' i' f'| |u| ]; try contradiction;
        (destruct m as [ | |f0| | | | |s0 f0|s0 f0|s0 i0 f0| |u| ]; try discriminate R; [|destruct u; discriminate R]);
        cbn [no_checksum] in R; unfold no_checksum_fn in R; injection R; intros; split; try exact Logic.I;
        cbn [checksum_symbol]; congruence. }
    destruct HM as [HM SM]. specialize (RC HM). rewrite SM.
    destruct (checksum_symbol m') as [sy|] eqn:QS.
    + rewrite (SY sy eq_refl), <- RC, IC, FC. left. reflexivity.
    + destruct m'; contradiction || discriminate.
Qed.

Lemma own_library : forall hash d t v items b o,
  Forall (readable d) items -> NoDup (map fst (exports hash (Lib v items))) ->
  generate hash d t v items = Some b -> load hash o b (Lib v items) = true.
Proof.
  intros hash d t v items b o R N G. unfold generate in G.
  destruct (load_items hash d items) as [xs|] eqn:Q; [|discriminate]. injection G as <-.
  pose proof (load_items_spec hash d items xs R Q) as F.
  assert (A : forall s c, In (s, c) (checks_of hash t xs) -> lookup s (exports hash (Lib v items)) = Some c).
  { intros s c I. destruct (checks_from hash t items xs s c F (readable_fresh d items R)) with (2 := I) as (a & Ia & E).
    - intros omp m J. pose proof (proj1 (Forall_forall _ _) R _ J) as X. cbn [readable] in X. tauto.
    - apply lookup_nodup; [exact N|]. apply in_flat_map. exists a. split; assumption. }
  unfold load. cbn [b_target b_version b_checks lib_version]. fold (checks_of hash t xs).
  rewrite Z.eqb_refl, !orb_true_r. cbn [andb].
  apply andb_true_intro. split; [|apply orb_true_intro; right]; rewrite ?andb_true_r; apply forallb_forall;
    intros [s c] I; cbn [fst snd]; rewrite (A s c I); [reflexivity | apply Z.eqb_refl].
Qed.

(** * The version of the runtime *)
Lemma all_at_equal : forall p is, all_at p p is = Ok true.
Proof.
  intros p is. induction is as [|i is IH]; [reflexivity|]. cbn [all_at]. unfold same_at.
  destruct (Nat.leb_spec (length p) i); [exact IH|]. unfold byte_at.
  destruct (nth_error p i) eqn:Q; [|apply nth_error_None in Q; lia].
  cbn [bind]. destruct (byte_eqb_spec b b); [exact IH | congruence].
Qed.
Lemma all_at_total : forall p b is, length p = length b -> exists r, all_at p b is = Ok r /\
  (r = true -> forall i, In i is -> nth_error p i = nth_error b i).
Proof.
  intros p b is L. induction is as [|i is (r & IH1 & IH2)].
  - exists true. split; [reflexivity|]. intros _ i [].
  - cbn [all_at]. unfold same_at. destruct (Nat.leb_spec (length p) i) as [G | G].
    + exists r. split; [exact IH1|]. intros T j [<- | J]; [|apply IH2; assumption].
      rewrite (proj2 (nth_error_None p i)), (proj2 (nth_error_None b i)) by lia. reflexivity.
    + unfold byte_at. destruct (nth_error p i) as [x|] eqn:Q; [|apply nth_error_None in Q; lia].
      destruct (nth_error b i) as [y|] eqn:Q2; [|apply nth_error_None in Q2; lia].
      cbn [bind]. destruct (byte_eqb_spec x y) as [-> | NE].
      * exists r. split; [exact IH1|]. intros T j [<- | J]; [congruence | apply IH2; assumption].
      * exists false. split; [reflexivity | discriminate].
Qed.
Lemma nth_error_ext : forall (a b : bytes), (forall i, nth_error a i = nth_error b i) -> a = b.
Proof.
  induction a as [|x a IH]; intros [|y b] E; [reflexivity | specialize (E 0%nat); discriminate | specialize (E 0%nat); discriminate|].
  f_equal; [specialize (E 0%nat); cbn in E; congruence|]. apply IH. intro i. exact (E (S i)).
Qed.
Lemma version_check : forall p b,
  exists r, check_compatible_version p b = Ok r /\ (r = true <-> p = b /\ (length p < 10)%nat).
Proof.
  intros p b. unfold check_compatible_version. destruct (Nat.eqb_spec (length p) (length b)) as [L | L].
  - destruct (all_at_total p b [0; 1; 2; 3; 4; 5; 6; 7; 8; 9]%nat L) as (r & Q & P). rewrite Q. cbn [bind].
    eexists. split; [reflexivity|]. rewrite andb_true_iff, Nat.ltb_lt. split.
    + intros [-> S10]. split; [|exact S10]. apply nth_error_ext. intro i.
      destruct (Nat.ltb_spec i 10) as [I | I].
      * apply P; [reflexivity|]. do 10 (destruct i as [|i]; [cbn; tauto|]). lia.
      * rewrite (proj2 (nth_error_None p i)), (proj2 (nth_error_None b i)) by lia. reflexivity.
    + intros [-> S10]. split; [|exact S10]. rewrite all_at_equal in Q. congruence.
  - exists false. split; [reflexivity|]. split; [discriminate | intros [-> _]; congruence].
Qed.

(** * Functions that are gone *)
Lemma missing_refused : forall hash d t v items b o l,
  Forall (readable d) items -> Forall (readable d) (lib_items l) ->
  generate hash d t v items = Some b -> load hash o b l = true ->
  forall a, In a items -> covered t items a ->
    exists a', In a' (lib_items l) /\ api_symbol a' = api_symbol a.
Proof.
  intros hash d t v items b o l R RL G L a I C. unfold generate in G.
  destruct (load_items hash d items) as [xs|] eqn:Q; [|discriminate]. injection G as <-.
  pose proof (load_items_spec hash d items xs R Q) as F.
  apply load_parts in L. cbn [b_target b_version b_checks] in L. destruct L as (_ & _ & L3).
  destruct (covered_checked hash t items xs a F (readable_fresh d items R) I C) as (s & c & S1 & S2 & J).
  { intros omp m ->. pose proof (proj1 (Forall_forall _ _) R _ I) as X. cbn [readable] in X. tauto. }
  specialize (L3 s c J). destruct (lookup s (exports hash l)) as [c'|] eqn:Q2; [|congruence].
  apply lookup_in in Q2. apply exports_spec in Q2.
  - destruct Q2 as (a' & I' & A1 & A2). exists a'. rewrite S1. auto.
  - apply Forall_forall. intros a' I' k f ->. exact (proj1 (Forall_forall _ _) RL _ I').
Qed.

Lemma generated : forall hash d t v items, Forall (readable d) items ->
  exists b, generate hash d t v items = Some b.
Proof.
  intros hash d t v items R. unfold generate. destruct (load_items_some hash d items R) as (xs & ->). eauto.
Qed.

(** * Which checks are made *)
Lemma version_checked_iff : forall t o, version_checked t o <-> checks_version t o = true.
Proof.
  intros t [s m]; destruct t, s; cbn [version_checked checks_version from_source negb];
    split; auto; try discriminate; try contradiction.
Qed.
Lemma sums_checked_iff : forall t o, sums_checked t o <-> checks_sums t o = true.
Proof.
  intros t [s m]; destruct t, s, m;
    cbn [sums_checked checks_sums from_source omit_checksums negb orb]; intuition congruence.
Qed.

Lemma accepted_spec : forall hash d t v items b o l,
  Forall (readable d) items -> Forall (readable d) (lib_items l) ->
  generate hash d t v items = Some b -> load hash o b l = true ->
  (version_checked t o -> lib_version l = v) /\
  (sums_checked t o -> forall a, In a items -> covered t items a ->
     exists a', In a' (lib_items l) /\ api_symbol a' = api_symbol a /\
                api_checksum hash a' = api_checksum hash a).
Proof.
  intros hash d t v items b o l R RL G L.
  rewrite version_checked_iff, sums_checked_iff. exact (accepted hash d t v items b o l R RL G L).
Qed.

Lemma lookup_dom : forall s l, lookup s l = None <-> ~ In s (map fst l).
Proof.
  intros s l. induction l as [|[k c] l IH]; cbn [lookup map fst In]; [tauto|].
  destruct (bytes_eqb_spec k s) as [-> | N]; [split; [discriminate | tauto]|].
  rewrite IH. tauto.
Qed.

Lemma omitted : forall hash o b l l',
  ~ sums_checked (b_target b) o ->
  (version_checked (b_target b) o -> lib_version l = lib_version l') ->
  (forall s, In s (map fst (exports hash l)) <-> In s (map fst (exports hash l'))) ->
  load hash o b l = load hash o b l'.
Proof.
  intros hash o b l l' NS V E. unfold load. rewrite sums_checked_iff in NS. rewrite version_checked_iff in V.
  destruct (checks_sums (b_target b) o); [congruence|]. cbn [negb orb]. f_equal. f_equal.
  - induction (b_checks b) as [|[s c] cs IH]; [reflexivity|]. cbn [forallb fst]. rewrite IH. f_equal.
    pose proof (lookup_dom s (exports hash l)) as D. pose proof (lookup_dom s (exports hash l')) as D'.
    specialize (E s). destruct (lookup s (exports hash l)), (lookup s (exports hash l')); try reflexivity; exfalso.
    + assert (~ In s (map fst (exports hash l'))) by (apply D'; reflexivity).
      assert (Some z = None) by (apply D; tauto). discriminate.
    + assert (~ In s (map fst (exports hash l))) by (apply D; reflexivity).
      assert (Some z = None) by (apply D'; tauto). discriminate.
  - destruct (checks_version (b_target b) o); [|reflexivity]. rewrite V by reflexivity. reflexivity.
Qed.
