From Verif Require Import Base Utf8 Utf8_Proofs Meta_Types Meta_Model Meta_Spec Meta_Proofs.
Open Scope Z_scope.

(** * Whole items *)

Ltac step_icode :=
  eapply readsr_cons; [apply reads_u8|]; rewrite ?icode_of_byte; cbv beta iota.
Ltac fin := apply readsr_ret.

(** What the reader returns: the item with the checksums filled in. *)
Definition filled (m m' : metadata) (c : option Z) : Prop :=
  match m with
  | MFunc f => m' = MFunc (with_cs (f_ret f) f c)
  | MConstructor s f => m' = MConstructor s (with_cs None f c)
  | MMethod s f => m' = MMethod s (with_cs (f_ret f) f c)
  | MTraitMethod s i f => m' = MTraitMethod s i (with_cs (f_ret f) f c)
  | MUniffiTrait u => exists c1 c2, m' = MUniffiTrait (utrait_cs u c1 c2)
  | _ => m' = m
  end.

Lemma reads_object o : o_imp o = IStruct ->
  utf8 (o_mp o) -> utf8 (o_name o) -> opt_all utf8 (o_orig o) -> doc_ok (o_doc o) ->
  reads read_object ([CStr (o_mp o); CStr (o_name o)] ++ orig_calls (o_orig o) ++ doc_calls (o_doc o)) o.
Proof.
  destruct o as [mp n g i c]; cbn [o_mp o_name o_orig o_imp o_doc]. intros -> U1 U2 O C.
  unfold read_object. cbn [app].
  do 2 (eapply readsr_cons; [apply reads_str; auto|]).
  eapply readsr_bind; [apply reads_orig; auto|].
  eapply readsr_last; [apply reads_doc; auto|]. fin.
Qed.

Lemma readsr_ext {A} (p : rd A) cs X Y : (forall r, X r = Y r) -> readsr p cs X -> readsr p cs Y.
Proof. intros E H K r. rewrite <- E. auto. Qed.

Lemma reads_item d omp init m :
  recordable d m -> utf8 omp -> Forall cok (item_calls omp m) -> forall r,
  exists m', read_item d init (cb (item_calls omp m) ++ r) = Ok (m', r) /\
             filled m m' (so_far init r).
Proof.
  intros R UO K r.
  assert (G : forall X, readsr (read_item d init) (item_calls omp m) X ->
              (filled m (X r) (so_far init r)) ->
              exists m', read_item d init (cb (item_calls omp m) ++ r) = Ok (m', r) /\
             filled m m' (so_far init r)).
  { intros X H F. exists (X r). split; [apply H; auto|auto]. }
  destruct m as [a b|a b c|f|o|a b c|q|e|s f|s f|s i f|a b t c|u|t u]; cbn [recordable] in R.
  - destruct R. apply (G (fun _ => MNamespace a b)); [|reflexivity].
    cbn [item_calls]. unfold read_item. step_icode.
    eapply readsr_cons; [apply reads_str; auto|]. eapply readsr_last; [apply reads_str; auto|]. fin.
  - destruct R as (? & ? & ?). apply (G (fun _ => MUdlFile a b c)); [|reflexivity].
    cbn [item_calls]. unfold read_item. step_icode.
    do 2 (eapply readsr_cons; [apply reads_str; auto|]). eapply readsr_last; [apply reads_str; auto|]. fin.
  - pose proof R as (U1 & U2 & _). pose proof R as (_ & _ & _ & _ & RT & _).
    apply (G (fun r => MFunc (with_cs (f_ret f) f (so_far init r)))); [|reflexivity].
    cbn [item_calls app]. unfold read_item. step_icode.
    do 2 (eapply readsr_cons; [apply reads_str; auto|]).
    apply (readsr_map _ MFunc). apply reads_fn_tail; auto.
  - destruct R as (U1 & U2 & O & C). apply (G (fun _ => MObject o)); [|reflexivity].
    destruct o as [mp n g [|k] c]; cbn [o_mp o_name o_orig o_imp o_doc item_calls] in *;
      unfold read_item; cbn [app]; step_icode.
    + eapply readsr_last; [|fin].
      apply (reads_object (Obj mp n g IStruct c)); auto.
    + match goal with |- readsr _ (?a :: ?b :: ?l ++ ?l' ++ ?l'') _ =>
        replace (a :: b :: l ++ l' ++ l'') with ((([a; b] ++ l ++ l') ++ l''))
          by (cbn [app]; rewrite <- app_assoc; reflexivity) end.
      eapply readsr_bind; [apply (reads_object (Obj mp n g IStruct c)); auto|].
      eapply readsr_last; [apply reads_kind|]. fin.
  - destruct R as (? & ? & ?). apply (G (fun _ => MCallback a b c)); [|reflexivity].
    cbn [item_calls app]. unfold read_item. step_icode.
    do 2 (eapply readsr_cons; [apply reads_str; auto|]). eapply readsr_last; [apply reads_doc; auto|]. fin.
  - destruct R as (U1 & U2 & O & F & C). apply (G (fun _ => MRecord q)); [|reflexivity].
    destruct q as [mp n g fs c]; cbn [r_mp r_name r_orig r_fields r_doc item_calls app] in *.
    unfold read_item. step_icode.
    do 2 (eapply readsr_cons; [apply reads_str; auto|]).
    eapply readsr_bind; [apply reads_orig; auto|].
    eapply readsr_bind; [eapply reads_list; [apply reads_field|auto]|].
    eapply readsr_last; [apply reads_doc; auto|]. fin.
  - destruct R as (U1 & U2 & O & T & C & V). apply (G (fun _ => MEnum e)); [|reflexivity].
    destruct e as [mp n g sh t vs ne c];
      cbn [e_mp e_name e_orig e_shape e_discr_ty e_variants e_non_exhaustive e_doc item_calls app] in *.
    unfold read_item. step_icode.
    do 2 (eapply readsr_cons; [apply reads_str; auto|]).
    eapply readsr_bind; [apply reads_orig; auto|].
    eapply readsr_cons; [apply reads_u8|]. rewrite shape_of_byte.
    assert (TV : readsr (vs <- read_list (match sh with
                           | ShError true => read_flat_variant
                           | _ => read_variant d
                           end) ;;
          ne <- read_bool ;; c <- read_opt_long_string ;;
          ret (MEnum (Enum mp n g sh t vs ne c)))
       ((match sh with ShError true => counted flat_variant_calls vs | _ => counted variant_calls vs end) ++
        CBool ne :: doc_calls c) (fun _ => MEnum (Enum mp n g sh t vs ne c))).
    { eapply readsr_bind.
      - destruct sh as [|[]].
        + eapply reads_list; [apply reads_variant|exact V].
        + eapply reads_list; [apply reads_flat_variant|exact V].
        + eapply reads_list; [apply reads_variant|exact V].
      - eapply readsr_cons; [apply reads_bool|].
        eapply readsr_last; [apply reads_doc; auto|]. fin. }
    destruct t as [t|]; cbn [app opt_all] in *.
    + eapply readsr_cons; [apply reads_bool|]. cbv beta iota.
      eapply readsr_cons; [|exact TV]. eapply readsr_last; [apply reads_type; auto|]. fin.
    + eapply readsr_cons; [apply reads_bool|]. cbv beta iota.
      eapply (readsr_bind (ret None) _ []); [apply readsr_ret|exact TV].
  - destruct R as (U & F & N & D). pose proof F as (U1 & U2 & _).
    apply (G (fun r => MConstructor s (with_cs None f (so_far init r)))); [|reflexivity].
    cbn [item_calls app]. unfold read_item. step_icode.
    do 3 (eapply readsr_cons; [apply reads_str; auto|]).
    intros K' r'.
    assert (TO : opt_all (ty_ok d) (Some (TObject omp s IStruct))) by (split; cbn; auto).
    rewrite (rbind_ok _ _ _ _ _ (reads_fn_tail d init f _ F TO K' r')).
    cbn [with_cs f_ret is_self]. rewrite bytes_eqb_refl. reflexivity.
  - destruct R as (U & F). pose proof F as (U1 & U2 & _).
    apply (G (fun r => MMethod s (with_cs (f_ret f) f (so_far init r)))); [|reflexivity].
    intros K' r'. cbn [item_calls] in *. unfold method_calls in *. cbn [app] in *.
    rewrite cb_cons. cbn [call_bytes app]. unfold read_item.
    erewrite rbind_ok by reflexivity. rewrite icode_of_byte.
    inversion K' as [|? ? _ K'']; subst.
    assert (M : readsr (read_method d init) (CStr (f_mp f) :: CStr s :: CStr (f_name f) :: fn_tail_calls (f_ret f) f)
                 (fun r => (s, with_cs (f_ret f) f (so_far init r)))).
    { unfold read_method. pose proof F as (_ & _ & O & P & RT & T & C).
      do 3 (eapply readsr_cons; [apply reads_str; auto|]).
      apply (readsr_map _ (fun f => (s, f))). apply reads_fn_tail; auto. }
    erewrite rbind_ok by (apply M; auto). reflexivity.
  - destruct R as (U & F & I). pose proof F as (U1 & U2 & _). pose proof F as (_ & _ & _ & _ & RT & _).
    apply (G (fun r => MTraitMethod s i (with_cs (f_ret f) f (so_far init r)))); [|reflexivity].
    cbn [item_calls app]. unfold read_item. step_icode.
    do 2 (eapply readsr_cons; [apply reads_str; auto|]).
    eapply readsr_cons; [apply reads_u32; auto|].
    eapply readsr_cons; [apply reads_str; auto|].
    apply (readsr_map _ (MTraitMethod s i)). apply reads_fn_tail; auto.
  - destruct R as (? & ? & ? & ?). apply (G (fun _ => MCustom a b t c)); [|reflexivity].
    cbn [item_calls app]. unfold read_item. step_icode.
    do 2 (eapply readsr_cons; [apply reads_str; auto|]).
    eapply readsr_cons; [apply reads_type; auto|].
    eapply readsr_last; [apply reads_doc; auto|]. fin.
  - cbn [item_calls] in *. inversion K as [|? ? _ K']; subst.
    destruct (reads_utrait d init u R K' r) as (c1 & c2 & E).
    exists (MUniffiTrait (utrait_cs u c1 c2)). split; [|do 2 eexists; reflexivity].
    rewrite cb_cons. cbn [call_bytes app]. unfold read_item. erewrite rbind_ok by reflexivity.
    rewrite icode_of_byte. erewrite rbind_ok by exact E. reflexivity.
  - destruct R as (T & T').
    destruct t as [| | | | | | | | | | | | | | |mp n [|k]| | | | | | | | |];
      try (cbn [item_calls] in K; inversion K as [|? ? B _]; destruct B).
    apply (G (fun _ => MTraitImpl (TObject mp n IStruct) u)); [|reflexivity].
    intros K' r'. cbn [item_calls] in *.
    assert (X : reads (t <- read_type d ;; w <- read_type d ;; ret (MTraitImpl t w))
                  (type_calls (TObject mp n IStruct) ++ [CBuf (type_id u)])
                  (MTraitImpl (TObject mp n IStruct) u)).
    { eapply readsr_bind; [apply reads_type_calls; auto|].
      eapply readsr_last; [apply reads_type; auto|]. fin. }
    rewrite cb_cons. cbn [call_bytes app]. unfold read_item. erewrite rbind_ok by reflexivity.
    rewrite icode_of_byte.
    inversion K' as [|? ? _ K2]; inversion K2 as [|? ? _ K3]; subst.
    match goal with |- ?p (cb ?l ++ r') = _ =>
      change (p (cb (type_calls (TObject mp n IStruct) ++ [CBuf (type_id u)]) ++ r') =
              Ok (MTraitImpl (TObject mp n IStruct) u, r')) end.
    apply X. apply Forall_app. cbn [type_calls].
    inversion K3 as [|? ? M1 K4]; inversion K4 as [|? ? M2 K5]; inversion K5 as [|? ? M3 K6]; subst.
    split; repeat (constructor; auto).
Qed.

Lemma filled_no_checksum m m' c : 
  (forall s f, m = MConstructor s f -> f_ret f = None) ->
  filled m m' c -> no_checksum m' = no_checksum m.
Proof.
  intros N. destruct m as [a b|a b e|f|o|a b e|q|e|s f|s f|s i f|a b t e|u|t u]; cbn [filled];
    try (intros ->; reflexivity).
  - intros ->. pose proof (N s f eq_refl) as E. destruct f; cbn in *. subst. reflexivity.
  - intros (c1 & c2 & ->). destruct u; reflexivity.
Qed.

Lemma write_read d omp m b rest :
  recordable d m -> utf8 omp -> write omp m = Some b ->
  exists m', read d (b ++ rest) = Ok (m', rest) /\ no_checksum m' = no_checksum m /\
             (has_checksum m -> item_checksum m' = Some (calc_checksum b)).
Proof.
  intros R U W. apply exec_some in W as [K ->].
  destruct (reads_item d omp (cb (item_calls omp m) ++ rest) m R U K rest) as (m' & E & F).
  exists m'. split; [exact E|]. split.
  - eapply filled_no_checksum; [|exact F]. intros s f ->. apply R.
  - assert (SF : so_far (cb (item_calls omp m) ++ rest) rest = Some (calc_checksum (cb (item_calls omp m)))).
    { unfold so_far. rewrite app_length.
      replace (length (cb (item_calls omp m)) + length rest - length rest)%nat
        with (length (cb (item_calls omp m)) + 0)%nat by lia.
      rewrite firstn_app_2, firstn_O, app_nil_r. reflexivity. }
    rewrite SF in F. destruct m; cbn [has_checksum filled] in *; try tauto; intros _; subst m'; reflexivity.
Qed.

(** * Two items with the same bytes are the same item *)

Lemma write_inj d omp m omp' m' b r r' b' :
  recordable d m -> utf8 omp -> write omp m = Some b ->
  recordable d m' -> utf8 omp' -> write omp' m' = Some b' ->
  b ++ r = b' ++ r' -> no_checksum m = no_checksum m' /\ b = b'.
Proof.
  intros R U W R' U' W' E.
  destruct (write_read d omp m b r R U W) as (x & X & N & _).
  destruct (write_read d omp' m' b' r' R' U' W') as (x' & X' & N' & _).
  rewrite E in X. rewrite X in X'. injection X' as -> ->. split; [congruence|].
  apply app_inv_tail in E. auto.
Qed.

(** * The reader looks only at the bytes it consumes *)

Definition good {A} (p : rd A) : Prop :=
  forall b x r, p b = Ok (x, r) -> exists q, b = q ++ r /\ forall e, p (q ++ e) = Ok (x, e).

Lemma good_ret {A} (x : A) : good (ret x).
Proof. intros b y r [= <- <-]. exists []. auto. Qed.
Lemma good_fail {A} : good (@fail A).
Proof. intros b y r [=]. Qed.
Lemma good_bind {A B} (p : rd A) (f : A -> rd B) :
  good p -> (forall x, good (f x)) -> good (rbind p f).
Proof.
  intros P F b y r E. unfold rbind in E.
  destruct (p b) as [[x r1]| | |] eqn:Ep; try discriminate.
  destruct (P _ _ _ Ep) as (q1 & -> & H1). destruct (F x _ _ _ E) as (q2 & -> & H2).
  exists (q1 ++ q2). split; [rewrite app_assoc; reflexivity|]. intros e.
  rewrite <- app_assoc. erewrite rbind_ok by apply H1. apply H2.
Qed.
Lemma good_u8 : good read_u8.
Proof. intros [|v b] x r E; inversion E; subst. exists [x]. auto. Qed.
Lemma good_le k : good (read_le k).
Proof.
  intros b x r E. unfold read_le in E. destruct (split_n k b) as [[a r']|] eqn:S; [|discriminate].
  injection E as <- <-. apply split_n_some in S as [-> L]. exists a. split; auto.
  intros e. unfold read_le. rewrite split_n_app; auto.
Qed.
Lemma good_take n : good (take_str n).
Proof.
  intros b x r E. unfold take_str in E. destruct (split_n n b) as [[a r']|] eqn:S; [|discriminate].
  destruct (utf8_valid a) eqn:U; [|discriminate].
  injection E as <- <-. apply split_n_some in S as [-> L]. exists a. split; auto.
  intros e. unfold take_str. rewrite split_n_app, U; auto.
Qed.

Create HintDb good.
#[local] Hint Resolve good_ret good_fail good_u8 good_le good_take : good.
Ltac good_step :=
  first [ solve [auto with good] | apply good_bind; [|let x := fresh "x" in intros x] ].

Lemma good_bool : good read_bool.
Proof. unfold read_bool. repeat good_step. Qed.
Lemma good_string : good read_string.
Proof. unfold read_string. repeat good_step. Qed.
#[local] Hint Resolve good_bool good_string : good.
Lemma good_opt_string : good read_opt_string.
Proof. unfold read_opt_string. good_step; [good_step|]. destruct x; repeat good_step. Qed.
Lemma good_long : good read_long_string.
Proof. unfold read_long_string, read_u16. repeat good_step. Qed.
#[local] Hint Resolve good_opt_string good_long : good.
Lemma good_opt_long : good read_opt_long_string.
Proof. unfold read_opt_long_string. repeat good_step. Qed.
Lemma good_kind : good read_trait_kind.
Proof. unfold read_trait_kind. good_step; [good_step|]. destruct (kind_of x); repeat good_step. Qed.
#[local] Hint Resolve good_opt_long good_kind : good.
Lemma good_type d : good (read_type d).
Proof.
  induction d as [|d IH]; cbn [read_type].
  - intros b x r [=].
  - good_step; [good_step|]. destruct (tcode_of x) as [[]|]; repeat good_step.
Qed.
#[local] Hint Resolve good_type : good.

(** [peek_u8] is always followed by a read of the same byte. *)
Lemma good_peek {A} (f : byte -> rd A) :
  (forall v, good (f v)) -> (forall v x r, f v [] = Ok (x, r) -> False) ->
  (forall v x b r, f v b = Ok (x, r) -> b <> r) -> good (rbind peek_u8 f).
Proof.
  intros F _ N b x r E. destruct b as [|v b]; [discriminate|].
  unfold rbind in E. cbn [peek_u8] in E. destruct (F v _ _ _ E) as (q & Eq & H).
  exists q. split; auto. intros e. destruct q as [|v' q].
  - cbn [app] in Eq. exfalso. eapply N; eauto.
  - injection Eq as <- _. unfold rbind. cbn [app peek_u8]. apply (H e).
Qed.

Definition eats {A} (p : rd A) : Prop :=
  forall b x r, p b = Ok (x, r) -> (length r < length b)%nat.
Definition shrinks {A} (p : rd A) : Prop :=
  forall b x r, p b = Ok (x, r) -> (length r <= length b)%nat.
Lemma good_shrinks {A} (p : rd A) : good p -> shrinks p.
Proof. intros H b x r E. destruct (H _ _ _ E) as (q & -> & _). rewrite app_length. lia. Qed.
Lemma eats_u8_bind {A} (f : byte -> rd A) : (forall v, good (f v)) -> eats (rbind read_u8 f).
Proof.
  intros F [|v b] x r E; [discriminate|]. unfold rbind in E. cbn [read_u8] in E.
  apply (good_shrinks _ (F v)) in E. cbn [length]. lia.
Qed.
Lemma eats_type d : eats (read_type d).
Proof.
  destruct d as [|d]; cbn [read_type].
  - intros b x r [=].
  - apply eats_u8_bind. intros x. destruct (tcode_of x) as [[]|]; repeat good_step.
Qed.
Lemma eats_bind {A B} (p : rd A) (f : A -> rd B) :
  eats p -> (forall x, good (f x)) -> eats (rbind p f).
Proof.
  intros P F b y r E. unfold rbind in E. destruct (p b) as [[x r1]| | |] eqn:Ep; try discriminate.
  apply P in Ep. apply (good_shrinks _ (F x)) in E. lia.
Qed.
Lemma eats_ne {A} (p : rd A) b x r : eats p -> p b = Ok (x, r) -> b <> r.
Proof. intros P E ->. apply P in E. lia. Qed.

Lemma good_opt_type d : good (read_opt_type d).
Proof.
  unfold read_opt_type.
  assert (E : forall v, good (match tcode_of v with
    | Some TYPE_UNIT => _ <- read_u8 ;; ret None
    | _ => t <- read_type d ;; ret (Some t) end) /\
    eats (match tcode_of v with
    | Some TYPE_UNIT => _ <- read_u8 ;; ret None
    | _ => t <- read_type d ;; ret (Some t) end)).
  { intros v. split.
    - destruct (tcode_of v) as [[]|]; repeat good_step.
    - destruct (tcode_of v) as [[]|];
        first [apply eats_u8_bind; intros; repeat good_step
              | apply eats_bind; [apply eats_type|intros; repeat good_step]]. }
  apply good_peek.
  - intros v; apply E.
  - intros v x r H. apply (proj2 (E v)) in H. cbn in H. lia.
  - intros v x b r H. eapply eats_ne; [apply (E v)|exact H].
Qed.
#[local] Hint Resolve good_opt_type : good.
Lemma good_return d : good (read_return_type d).
Proof.
  unfold read_return_type.
  assert (E : forall v, good (match tcode_of v with
    | Some TYPE_UNIT => _ <- read_u8 ;; ret (None, None)
    | Some TYPE_RESULT =>
      _ <- read_u8 ;; a <- read_opt_type d ;; b <- read_opt_type d ;; ret (a, b)
    | _ => t <- read_type d ;; ret (Some t, None) end) /\
    eats (match tcode_of v with
    | Some TYPE_UNIT => _ <- read_u8 ;; ret (None, None)
    | Some TYPE_RESULT =>
      _ <- read_u8 ;; a <- read_opt_type d ;; b <- read_opt_type d ;; ret (a, b)
    | _ => t <- read_type d ;; ret (Some t, None) end)).
  { intros v. split.
    - destruct (tcode_of v) as [[]|]; repeat good_step.
    - destruct (tcode_of v) as [[]|];
        first [apply eats_u8_bind; intros; repeat good_step
              | apply eats_bind; [apply eats_type|intros; repeat good_step]]. }
  apply good_peek.
  - intros v; apply E.
  - intros v x r H. apply (proj2 (E v)) in H. cbn in H. lia.
  - intros v x b r H. eapply eats_ne; [apply (E v)|exact H].
Qed.
#[local] Hint Resolve good_return : good.

Lemma good_default_ (p : rd literal) : good p -> good (read_default_ p).
Proof.
  intros P. unfold read_default_. good_step; [good_step|].
  destruct (Byte.eqb x DEFVALUE_DEFAULT); [repeat good_step|].
  destruct (Byte.eqb x DEFVALUE_LITERAL); repeat good_step.
Qed.
Lemma good_literal_ (p : rd literal) t : good p -> good (read_literal_ p t).
Proof.
  intros P. unfold read_literal_. good_step; [good_step|].
  destruct (lcode_of x) as [[]|]; auto with good.
  - destruct t; repeat good_step.
  - good_step; [good_step|]. destruct (int_lit t x0); repeat good_step.
  - destruct t; repeat good_step.
  - repeat good_step.
  - destruct t; repeat good_step.
Qed.
Fixpoint ty_size (t : ty) : nat :=
  match t with
  | TBox t | TOption t | TSet t | TSeq t | TCustom _ _ t => S (ty_size t)
  | TMap k v => S (ty_size k + ty_size v)
  | _ => 1%nat
  end.
Lemma good_literal t : good (read_literal t).
Proof.
  assert (H : forall n t, (ty_size t < n)%nat -> good (read_literal t)).
  { intros n; induction n as [|n IH]; intros u L; [lia|].
    rewrite read_literal_unfold. apply good_literal_.
    destruct (base_type u) as [| | | | | | | | | | | | | | | | | | | |w| | | |] eqn:B; auto with good.
    good_step; [|repeat good_step]. apply good_default_, IH.
    destruct u as [| | | | | | | | | | | | | | | | | | | | | | | |? ? u]; cbn [base_type] in B;
      try discriminate B; subst; cbn [ty_size] in L; try lia.
    injection B as ->. cbn in *. lia. }
  apply (H (S (ty_size t))). lia.
Qed.
#[local] Hint Resolve good_literal : good.
Lemma good_opt_default t : good (read_opt_default t).
Proof.
  unfold read_opt_default, read_default. good_step; [good_step|].
  destruct x; [|repeat good_step]. good_step; [apply good_default_; auto with good|repeat good_step].
Qed.
Lemma good_opt_literal t : good (read_opt_literal t).
Proof. unfold read_opt_literal. good_step; [good_step|]. destruct x; repeat good_step. Qed.
Lemma good_n {A} (p : rd A) n : good p -> good (read_n n p).
Proof. intros P. induction n; cbn [read_n]; repeat good_step. Qed.
#[local] Hint Resolve good_opt_default good_opt_literal good_n : good.
Lemma good_list {A} (p : rd A) : good p -> good (read_list p).
Proof. intros P. unfold read_list. repeat good_step. Qed.
#[local] Hint Resolve good_list : good.
Lemma good_u32 : good read_u32.
Proof. apply good_le. Qed.
#[local] Hint Resolve good_u32 : good.
Lemma good_pass : good read_pass_by.
Proof. unfold read_pass_by. good_step; [good_step|]. good_step; [good_step|]. destruct x, x0; repeat good_step. Qed.
#[local] Hint Resolve good_pass : good.
Lemma good_param d : good (read_param d).
Proof. unfold read_param. repeat good_step. Qed.
Lemma good_field d : good (read_field d).
Proof. unfold read_field. repeat good_step. Qed.
#[local] Hint Resolve good_param good_field : good.
Lemma good_variant d : good (read_variant d).
Proof. unfold read_variant. repeat good_step. Qed.
Lemma good_flat : good read_flat_variant.
Proof. unfold read_flat_variant. repeat good_step. Qed.
Lemma good_object : good read_object.
Proof. unfold read_object. repeat good_step. Qed.
#[local] Hint Resolve good_variant good_flat good_object : good.

(** The same for the readers that compute a checksum: [h] is what came before. *)
Definition goodi {A} (p : bytes -> rd A) : Prop :=
  forall h b x r, p (h ++ b) b = Ok (x, r) ->
  exists q, b = q ++ r /\ forall e, p (h ++ q ++ e) (q ++ e) = Ok (x, e).

Lemma goodi_good {A} (p : rd A) : good p -> goodi (fun _ => p).
Proof. intros P h b x r E. destruct (P _ _ _ E) as (q & ? & ?). eauto. Qed.
Lemma goodi_bind {A B} (p : bytes -> rd A) (f : bytes -> A -> rd B) :
  goodi p -> (forall x, goodi (fun i => f i x)) -> goodi (fun i => rbind (p i) (f i)).
Proof.
  intros P F h b y r E. unfold rbind in E.
  destruct (p (h ++ b) b) as [[x r1]| | |] eqn:Ep; try discriminate.
  destruct (P _ _ _ _ Ep) as (q1 & -> & H1).
  rewrite app_assoc in E.
  destruct (F x (h ++ q1) _ _ _ E) as (q2 & -> & H2).
  exists (q1 ++ q2). split; [rewrite app_assoc; reflexivity|]. intros e.
  specialize (H1 (q2 ++ e)). specialize (H2 e).
  rewrite <- !app_assoc in *. erewrite rbind_ok by apply H1. apply H2.
Qed.
Lemma goodi_checksum : goodi checksum_so_far.
Proof.
  intros h b x r [= <- <-]. exists []. split; auto. intros e. cbn [app]. unfold checksum_so_far.
  rewrite !app_length.
  replace (length h + length e - length e)%nat with (length h + 0)%nat by lia.
  replace (length h + length b - length b)%nat with (length h + 0)%nat by lia.
  rewrite !firstn_app_2, !firstn_O. reflexivity.
Qed.

Ltac gi :=
  match goal with
  | |- goodi (fun _ => ?p) => apply (goodi_good p); solve [repeat good_step]
  | |- goodi (fun i => rbind (@?p i) (@?f i)) => apply (goodi_bind p f); [|let x := fresh "x" in intros x]
  end.

Lemma goodi_fn_tail d mp n : goodi (fun i => read_fn_tail d i mp n).
Proof. unfold read_fn_tail. repeat gi. apply goodi_checksum. Qed.
Lemma goodi_method d : goodi (fun i => read_method d i).
Proof. unfold read_method. repeat gi. apply goodi_fn_tail. Qed.
Lemma goodi_mmethod d : goodi (fun i => read_metadata_method d i).
Proof.
  unfold read_metadata_method. gi; [gi|]. destruct (icode_of x) as [[]|]; try gi. apply goodi_method.
Qed.
Lemma goodi_utrait d : goodi (fun i => read_utrait d i).
Proof.
  unfold read_utrait. gi; [gi|].
  destruct x; try gi; repeat (first [apply goodi_mmethod | gi]).
Qed.
Lemma goodi_item d : goodi (read_item d).
Proof.
  change (goodi (fun i => read_item d i)). unfold read_item. gi; [gi|].
  destruct (icode_of x) as [[]|]; try gi;
    repeat (first [apply goodi_fn_tail | apply goodi_method | apply goodi_utrait | gi]).
  - apply goodi_good.
    destruct (shape_of x3) as [sh|]; [|good_step]. good_step; [good_step|]. good_step.
    + destruct x4; repeat good_step.
    + destruct sh as [|[]]; repeat good_step.
  - destruct (is_self x1 (f_ret x3)); gi.
Qed.

Lemma read_good d b m r :
  read d b = Ok (m, r) -> exists q, b = q ++ r /\ forall e, read d (q ++ e) = Ok (m, e).
Proof. intros E. apply (goodi_item d [] b m r E). Qed.

Lemma truncated d omp m b q r :
  recordable d m -> utf8 omp -> write omp m = Some b -> b = q ++ r -> r <> [] ->
  forall x s, read d q <> Ok (x, s).
Proof.
  intros R U W -> N x s E.
  destruct (write_read d omp m _ [] R U W) as (m' & X & _). rewrite app_nil_r in X.
  destruct (read_good _ _ _ _ E) as (p & -> & H).
  specialize (H (s ++ r)). rewrite app_assoc in H. rewrite H in X. injection X as -> X.
  destruct s; [cbn in X; auto|discriminate].
Qed.

(** * Panics *)

(** Some length prefix in [b] announces more bytes than are left. *)
Definition short (b : bytes) : Prop :=
  exists q r, b = q ++ r /\
    ((exists v t, r = v :: t /\ size t < Z.of_N (b2n v)) \/
     (exists v w t, r = v :: w :: t /\ size t < Z.of_N (b2n v + 256 * b2n w))).

Lemma short_app q r : short r -> short (q ++ r).
Proof. intros (q' & r' & -> & H). exists (q ++ q'), r'. split; [apply app_assoc|auto]. Qed.

Definition pan {A} (p : rd A) : Prop := forall b, p b = Panic -> short b.

Lemma pan_bind {A B} (p : rd A) (f : A -> rd B) :
  good p -> pan p -> (forall x, pan (f x)) -> pan (rbind p f).
Proof.
  intros G P F b E. unfold rbind in E. destruct (p b) as [[x r]| | |] eqn:Ep; try discriminate.
  - destruct (G _ _ _ Ep) as (q & -> & _). apply short_app. eapply F; eauto.
  - apply P; auto.
Qed.
Lemma pan_ret {A} (x : A) : pan (ret x).
Proof. intros b [=]. Qed.
Lemma pan_fail {A} : pan (@fail A).
Proof. intros b [=]. Qed.
Lemma pan_u8 : pan read_u8.
Proof. intros [|v b] [=]. Qed.
Lemma pan_le k : pan (read_le k).
Proof. intros b. unfold read_le. destruct (split_n k b) as [[]|]; intros [=]. Qed.
Lemma pan_string : pan read_string.
Proof.
  intros [|v b] E; [discriminate|]. unfold read_string, rbind in E. cbn [read_u8] in E.
  unfold take_str in E. destruct (split_n (N.to_nat (b2n v)) b) as [[a r]|] eqn:S;
    [destruct (utf8_valid a); discriminate|].
  apply split_n_none in S. exists [], (v :: b). split; auto. left. do 2 eexists. split; [reflexivity|].
  unfold size. lia.
Qed.
Transparent le_val.
Lemma le_val2 v w : le_val [v; w] = (b2n v + 256 * b2n w)%N.
Proof. cbn [le_val]. lia. Qed.
Opaque le_val.
Lemma pan_long : pan read_long_string.
Proof.
  intros b E. unfold read_long_string, rbind in E. unfold read_u16, read_le in E.
  destruct (split_n 2 b) as [[a r]|] eqn:S; [|discriminate].
  apply split_n_some in S as [-> L]. destruct a as [|v [|w [|? ?]]]; try discriminate L.
  unfold take_str in E. destruct (split_n _ r) as [[a r']|] eqn:S;
    [destruct (utf8_valid a); discriminate|].
  apply split_n_none in S. rewrite le_val2 in S.
  exists [], (v :: w :: r). split; auto. right. do 3 eexists. split; [reflexivity|].
  unfold size. lia.
Qed.
Create HintDb pan.
#[local] Hint Resolve pan_ret pan_fail pan_u8 pan_le pan_string pan_long : pan.
Ltac pan_step :=
  first [ solve [auto with pan] | apply pan_bind; [solve [repeat good_step]| |let x := fresh "x" in intros x] ].
Lemma pan_bool : pan read_bool.
Proof. unfold read_bool. repeat pan_step. Qed.
#[local] Hint Resolve pan_bool : pan.
Lemma pan_opt_string : pan read_opt_string.
Proof. unfold read_opt_string. pan_step; [pan_step|]. destruct x; repeat pan_step. Qed.
#[local] Hint Resolve pan_opt_string : pan.
Lemma pan_opt_long : pan read_opt_long_string.
Proof. unfold read_opt_long_string. repeat pan_step. Qed.
Lemma pan_kind : pan read_trait_kind.
Proof. unfold read_trait_kind. pan_step; [pan_step|]. destruct (kind_of x); repeat pan_step. Qed.
#[local] Hint Resolve pan_opt_long pan_kind : pan.
Lemma pan_type d : pan (read_type d).
Proof.
  induction d as [|d IH]; cbn [read_type].
  - intros b [=].
  - pan_step; [pan_step|]. destruct (tcode_of x) as [[]|]; repeat pan_step.
Qed.
#[local] Hint Resolve pan_type : pan.
Lemma pan_peek {A} (f : byte -> rd A) : (forall v, pan (f v)) -> pan (rbind peek_u8 f).
Proof. intros F [|v b] E; [discriminate|]. unfold rbind in E. cbn [peek_u8] in E. eapply F; eauto. Qed.
Lemma pan_opt_type d : pan (read_opt_type d).
Proof.
  unfold read_opt_type. apply pan_peek. intros v. destruct (tcode_of v) as [[]|]; repeat pan_step.
Qed.
#[local] Hint Resolve pan_opt_type : pan.
Lemma pan_return d : pan (read_return_type d).
Proof.
  unfold read_return_type. apply pan_peek. intros v. destruct (tcode_of v) as [[]|]; repeat pan_step.
Qed.
#[local] Hint Resolve pan_return : pan.
Lemma pan_default_ (p : rd literal) : good p -> pan p -> pan (read_default_ p).
Proof.
  intros G P. unfold read_default_. pan_step; [pan_step|].
  destruct (Byte.eqb x DEFVALUE_DEFAULT); [repeat pan_step|].
  destruct (Byte.eqb x DEFVALUE_LITERAL); repeat pan_step.
Qed.
Lemma pan_literal_ (p : rd literal) t : pan p -> pan (read_literal_ p t).
Proof.
  intros P. unfold read_literal_. apply pan_bind; [good_step|pan_step|intros x].
  destruct (lcode_of x) as [[]|]; auto with pan.
  - destruct t; repeat pan_step.
  - pan_step; [pan_step|]. destruct (int_lit t x0); repeat pan_step.
  - destruct t; repeat pan_step.
  - repeat pan_step.
  - destruct t; repeat pan_step.
Qed.
Lemma pan_literal t : pan (read_literal t).
Proof.
  assert (H : forall n t, (ty_size t < n)%nat -> pan (read_literal t)).
  { intros n; induction n as [|n IH]; intros u L; [lia|].
    rewrite read_literal_unfold. apply pan_literal_.
    destruct (base_type u) as [| | | | | | | | | | | | | | | | | | | |w| | | |] eqn:B; auto with pan.
    apply pan_bind; [apply good_default_, good_literal| |intros; repeat pan_step].
    apply pan_default_; [apply good_literal|]. apply IH.
    destruct u as [| | | | | | | | | | | | | | | | | | | | | | | |? ? u]; cbn [base_type] in B;
      try discriminate B; subst; cbn [ty_size] in L; try lia.
    injection B as ->. cbn in *. lia. }
  apply (H (S (ty_size t))). lia.
Qed.
#[local] Hint Resolve pan_literal : pan.
Lemma pan_opt_default t : pan (read_opt_default t).
Proof.
  unfold read_opt_default, read_default. pan_step; [pan_step|].
  destruct x; [|repeat pan_step].
  apply pan_bind; [apply good_default_; auto with good|apply pan_default_; auto with good pan|intros; repeat pan_step].
Qed.
Lemma pan_opt_literal t : pan (read_opt_literal t).
Proof. unfold read_opt_literal. pan_step; [pan_step|]. destruct x; repeat pan_step. Qed.
Lemma pan_n {A} (p : rd A) n : good p -> pan p -> pan (read_n n p).
Proof. intros G P. induction n; cbn [read_n]; repeat pan_step. Qed.
#[local] Hint Resolve pan_opt_default pan_opt_literal : pan.
Lemma pan_list {A} (p : rd A) : good p -> pan p -> pan (read_list p).
Proof.
  intros G P. unfold read_list. apply pan_bind; [good_step|pan_step|intros]. apply pan_n; auto.
Qed.
#[local] Hint Resolve pan_list : pan.
Lemma pan_pass : pan read_pass_by.
Proof. unfold read_pass_by. pan_step; [pan_step|]. pan_step; [pan_step|]. destruct x, x0; repeat pan_step. Qed.
#[local] Hint Resolve pan_pass : pan.
Lemma pan_param d : pan (read_param d).
Proof. unfold read_param. repeat pan_step. Qed.
Lemma pan_field d : pan (read_field d).
Proof. unfold read_field. repeat pan_step. Qed.
#[local] Hint Resolve pan_param pan_field : pan.
#[local] Hint Extern 1 (pan (read_list _)) => (apply pan_list; [solve [repeat good_step]|solve [repeat pan_step]]) : pan.
Lemma pan_variant d : pan (read_variant d).
Proof. unfold read_variant. repeat pan_step. Qed.
Lemma pan_flat : pan read_flat_variant.
Proof. unfold read_flat_variant. repeat pan_step. Qed.
Lemma pan_object : pan read_object.
Proof. unfold read_object. repeat pan_step. Qed.
#[local] Hint Resolve pan_variant pan_flat pan_object : pan.

Definition pani {A} (p : bytes -> rd A) : Prop := forall h b, p (h ++ b) b = Panic -> short b.
Lemma pani_pan {A} (p : rd A) : pan p -> pani (fun _ => p).
Proof. intros P h b. apply P. Qed.
Lemma pani_bind {A B} (p : bytes -> rd A) (f : bytes -> A -> rd B) :
  goodi p -> pani p -> (forall x, pani (fun i => f i x)) -> pani (fun i => rbind (p i) (f i)).
Proof.
  intros G P F h b E. unfold rbind in E.
  destruct (p (h ++ b) b) as [[x r]| | |] eqn:Ep; try discriminate.
  - destruct (G _ _ _ _ Ep) as (q & -> & _). apply short_app. rewrite app_assoc in E. eapply F; eauto.
  - eapply P; eauto.
Qed.
Lemma pan_u32 : pan read_u32.
Proof. apply pan_le. Qed.
#[local] Hint Resolve pan_u32 : pan.
Lemma goodi_const {A} (p : rd A) : good p -> goodi (fun _ => p).
Proof. apply goodi_good. Qed.
Ltac gs := solve [apply goodi_checksum | apply goodi_fn_tail | apply goodi_method | apply goodi_utrait
                 | apply goodi_mmethod | gi].
Ltac pi :=
  match goal with
  | |- pani (fun _ => ?p) => apply (pani_pan p); solve [repeat pan_step]
  | |- pani (fun i => rbind (@?p i) (@?f i)) => apply (pani_bind p f); [gs| |let x := fresh "x" in intros x]
  end.
Lemma pani_checksum : pani checksum_so_far.
Proof. intros h b [=]. Qed.
Lemma pani_fn_tail d mp n : pani (fun i => read_fn_tail d i mp n).
Proof. unfold read_fn_tail. repeat pi. apply pani_checksum. Qed.
Lemma pani_method d : pani (fun i => read_method d i).
Proof. unfold read_method. repeat pi. apply pani_fn_tail. Qed.
Lemma pani_mmethod d : pani (fun i => read_metadata_method d i).
Proof.
  unfold read_metadata_method. pi; [pi|]. destruct (icode_of x) as [[]|]; try pi. apply pani_method.
Qed.
Lemma pani_utrait d : pani (fun i => read_utrait d i).
Proof.
  unfold read_utrait. pi; [pi|].
  destruct x; try pi; repeat (first [apply pani_mmethod | pi]).
Qed.
Lemma pani_item d : pani (read_item d).
Proof.
  change (pani (fun i => read_item d i)). unfold read_item. pi; [pi|].
  destruct (icode_of x) as [[]|]; try pi;
    repeat (first [apply pani_fn_tail | apply pani_method | apply pani_utrait | pi]).
  - apply pani_pan.
    destruct (shape_of x3) as [sh|]; [|pan_step].
    apply pan_bind; [good_step|pan_step|intros h]. apply pan_bind; [destruct h; repeat good_step| |intros t].
    + destruct h; repeat pan_step.
    + destruct sh as [|[]]; repeat pan_step.
  - destruct (is_self x1 (f_ret x3)); pi.
Qed.
Lemma read_panic d b : read d b = Panic -> short b.
Proof. apply (pani_item d [] b). Qed.

Lemma zeros_suffix n l r : repeat x00 n = l ++ r -> Forall (eq x00) r.
Proof.
  intros E. assert (H : Forall (eq x00) (repeat x00 n)) by (apply Forall_forall; intros z I; symmetry; eapply repeat_spec; eauto).
  rewrite E in H. apply Forall_app in H. tauto.
Qed.

Lemma padded_not_short b n : 65535 <= Z.of_nat n -> ~ short (b ++ repeat x00 n).
Proof.
  intros L (q & r & E & H).
  assert (Z : forall r', Forall (eq x00) r' -> ~ (
    (exists v t, r' = v :: t /\ size t < Z.of_N (b2n v)) \/
    (exists v w t, r' = v :: w :: t /\ size t < Z.of_N (b2n v + 256 * b2n w)))).
  { intros r' F [(v & t & -> & S) | (v & w & t & -> & S)].
    - inversion F; subst. change (b2n x00) with 0%N in S. pose proof (size_nonneg t). lia.
    - inversion F as [|? ? E1 F']; inversion F' as [|? ? E2 ?]; subst.
      change (b2n x00) with 0%N in S. pose proof (size_nonneg t). lia. }
  destruct (app_eq_app _ _ _ _ E) as (l & [[-> ->] | [-> E']]).
  - destruct l as [|v l].
    + cbn [app] in H. eapply Z; [|exact H]. eapply (zeros_suffix n []). reflexivity.
    + cbn [app] in H. destruct H as [(v' & t & [= -> <-] & S) | (v' & w & t & [= -> E2] & S)].
      * rewrite size_app in S. unfold size in S. rewrite repeat_length in S.
        pose proof (b2n_lt v'). lia.
      * pose proof (b2n_lt v'). pose proof (b2n_lt w).
        destruct l as [|w' l].
        -- cbn [app] in E2. destruct n as [|n]; [lia|]. cbn [repeat] in E2. injection E2 as <- <-.
           change (b2n x00) with 0%N in S. unfold size in S. rewrite repeat_length in S. lia.
        -- cbn [app] in E2. injection E2 as -> <-. rewrite size_app in S. unfold size in S.
           rewrite repeat_length in S. lia.
  - eapply Z; [|exact H]. eapply zeros_suffix; eauto.
Qed.

Lemma padded_no_panic d b n : 65535 <= Z.of_nat n -> read d (b ++ repeat x00 n) <> Panic.
Proof. intros L E. apply read_panic in E. eapply padded_not_short; eauto. Qed.
